(** C45, continued: what varints decode to. *)
From Coq Require Import List NArith ZArith Lia Bool.
From Verif Require Import Utf8 Schema PostcardModel PostcardProps.
Import ListNotations.
Open Scope N_scope.

(** The number that the bytes of a varint stand for, and their form: every byte but the last has its high bit set. *)
Fixpoint value (ds : list N) : N := match ds with [] => 0 | x :: r => x mod 128 + 128 * value r end.
Fixpoint digits (ds : list N) : Prop := match ds with [] => False | [x] => x < 128 | x :: r => 128 <= x /\ digits r end.
Lemma digits_cons : forall x r, 128 <= x -> digits r -> digits (x :: r).
Proof. intros x [|y r] H D; [destruct D|]. now split. Qed.

Lemma vdec_exact : forall b K k sh acc bs n r, varint_max b = K -> 1 <= b -> (1 <= k <= K)%nat -> sh = 7 * N.of_nat (K - k) -> acc < 2 ^ sh ->
  vdec b k sh acc bs = Some (n, r) -> exists ds, bs = ds ++ r /\ digits ds /\ (length ds <= k)%nat /\ n = acc + value ds * 2 ^ sh /\ n < 2 ^ b.
Proof.
  intros b K k. induction k as [|k IH]; intros sh acc bs n r EK B L ES HA H; [discriminate|].
  assert (P0 : 0 < 2 ^ sh) by (apply N.neq_0_lt_0, N.pow_nonzero; lia).
  assert (KB : 7 * N.of_nat K < b + 7 /\ b <= 7 * N.of_nat K).
  { unfold varint_max in EK. pose proof (N.div_mod (b + 6) 7 ltac:(lia)) as D. pose proof (N.mod_lt (b + 6) 7 ltac:(lia)) as D2. revert EK D D2. generalize ((b + 6) / 7) ((b + 6) mod 7). intros; lia. }
  assert (SHB : sh < b) by (subst sh; lia).
  destruct bs as [|x bs]; [discriminate|]. cbn [vdec] in H. assert (XM : x mod 128 < 128) by (apply N.mod_lt; lia).
  assert (SPLIT : 2 ^ b = 2 ^ (b - sh) * 2 ^ sh) by (rewrite <- N.pow_add_r; f_equal; lia).
  destruct (N.ltb_spec x 128) as [X|X].
  - destruct (match k with O => varint_last b <? x | _ => false end) eqn:LB; [discriminate|]. injection H as <- <-.
    assert (SM : x < 2 ^ (b - sh)).
    { destruct k as [|k].
      - apply N.ltb_ge in LB. unfold varint_last in LB. rewrite EK in LB. replace (7 * (N.of_nat K - 1)) with sh in LB by lia.
        assert (2 ^ (b - sh) <> 0) by (apply N.pow_nonzero; lia). lia.
      - assert (2 ^ 7 <= 2 ^ (b - sh)) by (apply N.pow_le_mono_r; lia). change (2 ^ 7) with 128 in *. lia. }
    assert (PR : x * 2 ^ sh < 2 ^ b) by (rewrite SPLIT; apply N.mul_lt_mono_pos_r; assumption).
    exists [x]. cbn [value app digits length]. rewrite (N.mod_small x 128) by exact X. rewrite (N.mod_small _ _ PR). rewrite N.mul_0_r, N.add_0_r.
    split; [reflexivity|]. split; [exact X|]. split; [lia|]. split; [reflexivity|]. rewrite SPLIT. nia.
  - destruct k as [|k]; [discriminate H|].
    assert (S7 : 2 ^ (sh + 7) = 128 * 2 ^ sh) by (rewrite N.pow_add_r; change (2 ^ 7) with 128; lia).
    assert (PB : 2 ^ (sh + 7) <= 2 ^ b) by (apply N.pow_le_mono_r; lia).
    assert (PR : x mod 128 * 2 ^ sh < 2 ^ b) by nia.
    rewrite (N.mod_small _ _ PR) in H. apply IH in H; [|exact EK|exact B|lia|lia|nia].
    destruct H as (ds & -> & D & LN & -> & LT). exists (x :: ds). cbn [value app length]. split; [reflexivity|]. split; [now apply digits_cons|]. split; [lia|]. rewrite S7 in *. split; [lia|exact LT].
Qed.
(** A varint that is decoded loses nothing: the result is the number that its bytes stand for and it is in the range of the type; the bytes are no more than the type allows. *)
Theorem C45_varint_exact : forall b bs n r, 1 <= b -> unvarint b bs = Some (n, r) ->
  exists ds, bs = ds ++ r /\ digits ds /\ N.of_nat (length ds) * 7 < b + 7 /\ n = value ds /\ n < 2 ^ b.
Proof.
  intros b bs n r B H. pose proof (N.div_mod (b + 6) 7 ltac:(lia)) as D. pose proof (N.mod_lt (b + 6) 7 ltac:(lia)) as D2.
  assert (V : 7 * N.of_nat (varint_max b) < b + 7 /\ (1 <= varint_max b)%nat) by (unfold varint_max; revert D D2; generalize ((b + 6) / 7) ((b + 6) mod 7); intros; lia).
  apply (vdec_exact b (varint_max b)) in H; [|reflexivity|exact B|lia|lia|cbn; lia]. destruct H as (ds & -> & DS & LN & -> & LT). exists ds. rewrite N.pow_0_r in *. repeat split; auto; lia.
Qed.
(** And every such sequence of bytes whose number is in the range is decoded, also if it is longer than necessary. *)
Lemma vdec_total : forall b K ds k sh acc r, varint_max b = K -> 1 <= b -> (1 <= k <= K)%nat -> sh = 7 * N.of_nat (K - k) -> digits ds -> (length ds <= k)%nat -> value ds * 2 ^ sh < 2 ^ b ->
  vdec b k sh acc (ds ++ r) = Some (acc + value ds * 2 ^ sh, r).
Proof.
  intros b K. induction ds as [|x ds IH]; intros k sh acc r EK B L ES D LN LT; [destruct D|]. destruct k as [|k]; [cbn in LN; lia|].
  assert (KB : 7 * N.of_nat K < b + 7 /\ b <= 7 * N.of_nat K).
  { unfold varint_max in EK. pose proof (N.div_mod (b + 6) 7 ltac:(lia)) as DD. pose proof (N.mod_lt (b + 6) 7 ltac:(lia)) as D2. revert EK DD D2. generalize ((b + 6) / 7) ((b + 6) mod 7). intros; lia. }
  assert (SHB : sh < b) by (subst sh; lia). assert (P0 : 0 < 2 ^ sh) by (apply N.neq_0_lt_0, N.pow_nonzero; lia).
  assert (SPLIT : 2 ^ b = 2 ^ (b - sh) * 2 ^ sh) by (rewrite <- N.pow_add_r; f_equal; lia).
  cbn [value] in LT. assert (PR : x mod 128 * 2 ^ sh < 2 ^ b) by nia. cbn [vdec app]. rewrite (N.mod_small _ _ PR). destruct ds as [|y ds].
  - cbn in D. rewrite (N.mod_small x 128) in * by exact D. rewrite (proj2 (N.ltb_lt x 128) D). cbn [value app]. rewrite (N.mod_small x 128) by exact D. rewrite N.mul_0_r, N.add_0_r in *.
    destruct k as [|k]; [|reflexivity]. assert (LB : (varint_last b <? x) = false); [|now rewrite LB]. apply N.ltb_ge. unfold varint_last. rewrite EK. replace (7 * (N.of_nat K - 1)) with sh by lia.
    rewrite SPLIT in LT. apply N.mul_lt_mono_pos_r in LT; [|exact P0]. lia.
  - destruct D as [D1 D2]. rewrite (proj2 (N.ltb_ge x 128) D1). assert (S7 : 2 ^ (sh + 7) = 128 * 2 ^ sh) by (rewrite N.pow_add_r; change (2 ^ 7) with 128; lia).
    change (value (x :: y :: ds)) with (x mod 128 + 128 * value (y :: ds)) in *. cbn [length] in LN. rewrite (IH k (sh + 7)); [|exact EK|exact B|lia|lia|exact D2|cbn; lia|].
    + f_equal. f_equal. rewrite S7. generalize (value (y :: ds)). intros v. nia.
    + rewrite S7. revert LT. generalize (value (y :: ds)). intros v LT. nia.
Qed.
Theorem C45_varint_total : forall b ds r, 1 <= b -> digits ds -> N.of_nat (length ds) * 7 < b + 7 -> value ds < 2 ^ b -> unvarint b (ds ++ r) = Some (value ds, r).
Proof.
  intros b ds r B D LN LT. pose proof (N.div_mod (b + 6) 7 ltac:(lia)) as DD. pose proof (N.mod_lt (b + 6) 7 ltac:(lia)) as D2.
  assert (V : N.of_nat (varint_max b) * 7 = b + 6 - (b + 6) mod 7 /\ (1 <= varint_max b)%nat) by (unfold varint_max; revert DD D2; generalize ((b + 6) / 7) ((b + 6) mod 7); intros; lia).
  unfold unvarint. rewrite (vdec_total b (varint_max b)); [now rewrite N.pow_0_r, N.mul_1_r|reflexivity|exact B|lia|lia|exact D| |now rewrite N.pow_0_r, N.mul_1_r].
  revert V D2. generalize ((b + 6) mod 7). intros; lia.
Qed.
(** 300 in two bytes and in three; too large for a byte; too long. *)
Example C45_varint_ex : unvarint 16 [172; 2; 9] = Some (300, [9]) /\ value [172; 2] = 300 /\ unvarint 16 [172; 130; 0; 9] = Some (300, [9]) /\ unvarint 16 [172; 130; 4] = None /\
  unvarint 16 [172; 130; 128; 0] = None /\ value [172; 130; 4] = 65836.
Proof. repeat split. Qed.
Print Assumptions C45_varint_exact.
Print Assumptions C45_varint_total.
