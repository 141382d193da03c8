(** C45: postcard round-trips. *)
From Coq Require Import List NArith ZArith Lia Bool.
From Verif Require Import Utf8 Schema PostcardModel.
Import ListNotations.
Open Scope N_scope.

(** * Varints *)
Lemma pow_add : forall a b, 2 ^ (a + b) = 2 ^ a * 2 ^ b.
Proof. intros. apply N.pow_add_r. Qed.

Lemma vdec_venc : forall b K k n sh acc r,
  varint_max b = K -> 1 <= b -> (1 <= k <= K)%nat -> sh = 7 * N.of_nat (K - k) -> n * 2 ^ sh < 2 ^ b ->
  vdec b k sh acc (venc k n ++ r) = Some (acc + n * 2 ^ sh, r).
Proof.
  intros b K k. induction k as [|k IH]; intros n sh acc r EK B L ES NB; [lia|].
  assert (P0 : 0 < 2 ^ sh) by (apply N.neq_0_lt_0, N.pow_nonzero; lia).
  assert (SHB : sh < b).
  { unfold varint_max in EK. assert (7 * N.of_nat K < b + 7) by lia. subst sh. lia. }
  cbn [venc]. destruct (N.ltb_spec n 128).
  - cbn [app vdec]. rewrite (N.mod_small n 128) by lia. rewrite (N.mod_small (n * 2 ^ sh)) by exact NB.
    rewrite (proj2 (N.ltb_lt n 128)) by lia. destruct k as [|k]; [|reflexivity].
    assert (LAST : n <= varint_last b).
    { unfold varint_last. rewrite EK. replace (7 * (N.of_nat K - 1)) with sh by lia.
      assert (n < 2 ^ (b - sh)); [|lia]. apply (N.mul_lt_mono_pos_r (2 ^ sh)); [exact P0|].
      rewrite <- N.pow_add_r. now replace (b - sh + sh) with b by lia. }
    rewrite (proj2 (N.ltb_ge (varint_last b) n)) by exact LAST. reflexivity.
  - assert (K1 : (1 <= k)%nat).
    { destruct k as [|k]; [|lia]. exfalso. assert (2 ^ (sh + 7) <= n * 2 ^ sh).
      { rewrite pow_add. change (2 ^ 7) with 128. nia. }
      assert (2 ^ (sh + 7) < 2 ^ b) by lia. apply N.pow_lt_mono_r_iff in H1; [|lia].
      unfold varint_max in EK. assert (b <= 7 * N.of_nat K) by lia. lia. }
    assert (DM : n = 128 * (n / 128) + n mod 128) by (apply N.div_mod; lia).
    assert (ML : n mod 128 < 128) by (apply N.mod_lt; lia).
    set (q := n / 128) in *. set (m := n mod 128) in *.
    cbn [app vdec].
    assert (E1 : (128 + m) mod 128 = m) by (rewrite <- (N.mul_1_l 128) at 1; rewrite N.add_comm, N.mod_add by lia; now apply N.mod_small).
    rewrite E1. rewrite (proj2 (N.ltb_ge (128 + m) 128)) by lia.
    rewrite (N.mod_small (m * 2 ^ sh)) by nia.
    rewrite IH; [|exact EK|exact B|lia|lia|].
    + f_equal. f_equal. rewrite pow_add. change (2 ^ 7) with 128. nia.
    + rewrite pow_add. change (2 ^ 7) with 128. nia.
Qed.

Lemma varint_round : forall b n r, 1 <= b -> n < 2 ^ b -> unvarint b (varint b n ++ r) = Some (n, r).
Proof.
  intros b n r B H. unfold unvarint, varint. rewrite (vdec_venc b (varint_max b)); auto.
  - rewrite N.pow_0_r. f_equal. f_equal. lia.
  - unfold varint_max. lia.
  - rewrite Nat.sub_diag. reflexivity.
  - rewrite N.pow_0_r. lia.
Qed.

(** * Integers *)
Lemma unzigzag_zigzag : forall z, unzigzag (zigzag z) = z.
Proof.
  intros z. unfold unzigzag, zigzag. destruct (Z.ltb_spec z 0).
  - assert (E : Z.to_N (-2 * z - 1) = 2 * Z.to_N (- z - 1) + 1) by lia. rewrite E.
    assert (EV : N.even (2 * Z.to_N (- z - 1) + 1) = false) by (rewrite N.even_add, N.even_mul; reflexivity). rewrite EV. lia.
  - assert (E : Z.to_N (2 * z) = 2 * Z.to_N z) by lia. rewrite E. rewrite N.even_mul. cbn [N.even orb].
    rewrite N.mul_comm, N.div_mul by lia. lia.
Qed.

Lemma zigzag_bound : forall w z, (- 2 ^ (Z.of_N (bits w) - 1) <= z < 2 ^ (Z.of_N (bits w) - 1))%Z -> zigzag z < 2 ^ bits w.
Proof.
  intros w z H. unfold zigzag. assert (E : Z.of_N (2 ^ bits w) = (2 * 2 ^ (Z.of_N (bits w) - 1))%Z) by (destruct w; reflexivity).
  destruct (Z.ltb_spec z 0); lia.
Qed.

Lemma uint_round : forall w n r, n < 2 ^ bits w -> dec_uint w (enc_uint w n ++ r) = Some (n, r).
Proof. intros w n r H. destruct w; [reflexivity|..]; apply varint_round; cbn; auto; lia. Qed.

Lemma int_round : forall w z r, (- 2 ^ (Z.of_N (bits w) - 1) <= z < 2 ^ (Z.of_N (bits w) - 1))%Z -> dec_int w (enc_int w z ++ r) = Some (z, r).
Proof.
  intros w z r H. destruct w.
  - cbn [enc_int dec_int app]. f_equal. f_equal. change (- 2 ^ (Z.of_N (bits W8) - 1))%Z with (-128)%Z in H.
    change (2 ^ (Z.of_N (bits W8) - 1))%Z with 128%Z in H. destruct (N.ltb_spec (Z.to_N (z mod 256)) 128); lia.
  - cbn [enc_int dec_int]. rewrite varint_round; [now rewrite unzigzag_zigzag|cbn; lia|now apply zigzag_bound].
  - cbn [enc_int dec_int]. rewrite varint_round; [now rewrite unzigzag_zigzag|cbn; lia|now apply zigzag_bound].
  - cbn [enc_int dec_int]. rewrite varint_round; [now rewrite unzigzag_zigzag|cbn; lia|now apply zigzag_bound].
  - cbn [enc_int dec_int]. rewrite varint_round; [now rewrite unzigzag_zigzag|cbn; lia|now apply zigzag_bound].
Qed.

(** * Byte strings *)
Lemma take_app : forall b r, take (N.of_nat (length b)) (b ++ r) = Some (b, r).
Proof.
  intros b r. unfold take. rewrite app_length. rewrite (proj2 (N.ltb_ge _ _)) by lia. rewrite Nat2N.id.
  rewrite firstn_app, skipn_app, firstn_all, skipn_all, Nat.sub_diag. cbn. now rewrite app_nil_r.
Qed.
Lemma take_eq : forall n b r, n = N.of_nat (length b) -> take n (b ++ r) = Some (b, r).
Proof. intros n b r ->. apply take_app. Qed.

Lemma blob_round : forall b r, len_ok b -> dec_blob (enc_blob b ++ r) = Some (b, r).
Proof.
  intros b r H. unfold dec_blob, enc_blob, enc_len. rewrite <- app_assoc, varint_round; [|lia|exact H]. apply take_app.
Qed.

Lemma le_length : forall k n, length (le_enc k n) = k.
Proof. induction k as [|k IH]; intros n; cbn; [reflexivity|now rewrite IH]. Qed.
Lemma le_round : forall k n, n < 256 ^ N.of_nat k -> le_dec (le_enc k n) = n.
Proof.
  induction k as [|k IH]; intros n H; [cbn in *; lia|]. cbn [le_enc le_dec].
  rewrite IH; [rewrite N.add_comm; symmetry; apply N.div_mod; lia|].
  apply N.div_lt_upper_bound; [lia|]. rewrite <- N.pow_succ_r'. now rewrite <- Nat2N.inj_succ.
Qed.

(** * Sequences *)
Lemma rep_round : forall (A : Type) (e : A -> list N) (d : list N -> option (A * list N)) l r,
  Forall (fun x => forall r, d (e x ++ r) = Some (x, r)) l -> rep (length l) d (flat_map e l ++ r) = Some (l, r).
Proof.
  intros A e d l r H. revert r. induction H as [|x l X _ IH]; intros r; [reflexivity|].
  cbn. rewrite <- app_assoc, X, IH. reflexivity.
Qed.

Lemma round_all :
  (forall t, wf t -> forall v r, ok t v -> pdec t (penc t v ++ r) = Some (v, r)) /\
  (forall ts, wfs ts -> forall v r, oks ts v -> pdecs ts (pencs ts v ++ r) = Some (v, r)) /\
  (forall vs, wfv vs -> forall i v r, i + nvars vs < 2 ^ 32 -> okv vs v ->
     exists j b, pencv vs i v = varint 32 (i + j) ++ b /\ i + j < 2 ^ 32 /\ pdecv vs j (b ++ r) = Some (v, r)).
Proof.
  apply schema_ind; cbn [wf wfs wfv].
  - intros _ [] r _; reflexivity.
  - intros w _ v r H. now apply uint_round.
  - intros w _ v r H. now apply int_round.
  - intros w _ v r H. cbn in *. rewrite take_eq by (rewrite le_length; now rewrite N2Nat.id).
    rewrite le_round; [reflexivity|]. rewrite N2Nat.id. destruct w; exact H.
  - intros _ c r H. cbn [pdec penc] in *. unfold enc_blob, enc_len. pose proof (enc_char_length c).
    rewrite <- app_assoc, varint_round; [|lia|cbn; lia]. rewrite (proj2 (N.ltb_ge _ _)) by lia. rewrite take_app.
    replace (enc_char c) with (utf8_enc [c]) by (cbn; apply app_nil_r). rewrite utf8_round; [reflexivity|]. cbn. cbn in H. now rewrite H.
  - intros _ s r [H1 H2]. cbn [pdec penc]. rewrite blob_round by exact H2. now rewrite utf8_round by exact H1.
  - intros _ b r [_ H2]. cbn [pdec penc]. now apply blob_round.
  - intros _ [] r _. reflexivity.
  - intros t IH W [v|] r H; cbn in *; [now rewrite IH|reflexivity].
  - intros t IH W l r [H1 H2]. cbn [pdec penc]. unfold enc_len. rewrite <- app_assoc, varint_round; [|lia|exact H2].
    rewrite Nat2N.id. apply rep_round. clear H2. induction H1; constructor; auto.
  - intros k IHk v IHv [W1 W2] l r [H1 H2]. cbn [pdec penc]. unfold enc_len. rewrite <- app_assoc, varint_round; [|lia|exact H2].
    rewrite Nat2N.id. apply (rep_round _ (fun p => penc k (fst p) ++ penc v (snd p))). clear H2. induction H1 as [|[x y] l [X Y] _ IH]; constructor; auto.
    intros r0. cbn [fst snd] in *. rewrite <- app_assoc, IHk by auto. now rewrite IHv by auto.
  - intros ts IH W v r H. now apply IH.
  - intros ts IH W v r H. now apply IH.
  - intros vs IH [NV W] v r H. cbn [pdec penc]. destruct (IH W 0 v r) as (j & b & E & L & D); [lia|exact H|].
    rewrite E, <- app_assoc, varint_round by (cbn; lia). exact D.
  - intros _ [] r _. reflexivity.
  - intros nm t IHt ts IHs [W1 W2] [v vs] r [H1 H2]. cbn in *. rewrite <- app_assoc, IHt by auto. now rewrite IHs by auto.
  - intros _ i [].
  - intros nm vs IH W i [[]|v] r NV H; cbn [nvars] in NV; cbn [okv] in H.
    + exists 0, []. cbn. rewrite N.add_0_r, app_nil_r. repeat split; lia.
    + destruct (IH W (i + 1) v r) as (j & b & E & L & D); [lia|exact H|]. exists (j + 1), b. cbn [pencv pdecv].
      rewrite E. split; [f_equal; f_equal; lia|]. split; [lia|].
      rewrite (proj2 (N.eqb_neq (j + 1) 0)) by lia. replace (j + 1 - 1) with j by lia. now rewrite D.
  - intros nm t IHt vs IH [W1 W2] i [x|v] r NV H; cbn [nvars] in NV; cbn [okv] in H.
    + exists 0, (penc t x). cbn. rewrite N.add_0_r, IHt by auto. repeat split; lia.
    + destruct (IH W2 (i + 1) v r) as (j & b & E & L & D); [lia|exact H|]. exists (j + 1), b. cbn [pencv pdecv].
      rewrite E. split; [f_equal; f_equal; lia|]. split; [lia|].
      rewrite (proj2 (N.eqb_neq (j + 1) 0)) by lia. replace (j + 1 - 1) with j by lia. now rewrite D.
Qed.

(** ** C45 *)
(** Decoding what was encoded, with anything after it, gives the value back and leaves what came after. *)
Theorem C45_round_trip_rest : forall t v rest, wf t -> ok t v -> pdec t (penc t v ++ rest) = Some (v, rest).
Proof. intros t v rest W H. now apply round_all. Qed.

Theorem C45_round_trip : forall t v, wf t -> ok t v -> postcard_from_bytes t (postcard_to_bytes t v) = Some v.
Proof.
  intros t v W H. unfold postcard_from_bytes, postcard_to_bytes. rewrite <- (app_nil_r (penc t v)), C45_round_trip_rest; auto.
Qed.

(** No encoding is a prefix of another value's encoding: sequences of encodings can be split in one way only. *)
Theorem C45_unambiguous : forall t v w r1 r2, wf t -> ok t v -> ok t w -> penc t v ++ r1 = penc t w ++ r2 -> v = w /\ r1 = r2.
Proof.
  intros t v w r1 r2 W H1 H2 E. pose proof (C45_round_trip_rest t v r1 W H1) as X. rewrite E, (C45_round_trip_rest t w r2 W H2) in X.
  injection X as -> ->. auto.
Qed.

(** ** Examples *)
Definition nm (l : list N) := l.
(** struct { a: Option<Option<bool>>, b: Vec<i32>, c: enum { U, P(String) } } *)
Definition ex_ty : ty :=
  TStruct (FCons [97] (TOpt (TOpt TBool)) (FCons [98] (TSeq (TInt W32)) (FCons [99] (TEnum (VUnit [85] (VPay [80] TStr VNil))) FNil))).
Definition ex_val : den ex_ty := (Some None, ([-3; 300; 0]%Z, (inr (inl [0x48; 0x20AC]), tt))).
Example C45_ex_ok : wf ex_ty /\ ok ex_ty ex_val.
Proof. cbn; unfold str_ok, len_ok; cbn. repeat split; try lia. repeat constructor; lia. Qed.
Example C45_ex_bytes : postcard_to_bytes ex_ty ex_val = [1; 0; 3; 5; 216; 4; 0; 1; 4; 72; 226; 130; 172].
Proof. vm_compute; reflexivity. Qed.
Example C45_ex_back : postcard_from_bytes ex_ty [1; 0; 3; 5; 216; 4; 0; 1; 4; 72; 226; 130; 172] = Some ex_val.
Proof. vm_compute; reflexivity. Qed.
(** The decoder refuses: a bad bool, an overlong varint, a bad discriminant, bad UTF-8. *)
Example C45_ex_refused :
  pdec TBool [2] = None /\ pdec (TUint W16) [255; 255; 4] = None /\ pdec (TEnum (VUnit [] VNil)) [1] = None /\ pdec TStr [1; 0xFF] = None.
Proof. repeat split; vm_compute; reflexivity. Qed.

Print Assumptions C45_round_trip_rest.
Print Assumptions C45_round_trip.
Print Assumptions C45_unambiguous.
