(** UTF-8 as Rust's [str] uses it: the encoding of Unicode scalar values, and the validating decoder of [core::str::from_utf8].
    A byte is a number below 256, a character a scalar value, a string the list of its characters. *)
From Coq Require Import List NArith Lia Bool ZArith.
Import ListNotations.
Open Scope N_scope.

Definition is_scalar (c : N) : bool := (c <? 0xD800) || ((0xE000 <=? c) && (c <? 0x110000)).

(** [char::encode_utf8] *)
Definition enc_char (c : N) : list N :=
  if c <? 0x80 then [c]
  else if c <? 0x800 then [0xC0 + c / 64; 0x80 + c mod 64]
  else if c <? 0x10000 then [0xE0 + c / 4096; 0x80 + c / 64 mod 64; 0x80 + c mod 64]
  else [0xF0 + c / 262144; 0x80 + c / 4096 mod 64; 0x80 + c / 64 mod 64; 0x80 + c mod 64].

Definition is_cont (b : N) : bool := (0x80 <=? b) && (b <? 0xC0).

(** One character off the front; [None] for anything that is not well-formed UTF-8 (stray or missing continuation bytes, overlong
    forms, surrogates, values above U+10FFFF). *)
Definition dec_char (bs : list N) : option (N * list N) :=
  match bs with
  | [] => None
  | b :: r =>
      if b <? 0x80 then Some (b, r)
      else if b <? 0xC0 then None
      else if b <? 0xE0 then
        match r with
        | c1 :: r1 =>
            let v := (b - 0xC0) * 64 + (c1 - 0x80) in
            if is_cont c1 && (0x80 <=? v) then Some (v, r1) else None
        | _ => None
        end
      else if b <? 0xF0 then
        match r with
        | c1 :: c2 :: r2 =>
            let v := (b - 0xE0) * 4096 + (c1 - 0x80) * 64 + (c2 - 0x80) in
            if is_cont c1 && is_cont c2 && (0x800 <=? v) && is_scalar v then Some (v, r2) else None
        | _ => None
        end
      else if b <? 0xF8 then
        match r with
        | c1 :: c2 :: c3 :: r3 =>
            let v := (b - 0xF0) * 262144 + (c1 - 0x80) * 4096 + (c2 - 0x80) * 64 + (c3 - 0x80) in
            if is_cont c1 && is_cont c2 && is_cont c3 && (0x10000 <=? v) && is_scalar v then Some (v, r3) else None
        | _ => None
        end
      else None
  end.

Definition utf8_enc (s : list N) : list N := flat_map enc_char s.

Fixpoint utf8_loop (fuel : nat) (bs : list N) : option (list N) :=
  match bs with
  | [] => Some []
  | _ => match fuel with
         | O => None
         | S f => match dec_char bs with
                  | Some (c, r) => match utf8_loop f r with Some s => Some (c :: s) | None => None end
                  | None => None
                  end
         end
  end.
(** Every character takes at least one byte, so the length is enough fuel. *)
Definition utf8_dec (bs : list N) : option (list N) := utf8_loop (length bs) bs.

Ltac Zify.zify_post_hook ::= Z.to_euclidean_division_equations.

Ltac btrue := repeat match goal with
  | |- context [?a <? ?b] => first [rewrite (proj2 (N.ltb_lt a b)) by lia | rewrite (proj2 (N.ltb_ge a b)) by lia]
  | |- context [?a <=? ?b] => first [rewrite (proj2 (N.leb_le a b)) by lia | rewrite (proj2 (N.leb_gt a b)) by lia]
  end.

Lemma scalar_bound : forall c, is_scalar c = true -> c < 0x110000 /\ (c < 0xD800 \/ 0xE000 <= c).
Proof.
  intros c H. unfold is_scalar in H. apply orb_true_iff in H. rewrite andb_true_iff, !N.ltb_lt, N.leb_le in H. lia.
Qed.

Lemma dec_enc_char : forall c r, is_scalar c = true -> dec_char (enc_char c ++ r) = Some (c, r).
Proof.
  intros c r H. pose proof (scalar_bound c H) as [B1 B2]. unfold enc_char.
  destruct (N.ltb_spec c 0x80); [|destruct (N.ltb_spec c 0x800); [|destruct (N.ltb_spec c 0x10000)]]; cbn [app]; unfold dec_char.
  - btrue. reflexivity.
  - btrue. unfold is_cont.
    assert (E : (0xC0 + c / 64 - 0xC0) * 64 + (0x80 + c mod 64 - 0x80) = c) by lia. rewrite E. btrue. reflexivity.
  - btrue. unfold is_cont.
    assert (E : (0xE0 + c / 4096 - 0xE0) * 4096 + (0x80 + c / 64 mod 64 - 0x80) * 64 + (0x80 + c mod 64 - 0x80) = c) by lia.
    rewrite E. btrue. rewrite H. reflexivity.
  - btrue. unfold is_cont.
    assert (E : (0xF0 + c / 262144 - 0xF0) * 262144 + (0x80 + c / 4096 mod 64 - 0x80) * 4096 + (0x80 + c / 64 mod 64 - 0x80) * 64 + (0x80 + c mod 64 - 0x80) = c) by lia.
    rewrite E. btrue. rewrite H. reflexivity.
Qed.

Lemma enc_char_length : forall c, (1 <= length (enc_char c) <= 4)%nat.
Proof. intros c. unfold enc_char. destruct (c <? 0x80), (c <? 0x800), (c <? 0x10000); cbn; lia. Qed.

Lemma enc_char_bytes : forall c, is_scalar c = true -> Forall (fun b => b < 256) (enc_char c).
Proof.
  intros c H. apply scalar_bound in H. destruct H as [H _]. unfold enc_char.
  destruct (N.ltb_spec c 0x80); [|destruct (N.ltb_spec c 0x800); [|destruct (N.ltb_spec c 0x10000)]]; repeat constructor; lia.
Qed.

Lemma utf8_loop_enc : forall s fuel, forallb is_scalar s = true -> (length s <= fuel)%nat -> utf8_loop fuel (utf8_enc s) = Some s.
Proof.
  induction s as [|c s IH]; intros fuel H L; [destruct fuel; reflexivity|].
  cbn in H. apply andb_true_iff in H. destruct H as [H1 H2]. cbn in L. destruct fuel as [|fuel]; [lia|].
  cbn [utf8_enc flat_map]. destruct (enc_char c ++ flat_map enc_char s) as [|b bs] eqn:E.
  - pose proof (enc_char_length c). destruct (enc_char c); cbn in *; [lia|discriminate].
  - cbn [utf8_loop]. rewrite <- E, (dec_enc_char c _ H1). fold (utf8_enc s). rewrite IH by (auto; lia). reflexivity.
Qed.

Lemma utf8_round : forall s, forallb is_scalar s = true -> utf8_dec (utf8_enc s) = Some s.
Proof.
  intros s H. unfold utf8_dec. apply utf8_loop_enc; [exact H|]. clear H. induction s as [|c s IH]; [reflexivity|].
  cbn. rewrite app_length. pose proof (enc_char_length c). fold (utf8_enc s). lia.
Qed.

Lemma utf8_enc_bytes : forall s, forallb is_scalar s = true -> Forall (fun b => b < 256) (utf8_enc s).
Proof.
  induction s as [|c s IH]; intros H; [constructor|]. cbn in *. apply andb_true_iff in H. apply Forall_app. split; [now apply enc_char_bytes|tauto].
Qed.
