(** Facts about the shared vocabulary. *)
From Coq Require Import List Arith NArith Lia Permutation Bool.
From Verif Require Import Base.
Import ListNotations.
Open Scope N_scope.

Lemma pick_perm : forall (A : Type) i (l : list A) x r,
  pick i l = Some (x, r) -> Permutation l (x :: r).
Proof.
  intros A i; induction i as [|i IH]; intros l x r H; destruct l as [|y l]; cbn in H; try discriminate.
  - injection H as <- <-. apply Permutation_refl.
  - destruct (pick i l) as [[z r']|] eqn:P; [|discriminate].
    injection H as <- <-. apply IH in P.
    apply Permutation_trans with (y :: z :: r'); [now constructor | apply perm_swap].
Qed.

Lemma pick_in : forall (A : Type) i (l : list A) x r,
  pick i l = Some (x, r) -> In x l.
Proof.
  intros A i l x r H. apply pick_perm in H.
  apply Permutation_in with (x :: r); [now apply Permutation_sym | now left].
Qed.

Lemma pick_in_rest : forall (A : Type) i (l : list A) x r y,
  pick i l = Some (x, r) -> In y r -> In y l.
Proof.
  intros A i l x r y H Hy. apply pick_perm in H.
  apply Permutation_in with (x :: r); [now apply Permutation_sym | now right].
Qed.

Lemma pick_Forall : forall (A : Type) (P : A -> Prop) i (l : list A) x r,
  pick i l = Some (x, r) -> Forall P l -> P x /\ Forall P r.
Proof.
  intros A P i l x r H F. rewrite Forall_forall in F. split.
  - apply F. eapply pick_in; eauto.
  - apply Forall_forall. intros y Hy. apply F. eapply pick_in_rest; eauto.
Qed.

Lemma pick_length : forall (A : Type) i (l : list A) x r,
  pick i l = Some (x, r) -> length l = S (length r).
Proof. intros A i l x r H. apply pick_perm in H. now apply Permutation_length in H. Qed.

Lemma pick_some : forall (A : Type) i (l : list A),
  (i < length l)%nat -> exists x r, pick i l = Some (x, r).
Proof.
  intros A i; induction i as [|i IH]; intros l H; destruct l as [|y l]; cbn in *; try lia.
  - eauto.
  - destruct (IH l) as (x & r & E); [lia|]. rewrite E. eauto.
Qed.

Lemma pick_nth : forall (A : Type) i (l : list A) x r,
  pick i l = Some (x, r) -> nth_error l i = Some x.
Proof.
  intros A i; induction i as [|i IH]; intros l x r H; destruct l as [|y l]; cbn in *; try discriminate.
  - now injection H as <- <-.
  - destruct (pick i l) as [[z r']|] eqn:P; [|discriminate]. injection H as <- <-. eauto.
Qed.

Lemma run_from_app : forall (S E : Type) (step : S -> E -> option S) t1 t2 s s',
  run_from step s (t1 ++ t2) = Some s' <->
  exists m, run_from step s t1 = Some m /\ run_from step m t2 = Some s'.
Proof.
  intros S E step t1; induction t1 as [|e t1 IH]; intros t2 s s'; cbn.
  - split; [intros H; exists s; auto | intros (m & H1 & H2); now injection H1 as <-].
  - destruct (step s e) as [s1|]; [apply IH|].
    split; [discriminate | intros (m & H1 & _); discriminate].
Qed.

(** Invariant rule: what holds initially and is preserved by every step holds at the end. *)
Lemma run_from_inv : forall (S E : Type) (step : S -> E -> option S) (I : S -> Prop),
  (forall s e s', I s -> step s e = Some s' -> I s') ->
  forall tr s s', I s -> run_from step s tr = Some s' -> I s'.
Proof.
  intros S E step I Hstep tr; induction tr as [|e tr IH]; intros s s' Hs H; cbn in H.
  - now injection H as <-.
  - destruct (step s e) as [s1|] eqn:Es; [|discriminate].
    apply (IH s1); [eapply Hstep; eauto | exact H].
Qed.

(** The same with a restriction on the events of the schedule. *)
Lemma run_from_inv_where : forall (S E : Type) (step : S -> E -> option S) (P : E -> Prop) (I : S -> Prop),
  (forall s e s', P e -> I s -> step s e = Some s' -> I s') ->
  forall tr s s', Forall P tr -> I s -> run_from step s tr = Some s' -> I s'.
Proof.
  intros S E step P I Hstep tr; induction tr as [|e tr IH]; intros s s' F Hs H; cbn in H.
  - now injection H as <-.
  - inversion F as [|? ? Pe F']; subst.
    destruct (step s e) as [s1|] eqn:Es; [|discriminate].
    apply (IH s1); [exact F' | eapply Hstep; eauto | exact H].
Qed.

Lemma wsucc_small : forall x, x < usize_max -> wsucc x = x + 1.
Proof.
  intros x H. unfold wsucc. apply N.mod_small. unfold usize_max in H.
  assert (usize_mod > 1) by (unfold usize_mod; reflexivity). lia.
Qed.

Lemma wsucc_max : wsucc usize_max = 0.
Proof. reflexivity. Qed.

Lemma irange_in : forall lo hi i, In i (irange lo hi) <-> lo <= i <= hi.
Proof.
  intros lo hi i. unfold irange. rewrite in_map_iff. split.
  - intros (k & <- & Hk). apply in_seq in Hk. lia.
  - intros H. exists (N.to_nat (i - lo)). split; [lia|]. apply in_seq. lia.
Qed.

Lemma irange_nodup : forall lo hi, NoDup (irange lo hi).
Proof.
  intros lo hi. unfold irange. apply FinFun.Injective_map_NoDup; [|apply seq_NoDup].
  intros a b H. lia.
Qed.

Lemma irange_length : forall lo hi, length (irange lo hi) = N.to_nat (hi + 1 - lo).
Proof. intros. unfold irange. now rewrite map_length, seq_length. Qed.

Lemma irange_app : forall lo mid hi, lo <= mid -> mid <= hi ->
  irange lo hi = irange lo mid ++ irange (mid + 1) hi.
Proof.
  intros lo mid hi H1 H2. unfold irange.
  replace (N.to_nat (hi + 1 - lo)) with (N.to_nat (mid + 1 - lo) + N.to_nat (hi + 1 - (mid + 1)))%nat by lia.
  rewrite seq_app, map_app. f_equal.
  replace (0 + N.to_nat (mid + 1 - lo))%nat with (N.to_nat (mid + 1 - lo) + 0)%nat by lia.
  generalize (N.to_nat (hi + 1 - (mid + 1))) as m. intros m.
  assert (G : forall j, map (fun k : nat => lo + N.of_nat k) (seq (N.to_nat (mid + 1 - lo) + j) m)
            = map (fun k : nat => mid + 1 + N.of_nat k) (seq j m)).
  { induction m as [|m IH]; intros j; cbn; [reflexivity|].
    f_equal; [lia|]. rewrite <- IH. now rewrite <- plus_n_Sm. }
  apply G.
Qed.

Lemma irange_single : forall i, irange i i = [i].
Proof. intros i. unfold irange. replace (N.to_nat (i + 1 - i)) with 1%nat by lia. cbn. f_equal. lia. Qed.

Lemma upd_split : forall (A : Type) i (l : list A) x, nth_error l i = Some x ->
  exists a b, l = a ++ x :: b /\ length a = i /\ forall y, upd i y l = a ++ y :: b.
Proof.
  intros A i; induction i as [|i IH]; intros l x H; destruct l as [|z l]; cbn in *; try discriminate.
  - injection H as ->. exists [], l. auto.
  - destruct (IH l x H) as (a & b & -> & L & U). exists (z :: a), b. cbn. repeat split; [lia|].
    intros y. now rewrite U.
Qed.

Lemma upd_length : forall (A : Type) i (l : list A) x, length (upd i x l) = length l.
Proof. intros A i; induction i as [|i IH]; intros [|z l] x; cbn; auto. Qed.

Lemma upd_nth_same : forall (A : Type) i (l : list A) x, (i < length l)%nat -> nth_error (upd i x l) i = Some x.
Proof. intros A i; induction i as [|i IH]; intros [|z l] x H; cbn in *; try lia; auto. apply IH. lia. Qed.

Lemma upd_nth_other : forall (A : Type) i j (l : list A) x, i <> j -> nth_error (upd i x l) j = nth_error l j.
Proof.
  intros A i; induction i as [|i IH]; intros [|j] [|z l] x H; cbn; auto; try congruence.
Qed.

Lemma upd_nth : forall (A : Type) i j (l : list A) x y, nth_error (upd i x l) j = Some y ->
  (i = j /\ y = x) \/ (i <> j /\ nth_error l j = Some y).
Proof.
  intros A i j l x y H. destruct (Nat.eq_dec i j) as [->|NE].
  - left. split; [reflexivity|]. rewrite upd_nth_same in H; [congruence|].
    rewrite <- (upd_length _ j l x). apply nth_error_Some. congruence.
  - right. split; [exact NE|]. now rewrite upd_nth_other in H.
Qed.

Lemma nth_app_new : forall (A : Type) (l : list A) x j y, nth_error (l ++ [x]) j = Some y ->
  (j = length l /\ y = x) \/ nth_error l j = Some y.
Proof.
  intros A l x j y H. destruct (Nat.lt_ge_cases j (length l)) as [L|L].
  - right. now rewrite nth_error_app1 in H.
  - left. rewrite nth_error_app2 in H by exact L. destruct (j - length l)%nat as [|d] eqn:D.
    + cbn in H. split; [lia|congruence].
    + cbn in H. destruct d; discriminate.
Qed.

(** A small solver for permutations between appended pieces. *)
Lemma perm_bring : forall (A : Type) (x l r rhs : list A), Permutation rhs (x ++ r) -> Permutation l r -> Permutation (x ++ l) rhs.
Proof. intros A x l r rhs H1 H2. rewrite H1, H2. reflexivity. Qed.
Lemma perm_deeper : forall (A : Type) (a b x b' : list A), Permutation b (x ++ b') -> Permutation (a ++ b) (x ++ a ++ b').
Proof. intros A a b x b' H. rewrite H. rewrite !app_assoc. apply Permutation_app_tail, Permutation_app_comm. Qed.
Lemma perm_pad : forall (A : Type) (a b : list A), Permutation (a ++ []) (b ++ []) -> Permutation a b.
Proof. intros A a b H. now rewrite !app_nil_r in H. Qed.
Ltac perm_find := first [apply Permutation_refl | apply perm_deeper; perm_find].
Ltac perm_go :=
  lazymatch goal with
  | |- Permutation [] _ => apply Permutation_refl
  | |- Permutation (_ ++ _) _ => eapply perm_bring; [perm_find | perm_go]
  end.
Ltac perm_units := repeat match goal with
  | |- context [?x :: ?l] => lazymatch l with [] => fail | _ => change (x :: l) with ([x] ++ l) end
  end.
Ltac perm := perm_units; apply perm_pad; rewrite <- ?app_assoc; cbn [app]; perm_units; rewrite ?app_nil_l;
  repeat match goal with |- context [?l ++ [] ++ []] => change (l ++ [] ++ []) with (l ++ []) end;
  perm_go.

(** Counting the elements with a property. *)
Definition b2n (b : bool) : nat := if b then 1%nat else 0%nat.
Definition cnt {A : Type} (f : A -> bool) (l : list A) : nat := length (filter f l).

Arguments cnt : simpl never.

Lemma cnt_one : forall (A : Type) (f : A -> bool) x, cnt f [x] = b2n (f x).
Proof. intros. unfold cnt. cbn. destruct (f x); reflexivity. Qed.

Lemma cnt_cons : forall (A : Type) (f : A -> bool) x l, cnt f (x :: l) = (b2n (f x) + cnt f l)%nat.
Proof. intros. unfold cnt. cbn. destruct (f x); reflexivity. Qed.

Lemma cnt_app : forall (A : Type) (f : A -> bool) a b, cnt f (a ++ b) = (cnt f a + cnt f b)%nat.
Proof. intros. unfold cnt. now rewrite filter_app, app_length. Qed.

Lemma cnt_upd : forall (A : Type) (f : A -> bool) i l x y, nth_error l i = Some x ->
  (cnt f (upd i y l) + b2n (f x) = cnt f l + b2n (f y))%nat.
Proof.
  intros A f i l x y H. destruct (upd_split _ _ _ _ H) as (a & b & -> & _ & U). rewrite U, !cnt_app, !cnt_cons. lia.
Qed.

Lemma cnt_zero : forall (A : Type) (f : A -> bool) l, cnt f l = 0%nat <-> (forall x, In x l -> f x = false).
Proof.
  intros A f l. induction l as [|x l IH]; [now split|]. rewrite cnt_cons. cbn [In]. split.
  - intros H y [<- | Hy]; [destruct (f x); [cbn in H; lia | reflexivity] | apply IH; [lia | exact Hy]].
  - intros H. rewrite (H x) by now left. cbn. apply IH. intros y Hy. apply H. now right.
Qed.

Lemma cnt_le : forall (A : Type) (f : A -> bool) l, (cnt f l <= length l)%nat.
Proof. intros A f l. induction l as [|x l IH]; [reflexivity|]. rewrite cnt_cons. cbn. destruct (f x); cbn; lia. Qed.

Lemma nth_In_upd : forall (A : Type) i (l : list A) x y, In y (upd i x l) -> y = x \/ In y l.
Proof.
  intros A i l x y H. apply In_nth_error in H. destruct H as [j H]. apply upd_nth in H.
  destruct H as [[_ ->] | [_ H]]; [now left | right; now apply nth_error_In in H].
Qed.

Lemma NoDup_app_l : forall (A : Type) (a b : list A), NoDup (a ++ b) -> NoDup a.
Proof.
  intros A a b; induction a as [|x a IH]; intros H; [constructor|]. cbn in H. inversion H as [|? ? NI N]; subst.
  constructor; [|auto]. intros I. apply NI, in_app_iff. auto.
Qed.
Lemma NoDup_app_r : forall (A : Type) (a b : list A), NoDup (a ++ b) -> NoDup b.
Proof.
  intros A a b; induction a as [|x a IH]; intros H; [exact H|]. cbn in H. inversion H. auto.
Qed.
Lemma NoDup_app_disjoint : forall (A : Type) (a b : list A) x, NoDup (a ++ b) -> In x a -> In x b -> False.
Proof.
  intros A a b x; induction a as [|y a IH]; intros H I1 I2; [exact I1|]. cbn in H. inversion H as [|? ? NI N]; subst.
  destruct I1 as [->|I1]; [|auto]. apply NI, in_app_iff. auto.
Qed.

Lemma In_upd_other : forall (A : Type) i (l : list A) x y z, nth_error l i = Some x -> In z l -> z <> x -> In z (upd i y l).
Proof.
  intros A i l x y z H I NE. destruct (upd_split _ _ _ _ H) as (a & b & -> & _ & U). rewrite U.
  rewrite in_app_iff in *. cbn in *. intuition congruence.
Qed.
Lemma In_upd_new : forall (A : Type) i (l : list A) x y, nth_error l i = Some x -> In y (upd i y l).
Proof.
  intros A i l x y H. destruct (upd_split _ _ _ _ H) as (a & b & -> & _ & U). rewrite U.
  rewrite in_app_iff. cbn. auto.
Qed.
