(** C47, continued: the limit of the publishes of a mapped stream. *)
From Coq Require Import List Arith NArith Lia Bool.
From Verif Require Import Base BaseFacts PublishModel PublishSpec PublishProofs MapModel.
Import ListNotations.
Open Scope nat_scope.

Section Ten.
Context {A B E O : Type}.
Variable exec : O -> A -> res E B.
Definition pal {T : Type} (p : pall T E) : option nat * nat := (pa_limit p, length (pa_futs p)).
Definition within {T : Type} (l : nat) (p : pall T E) : Prop := pa_limit p = Some l /\ length (pa_futs p) <= l.
Lemma within_eq : forall (T : Type) l (p p' : pall T E), pal p' = pal p -> within l p -> within l p'.
Proof. intros T l p p' Q [H1 H2]. unfold pal in Q. injection Q as Q1 Q2. split; congruence. Qed.
Lemma within_step : forall (T : Type) l (p p' : pall T E) e, within l p -> pa_step p e = Some p' -> within l p'.
Proof.
  intros T l p p' e [H1 H2] S. unfold pa_step in S. destruct (pa_ret p).
  - destruct e; try discriminate. destruct (pick i (pa_dropped p)) as [[m d]|]; [|discriminate]. injection S as <-. now split.
  - destruct e.
    + destruct (pa_open p); [|discriminate]. unfold may_pull in S. rewrite H1 in S. cbn [andb] in S. destruct (Nat.ltb_spec (length (pa_futs p)) l) as [L|]; [|discriminate].
      destruct (pa_arr p) as [|[x|x] r]; [destruct (pa_end p)| |]; injection S as <-; split; cbn; auto; [rewrite app_length; cbn; lia|lia].
    + destruct (nth_error _ _) as [[[n x] []]|]; try discriminate. injection S as <-. split; cbn; [exact H1|now rewrite upd_length].
    + destruct (nth_error _ _) as [[[n x] []]|]; try discriminate. injection S as <-. split; cbn; [exact H1|now rewrite upd_length].
    + destruct (nth_error _ _) as [[[n x] [|a []|]]|]; try discriminate. injection S as <-. split; cbn; [exact H1|now rewrite upd_length].
    + destruct (pick i (pa_futs p)) as [[[[n x] [| |[]]] r]|] eqn:K; try discriminate; injection S as <-; split; cbn; auto; [|lia].
      apply pick_length in K. lia.
    + destruct (pa_open p); [discriminate|]. destruct (pa_futs p) eqn:F; [|discriminate]. injection S as <-. split; cbn; [exact H1|lia].
    + destruct (pa_late p); [discriminate|]. injection S as <-. now split.
    + destruct (pa_late p); [|discriminate]. destruct (pa_end p); [discriminate|]. injection S as <-. now split.
    + destruct (nth_error _ _) as [[[n x] [|[] r|]]|]; try discriminate. injection S as <-. split; cbn; [exact H1|now rewrite upd_length].
    + destruct (nth_error _ _) as [[[n x] [|a r|]]|]; try discriminate. destruct (_ || _); [|discriminate]. injection S as <-. split; cbn; [exact H1|now rewrite upd_length].
    + discriminate.
Qed.
Lemma side_pal : forall s sd k r, pal (m_pa (side_done (A := A) (B := B) s sd k r)) = pal (m_pa s).
Proof. intros s sd k r. destruct r as [x| |]; cbn [side_done]; [now destruct x| |]; destruct k as [|[]|]; reflexivity. Qed.
Lemma left_pal : forall s k p, pal (m_pa (left_done (A := A) (B := B) s k p)) = pal p.
Proof. intros s k p. unfold left_done. destruct (pa_ret p) as [[]|]; [rewrite side_pal; reflexivity..|reflexivity]. Qed.
Ltac sp := first [apply side_pal | rewrite side_pal; reflexivity | match goal with k : kont |- _ => destruct k as [|[]|]; reflexivity end | match goal with r : _ * res _ _ |- _ => destruct (snd r); reflexivity end | match goal with |- context [if ?b then _ else _] => destruct b end; match goal with k : kont |- _ => destruct k as [|[]|]; reflexivity end].
(** functor.rs:24 and 48: never more than ten publishes of a mapped stream are under way. *)
Theorem C47_ten : forall arr late en tr s, run_from (m_step exec) (m_init arr late en) tr = Some s -> length (pa_futs (m_pa s)) <= 10.
Proof.
  intros arr late en tr s R. enough (within 10 (m_pa s)) as W by apply W.
  refine (run_from_inv _ _ (m_step exec) (fun s => within 10 (m_pa s)) _ _ _ _ _ R); [|split; cbn; [reflexivity|lia]].
  clear. intros s e s' W S. destruct e; cbn [m_step] in S.
  - destruct (m_poll s); [|discriminate]. cbn [m_ldone m_rdone set_pa] in S. destruct (m_ldone s), (m_rdone s); injection S as <-; apply (within_eq _ _ (m_pa s)); try reflexivity; exact W.
  - destruct (m_poll s) as [|[] k]; try discriminate. destruct (_ || _); [discriminate|].
    destruct e; try (destruct (pa_step (m_pa s) _) as [p|] eqn:P; [|discriminate]; injection S as <-; apply (within_eq _ _ p); [apply left_pal|eapply within_step; eauto]).
    + destruct (pa_inreg _); [discriminate|]. destruct (pa_step (m_pa s) _) as [p|] eqn:P; [|discriminate]; injection S as <-; apply (within_eq _ _ p); [apply left_pal|eapply within_step; eauto].
    + destruct (m_closed s); [discriminate|]. destruct (pa_step (m_pa s) _) as [p|] eqn:P; [|discriminate]; injection S as <-. eapply within_step; eauto.
    + destruct (m_closed s); [|discriminate]. destruct (pa_step (m_pa s) _) as [p|] eqn:P; [|discriminate]; injection S as <-. eapply within_step; eauto.
  - destruct (m_poll s) as [|[] k]; try discriminate. destruct (_ && _); [|discriminate]. injection S as <-. apply (within_eq _ _ (m_pa s)); [sp|exact W].
  - destruct (m_poll s) as [|[] k]; try discriminate. destruct (m_sent s); [|discriminate]. injection S as <-. apply (within_eq _ _ (m_pa s)); [sp|exact W].
  - destruct (m_poll s) as [|[] k]; try discriminate. destruct (m_then s); [discriminate|]. destruct (m_results s); [discriminate|]. injection S as <-. exact W.
  - destruct (m_poll s) as [|[] k]; try discriminate. destruct (m_then s); [discriminate|]. destruct (m_results s); [|discriminate]. injection S as <-.
    apply (within_eq _ _ (m_pa s)); [sp|exact W].
  - destruct (m_poll s) as [|[] k]; try discriminate. destruct (m_then s) as [[r []]|]; try discriminate. injection S as <-. exact W.
  - destruct (m_poll s) as [|[] k]; try discriminate. destruct (m_then s) as [[r []]|]; try discriminate. injection S as <-. apply (within_eq _ _ (m_pa s)); [sp|exact W].
  - destruct (m_poll s) as [|[] k]; try discriminate. destruct (m_then s) as [[[i [y|y]] [| |[]]]|]; try discriminate; injection S as <-; (apply (within_eq _ _ (m_pa s)); [reflexivity|exact W]).
  - destruct (poll_event e); [discriminate|]. destruct (pa_step (m_pa s) e) as [p|] eqn:P; [|discriminate]. injection S as <-. eapply within_step; eauto.
  - destruct (m_then s) as [[r []]|]; try discriminate. injection S as <-. exact W.
  - destruct (pick i (m_tasks s)) as [[t ts]|]; [|discriminate]. injection S as <-. exact W.
  - destruct (pick i (m_tasks s)) as [[t ts]|]; [|discriminate]. injection S as <-. exact W.
  - destruct (pick i (m_results s)) as [[t ts]|]; [|discriminate]. injection S as <-. exact W.
  - destruct (nth_error (m_tasks s) i); [|discriminate]. injection S as <-. exact W.
  - destruct (nth_error (m_results s) i); [|discriminate]. injection S as <-. exact W.
Qed.
End Ten.
(** Twelve inputs: ten publishes are started, the eleventh is not. *)
Definition twelve : list (res nat (N * nat)) := map (fun i => ROk (N.of_nat i, i)) (seq 0 12).
Definition pulls (k : nat) : list (m_event nat) := MPoll :: concat (repeat [MLeft PaPull] k).
Example C47_ten_ex : option_map (fun s => length (pa_futs (m_pa s))) (run_from (m_step (fun (_ : nat) (x : nat) => ROk x)) (m_init twelve [] true) (pulls 10)) = Some 10 /\
  run_from (m_step (fun (_ : nat) (x : nat) => ROk x)) (m_init twelve [] true) (pulls 11) = None.
Proof. split; reflexivity. Qed.
Print Assumptions C47_ten.
