(** A bound on the length of runs of the mapped stream. *)
From Coq Require Import List Arith NArith Bool Lia Permutation.
From Verif Require Import Base BaseFacts CoordModel PublishModel PublishSpec PublishProofs MapModel MapSpec MapProofs.
Import ListNotations.
Open Scope nat_scope.
Local Opaque usize_max usize_mod wsucc wpred.

Section MapMeasure.
Context {A B E O : Type}.
Variable exec : O -> A -> res E B.
Notation st := (mstate A B E).
Notation step := (m_step exec).

Definition wt (x : nat * (N * A) * fut) : nat :=
  match snd x with
  | FNew => 16
  | FWait a r => (if a then 4 else 14) + (if r then 0 else 1)
  | FReady _ => 2
  end.
Definition wts (l : list (nat * (N * A) * fut)) : nat := list_sum (map wt l).
Definition pm (p : pall (N * A) E) : nat :=
  (match pa_ret p with None => 1 | Some _ => 0 end) + 17 * length (pa_arr p) + 18 * length (pa_late p) + wts (pa_futs p)
  + b2n (pa_open p) + (if pa_end p then 0 else 1) + 8 * length (pa_dropped p).
Arguments wts : simpl never.
Arguments Nat.mul : simpl never.
Arguments pm : simpl never.

Lemma wts_cons : forall x l, wts (x :: l) = wt x + wts l.
Proof. reflexivity. Qed.
Lemma wts_app : forall a b, wts (a ++ b) = wts a + wts b.
Proof. intros. unfold wts. now rewrite map_app, list_sum_app. Qed.
Lemma wts_upd : forall i l x g, nth_error l i = Some x -> wts (upd i g l) + wt x = wts l + wt g.
Proof.
  intros i l x g Nt. destruct (upd_split _ _ _ _ Nt) as (a & b & -> & _ & U). rewrite U, !wts_app, !wts_cons. lia.
Qed.
Lemma wts_perm : forall a b, Permutation a b -> wts a = wts b.
Proof. intros a b P. induction P; rewrite ?wts_cons; lia. Qed.
Lemma wts_half : forall l, 8 * length (half_done l) <= wts l.
Proof.
  induction l as [|[x u] l IH]; [reflexivity|]. rewrite wts_cons. unfold half_done in *. cbn [filter snd].
  destruct u as [|[|] r|b]; cbn [map length wt snd fst] in *; lia.
Qed.

Lemma pm_step : forall (p p' : pall (N * A) E) e, pa_step p e = Some p' ->
  (e = PaPull /\ pa_inreg p' = true /\ pm p' = pm p /\ pa_acc p' = pa_acc p /\ pa_woken p' = pa_woken p /\ pa_ret p' = None) \/
  exists m, pa_acc p' = pa_acc p ++ m /\ pm p' + 7 * length m + 1 <= pm p /\ (poll_event e = true -> m = []).
Proof.
  intros p p' e S. unfold pa_step in S. destruct (pa_ret p) as [r|] eqn:Rt.
  { destruct e; try discriminate. destruct (pick i (pa_dropped p)) as [[x d]|] eqn:P; [|discriminate]. injection S as <-. right.
    exists [x]. split; [reflexivity|]. split; [|discriminate]. unfold pm. cbn. rewrite Rt.
    apply pick_perm, Permutation_length in P. cbn in P. lia. }
  assert (Z : forall q, pa_acc q = pa_acc p -> pm q + 1 <= pm p ->
    exists m, pa_acc q = pa_acc p ++ m /\ pm q + 7 * length m + 1 <= pm p /\ (poll_event e = true -> m = [])).
  { intros q Q1 Q2. exists []. rewrite app_nil_r. cbn [length]. repeat split; [exact Q1|lia]. }
  assert (U : forall i n x u g, nth_error (pa_futs p) i = Some (n, x, u) -> wt (n, x, g) + 1 <= wt (n, x, u) ->
    exists m, pa_acc (set_futs p (upd i (n, x, g) (pa_futs p))) = pa_acc p ++ m /\
      pm (set_futs p (upd i (n, x, g) (pa_futs p))) + 7 * length m + 1 <= pm p /\ (poll_event e = true -> m = [])).
  { intros i n x u g Nt W. apply Z; [reflexivity|]. unfold pm. cbn. rewrite Rt. pose proof (wts_upd _ _ _ (n, x, g) Nt). lia. }
  destruct e as [|i|i|i|i| | | |i|i ok|i]; try discriminate.
  - destruct (pa_open p && may_pull p) eqn:G; [|discriminate]. apply andb_true_iff in G as [G1 G2].
    destruct (pa_arr p) as [|[x|x] arr] eqn:Ar; [destruct (pa_end p) eqn:En| |]; injection S as <-.
    + right. apply Z; [reflexivity|]. unfold pm. cbn. rewrite Ar, Rt, G1, En. cbn. lia.
    + left. unfold pm. cbn. rewrite Ar, Rt, En, G1. repeat split; auto.
    + right. apply Z; [reflexivity|]. unfold pm. cbn. rewrite Ar, Rt, G1, wts_app, wts_cons. cbn [length]. change (wts []) with 0. cbn. lia.
    + right. apply Z; [reflexivity|]. unfold pm, pa_return. cbn. rewrite Ar, Rt, G1. cbn [length b2n]. change (wts []) with 0.
      pose proof (wts_half (pa_futs p)). lia.
  - destruct (nth_error (pa_futs p) i) as [[[n x] [|a b|b]]|] eqn:Nt; try discriminate. injection S as <-. right. eapply U; [exact Nt|cbn; lia].
  - destruct (nth_error (pa_futs p) i) as [[[n x] [|a b|b]]|] eqn:Nt; try discriminate. injection S as <-. right. eapply U; [exact Nt|cbn; lia].
  - destruct (nth_error (pa_futs p) i) as [[[n x] [|a [|]|b]]|] eqn:Nt; try discriminate. injection S as <-. right. eapply U; [exact Nt|cbn; lia].
  - destruct (pick i (pa_futs p)) as [[[[n x] [|a b|[|]]] r]|] eqn:P; try discriminate; injection S as <-; right;
      apply pick_perm, wts_perm in P; rewrite wts_cons in P; apply Z; try reflexivity; unfold pm; cbn; rewrite Rt; cbn in P.
    + lia.
    + change (wts []) with 0. pose proof (wts_half (pa_futs p)). destruct (pa_open p); cbn; lia.
  - destruct (pa_open p) eqn:Op; [discriminate|]. destruct (pa_futs p) eqn:F; [|discriminate]. injection S as <-. right. apply Z; [reflexivity|].
    unfold pm. cbn. rewrite Rt, Op, F. unfold half_done. cbn. lia.
  - destruct (pa_late p) eqn:Lt; [discriminate|]. injection S as <-. right. apply Z; [reflexivity|]. unfold pm. cbn. rewrite Rt, Lt, app_length. cbn [length]. lia.
  - destruct (pa_late p) eqn:Lt; [|discriminate]. destruct (pa_end p) eqn:En; [discriminate|]. injection S as <-. right. apply Z; [reflexivity|].
    unfold pm. cbn. rewrite Rt, Lt, En. cbn. lia.
  - destruct (nth_error (pa_futs p) i) as [[[n x] [|[|] b|b]]|] eqn:Nt; try discriminate. injection S as <-. right.
    exists [(n, x)]. split; [reflexivity|]. split; [|discriminate]. unfold pm. cbn. rewrite Rt.
    pose proof (wts_upd _ _ _ (n, x, FWait true b) Nt) as W. cbn in W. lia.
  - destruct (nth_error (pa_futs p) i) as [[[n x] [|a b|b]]|] eqn:Nt; try discriminate. destruct (negb ok || a); [|discriminate].
    injection S as <-. right. apply Z; [reflexivity|]. unfold pm. cbn. rewrite Rt.
    pose proof (wts_upd _ _ _ (n, x, FReady ok) Nt) as W. cbn in W. destruct a; lia.
Qed.

Lemma woken_poll : forall (p p' : pall (N * A) E) e, poll_event e = true -> pa_step p e = Some p' -> pa_woken p' = pa_woken p.
Proof.
  intros p p' e PV S. destruct e; try discriminate; unfold pa_step in S;
  repeat match type of S with match ?x with _ => _ end = Some _ => destruct x eqn:?; try discriminate S end;
  injection S as <-; reflexivity.
Qed.

Definition wthen (t : option (@result A B E * afut)) : nat :=
  match t with None => 0 | Some (_, ANew) => 5 | Some (_, AWait _) => 4 | Some (_, AReady _) => 3 end.
Definition wpoll (p : pollst) : nat := match p with MIdle => 0 | MSide _ KFirst => 2 | MSide _ _ => 1 end.
Definition work (s : st) : nat :=
  8 * (pm (m_pa s) + 7 * length (m_tasks s) + 6 * length (m_results s) + wthen (m_then s))
  + (if pa_inreg (m_pa s) then 0 else 1) + 3 * b2n (pa_woken (m_pa s)) + wpoll (m_poll s).

(** A poll nobody asked for. *)
Definition spurious (s : st) (e : m_event O) : nat :=
  match e with MPoll => if pa_woken (m_pa s) then 0 else 1 | _ => 0 end.
Fixpoint spurious_polls (s : st) (tr : list (m_event O)) : nat :=
  match tr with
  | [] => 0
  | e :: tr' => spurious s e + match step s e with Some s' => spurious_polls s' tr' | None => 0 end
  end.

Lemma b2n_le : forall b, b2n b <= 1.
Proof. now intros []; cbn; lia. Qed.
Lemma pm_woken : forall p b, pm (set_woken p b) = pm p.
Proof. reflexivity. Qed.

Lemma quiet_work : forall s sd k r, r = SPend \/ r = SNone -> m_poll s = MSide sd k -> work (side_done s sd k r) + 1 <= work s.
Proof.
  intros s sd k r R P. unfold work. rewrite P. destruct R as [-> | ->]; cbn [side_done]; destruct k as [|[|]|]; destruct sd; cbn; lia.
Qed.

Lemma work_step : forall s e s', duplicates e = false -> step s e = Some s' -> work s' + 1 <= work s + 3 * spurious s e.
Proof.
  intros s e s' ND H.
  destruct e as [| e | | | | | | | | e | ok | i o | i | i | i | i]; try discriminate; cbn [m_step spurious] in H |- *; try (rewrite Nat.mul_0_r, Nat.add_0_r).
  - destruct (m_poll s) eqn:P; [|discriminate]. unfold work. rewrite P. cbn in H.
    destruct (m_ldone s), (m_rdone s); injection H as <-; cbn; rewrite ?pm_woken; destruct (pa_woken (m_pa s)); cbn; lia.
  - destruct (m_poll s) as [|[|] k] eqn:P; try discriminate. destruct (m_sent s || negb (poll_event e)) eqn:G; [discriminate|].
    apply orb_false_iff in G as [G1 G2]. apply negb_false_iff in G2.
    assert (K : forall p pd, pa_step (m_pa s) e = Some p -> (e = PaPull -> pa_inreg (m_pa s) = false) ->
      work (set_pending (set_pa s p) pd) + 1 <= work s /\ (pa_ret p <> None -> work (set_pending (set_pa s p) pd) + 4 <= work s)).
    { intros p pd S IR. pose proof (woken_poll _ _ _ G2 S) as WP. destruct (pm_step _ _ _ S) as [(X1 & X2 & X3 & X4 & X5 & X6)|(m & X1 & X2 & X3)].
      - unfold work. cbn. rewrite X2, X3, X5, (IR X1). split; [lia|congruence].
      - rewrite (X3 G2) in X2. cbn [length] in X2. unfold work. cbn. rewrite WP.
        destruct (pa_inreg p), (pa_inreg (m_pa s)); split; intros; lia. }
    assert (KL : forall p, pa_step (m_pa s) e = Some p -> (e = PaPull -> pa_inreg (m_pa s) = false) -> work (left_done s k p) + 1 <= work s).
    { intros p S IR. destruct (K p (m_pending s) S IR) as [K1 K2]. unfold left_done.
      assert (KR : pa_ret p <> None -> forall r, work (m_return (sender_done s p) r) + 1 <= work s).
      { intros R r. specialize (K2 R). unfold work in K2 |- *. cbn in K2 |- *. rewrite P in *. 
        pose proof (b2n_le (pa_woken p)). destruct r; cbn; rewrite ?pm_woken; destruct k; cbn in *; lia. }
      destruct (pa_ret p) as [[| |]|] eqn:R.
      - pose proof (quiet_work (sender_done s p) L k SNone (or_intror eq_refl)) as Q. cbn [sender_done m_poll] in Q. specialize (Q P).
        change (work (sender_done s p)) with (work (set_pending (set_pa s p) (m_pending s))) in Q. lia.
      - apply KR. discriminate.
      - apply KR. discriminate.
      - exact K1. }
    destruct e as [|i|i|i|i| | | |i|i ok|i]; try discriminate.
    + destruct (pa_inreg (m_pa s)) eqn:IR; [discriminate|]. destruct (pa_step (m_pa s) PaPull) as [p|] eqn:S; [|discriminate]. injection H as <-.
      apply (KL p); auto.
    + destruct (m_closed s); [discriminate|]. destruct (pa_step (m_pa s) (PaStart i)) as [p|] eqn:S; [|discriminate]. injection H as <-.
      apply (K p); [reflexivity|discriminate].
    + destruct (m_closed s); [|discriminate]. destruct (pa_step (m_pa s) (PaRefuse i)) as [p|] eqn:S; [|discriminate]. injection H as <-.
      apply (K p (m_pending s)); [reflexivity|discriminate].
    + destruct (pa_step (m_pa s) (PaCheck i)) as [p|] eqn:S; [|discriminate]. injection H as <-. apply (KL p); [reflexivity|discriminate].
    + destruct (pa_step (m_pa s) (PaFinish i)) as [p|] eqn:S; [|discriminate]. injection H as <-. apply (KL p); [reflexivity|discriminate].
    + destruct (pa_step (m_pa s) PaReturn) as [p|] eqn:S; [|discriminate]. injection H as <-. apply (KL p); [reflexivity|discriminate].
  - destruct (m_poll s) as [|[|] k] eqn:P; try discriminate. destruct (negb (m_sent s) && pa_idle (m_pa s)); [|discriminate]. injection H as <-.
    exact (quiet_work s L k SPend (or_introl eq_refl) P).
  - destruct (m_poll s) as [|[|] k] eqn:P; try discriminate. destruct (m_sent s); [|discriminate]. injection H as <-.
    exact (quiet_work s L k SNone (or_intror eq_refl) P).
  - destruct (m_poll s) as [|[|] k] eqn:P; try discriminate. destruct (m_then s) eqn:Tn; [discriminate|]. destruct (m_results s) eqn:Rs; [discriminate|].
    injection H as <-. unfold work. cbn. rewrite Tn, Rs. cbn. lia.
  - destruct (m_poll s) as [|[|] k] eqn:P; try discriminate. destruct (m_then s) eqn:Tn; [discriminate|]. destruct (m_results s) eqn:Rs; [|discriminate].
    injection H as <-. match goal with |- work (side_done ?t R k ?r) + 1 <= _ => pose proof (quiet_work t R k r) as Q end.
    assert (Q' := Q ltac:(destruct (m_closed s && (m_pending s =? 0)%N); auto) eq_refl). unfold work in *. cbn in *. rewrite Tn, Rs, P. exact Q'.
  - destruct (m_poll s) as [|[|] k] eqn:P; try discriminate. destruct (m_then s) as [[r [|b|b]]|] eqn:Tn; try discriminate. injection H as <-.
    unfold work. cbn. rewrite Tn. cbn. lia.
  - destruct (m_poll s) as [|[|] k] eqn:P; try discriminate. destruct (m_then s) as [[r [|b|b]]|] eqn:Tn; try discriminate. injection H as <-.
    pose proof (quiet_work (set_then s (Some (r, AWait true))) R k SPend (or_introl eq_refl) P) as Q.
    assert (work (set_then s (Some (r, AWait true))) = work s) as <-; [|exact Q]. unfold work. cbn. rewrite Tn. reflexivity.
  - destruct (m_poll s) as [|[|] k] eqn:P; try discriminate.
    assert (X : forall r b p pd x, m_then s = Some (r, AReady b) -> pm p = pm (m_pa s) -> pa_inreg p = pa_inreg (m_pa s) ->
      work (m_return (set_pending (set_pa (set_then s None) p) pd) x) + 1 <= work s).
    { intros r b p pd x Tn Pm Pr. unfold work. cbn. rewrite Tn, P. cbn.
      pose proof (b2n_le (pa_woken p)). destruct x; cbn; rewrite ?pm_woken, Pm, Pr; destruct k; cbn; lia. }
    destruct (m_then s) as [[r [|b|[|]]]|] eqn:Tn; try discriminate; injection H as <-.
    + eapply (X r true); auto.
    + eapply (X r false (m_pa s) (m_pending s)); auto.
  - destruct (poll_event e) eqn:PV; [discriminate|]. destruct (pa_step (m_pa s) e) as [p|] eqn:S; [|discriminate]. injection H as <-.
    destruct (pm_step _ _ _ S) as [(X1 & _)|(m & X1 & X2 & X3)]; [rewrite X1 in PV; discriminate|].
    assert (SK : skipn (length (pa_acc (m_pa s))) (pa_acc p) = m).
    { rewrite X1, skipn_app, skipn_all, Nat.sub_diag. reflexivity. }
    rewrite SK. unfold work. cbn. rewrite app_length, map_length. pose proof (b2n_le (pa_woken p)).
    destruct (pa_inreg p), (pa_inreg (m_pa s)); lia.
  - destruct (m_then s) as [[r [|b|b]]|] eqn:Tn; try discriminate. injection H as <-. unfold work. cbn. rewrite ?pm_woken, Tn. cbn.
    pose proof (b2n_le (pa_woken (m_pa s) || b)). lia.
  - destruct (pick i (m_tasks s)) as [[t ts]|] eqn:Pk; [|discriminate]. injection H as <-. unfold work. cbn. rewrite ?pm_woken, app_length. cbn.
    apply pick_perm, Permutation_length in Pk. cbn in Pk. pose proof (b2n_le (pa_woken (m_pa s) || m_resreg s)). lia.
  - destruct (pick i (m_tasks s)) as [[t ts]|] eqn:Pk; [|discriminate]. injection H as <-. unfold work. cbn.
    apply pick_perm, Permutation_length in Pk. cbn in Pk. lia.
  - destruct (pick i (m_results s)) as [[t ts]|] eqn:Pk; [|discriminate]. injection H as <-. unfold work. cbn.
    apply pick_perm, Permutation_length in Pk. cbn in Pk. lia.
Qed.

Lemma work_run : forall tr s s', no_dup tr -> run_from step s tr = Some s' -> length tr + work s' <= work s + 3 * spurious_polls s tr.
Proof.
  induction tr as [|e tr IH]; intros s s' ND H; cbn [run_from spurious_polls length] in *.
  - injection H as <-. lia.
  - destruct (step s e) as [s1|] eqn:S; [|discriminate].
    pose proof (work_step s e s1 (ND e (or_introl eq_refl)) S) as W.
    specialize (IH s1 s' (fun x X => ND x (or_intror X)) H). lia.
Qed.
End MapMeasure.
