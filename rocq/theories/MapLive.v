(** Progress of the mapped stream: wakers, quiescent states, and a measure that bounds runs. *)
From Coq Require Import List Arith NArith Bool Lia Permutation.
From Verif Require Import Base BaseFacts CoordModel PublishModel PublishSpec PublishProofs MapModel MapSpec MapProofs.
Import ListNotations.
Open Scope nat_scope.
Local Opaque usize_max usize_mod wsucc wpred.

Section MapLive.
Context {A B E O : Type}.
Variable exec : O -> A -> res E B.
Notation st := (mstate A B E).
Notation step := (m_step exec).
Arguments cnt : simpl never.

(** The environment, as long as it neither loses nor duplicates anything and every publish and acknowledgement succeeds. *)
Definition helpful (e : m_event O) : bool :=
  match e with MEnv (PaReply _ ok) => ok | MEnv _ => true | MAckReply ok => ok | MWork _ _ => true | _ => false end.
(** Nobody has anything left to do: no poll is under way, the consumer was not woken, the environment is done. *)
Definition quiescent (s : st) : Prop :=
  m_poll s = MIdle /\ pa_woken (m_pa s) = false /\ forall e, helpful e = true -> step s e = None.

(** Somebody will wake the consumer for the sake of the sending (receiving) side. *)
Definition lok (s : st) : Prop := pa_woken (m_pa s) = true \/ m_sent s = true \/ pa_idle (m_pa s) = true.
Definition rok (s : st) : Prop :=
  pa_woken (m_pa s) = true \/ m_rdone s = true \/ (m_results s = [] /\ m_resreg s = true /\ m_then s = None)
  \/ exists r, m_then s = Some (r, AWait true).
Definition winv (s : st) : Prop :=
  (m_ldone s = true -> m_sent s = true) /\
  match m_poll s with
  | MIdle => lok s /\ rok s
  | MSide _ KFirst => True
  | MSide L (KSecond false) => rok s
  | MSide R (KSecond false) => lok s
  | MSide L _ => m_rdone s = true
  | MSide R _ => m_ldone s = true
  end.

Lemma idle_env : forall (p p' : pall (N * A) E) e, pa_idle p = true -> poll_event e = false -> pa_step p e = Some p' ->
  pa_idle p' = true \/ pa_woken p' = true.
Proof.
  intros p p' e I PV S. unfold pa_idle in I. apply andb_true_iff in I as [I1 I2]. apply andb_true_iff in I1 as [I0 I1].
  unfold pa_step in S. destruct (pa_ret p) as [r|] eqn:Rt; [discriminate|]. rewrite forallb_forall in I1.
  destruct e as [|i|i|i|i| | | |i|i ok|i]; try discriminate.
  - destruct (pa_late p) as [|x lt]; [discriminate|]. injection S as <-. cbn. destruct (pa_inreg p); [right; apply orb_true_r|]. left.
    unfold pa_idle. cbn. rewrite (proj2 (forallb_forall _ _) I1). exact I2.
  - destruct (pa_late p) as [|x lt]; [|discriminate]. destruct (pa_end p); [discriminate|]. injection S as <-. cbn.
    destruct (pa_inreg p); [right; apply orb_true_r|]. left. unfold pa_idle. cbn. rewrite (proj2 (forallb_forall _ _) I1). exact I2.
  - destruct (nth_error (pa_futs p) i) as [[[n x] [|[|] b|b]]|] eqn:Nt; try discriminate. injection S as <-. left.
    unfold pa_idle, may_pull in *. cbn. rewrite upd_length.
    assert (b = true) as -> by (specialize (I1 _ (nth_error_In _ _ Nt)); destruct b; [reflexivity|discriminate I1]).
    assert (F : forallb (fun f : nat * (N * A) * fut => match snd f with FWait _ true => true | _ => false end) (upd i (n, x, FWait true true) (pa_futs p)) = true).
    { apply forallb_forall. intros y Y. apply nth_In_upd in Y as [-> | Y]; auto. }
    rewrite F. cbn. destruct (pa_futs p) as [|u us] eqn:Fu; [destruct i; discriminate Nt|]. destruct i; exact I2.
  - destruct (nth_error (pa_futs p) i) as [[[n x] [|a b|b]]|] eqn:Nt; try discriminate. destruct (negb ok || a); [|discriminate].
    injection S as <-. right. cbn. specialize (I1 _ (nth_error_In _ _ Nt)). cbn in I1. destruct b; [apply orb_true_r|discriminate].
Qed.

Lemma woken_env : forall (p p' : pall (N * A) E) e, pa_woken p = true -> pa_step p e = Some p' -> pa_woken p' = true.
Proof.
  intros p p' e W S. unfold pa_step in S.
  repeat match type of S with match ?x with _ => _ end = Some _ => destruct x eqn:?; try discriminate S end;
  injection S as <-; cbn; rewrite ?W; auto.
Qed.

Lemma side_winv : forall s sd k r, winv s -> m_poll s = MSide sd k ->
  match r with
  | SItem (MItem _ _) | SItem (MErr _) => True
  | SItem _ => False
  | SNone => match sd with L => m_sent s = true | R => True end
  | SPend => match sd with L => lok s | R => rok s end
  end -> winv (side_done s sd k r).
Proof.
  intros s sd k r [W1 W2] P Q. rewrite P in W2. destruct r as [r| |].
  - destruct r; try contradiction; (split; [exact W1|]); cbn; unfold lok, rok; cbn; auto.
  - cbn. destruct k as [|[|]|]; split; cbn; unfold lok, rok in *; cbn; destruct sd; cbn; auto; try tauto; intuition.
  - cbn. destruct k as [|[|]|]; split; cbn; unfold lok, rok in *; cbn; destruct sd; cbn; auto; try tauto; intuition.
Qed.

Lemma winv_same : forall s s', winv s -> m_poll s' = m_poll s -> m_ldone s' = m_ldone s -> m_rdone s' = m_rdone s -> m_sent s' = m_sent s ->
  (lok s -> lok s') -> (rok s -> rok s') -> winv s'.
Proof.
  intros s s' [W1 W2] P Ld Rd Sn X Y. split; [rewrite Ld, Sn; exact W1|]. rewrite P, Ld, Rd.
  destruct (m_poll s) as [|[|] [|[|]|]]; auto. destruct W2; auto.
Qed.
Lemma lok_woken : forall s p b, lok s -> p = set_woken (m_pa s) (pa_woken (m_pa s) || b) -> forall s', m_pa s' = p -> m_sent s' = m_sent s -> lok s'.
Proof. intros s p b X -> s' P Sn. unfold lok in *. rewrite P, Sn. cbn. destruct X as [X|[X|X]]; auto. rewrite X. auto. Qed.
Lemma deliver_winv : forall s r, winv s -> winv (deliver s r).
Proof.
  intros s r W. eapply winv_same; eauto.
  - intros X. eapply lok_woken; eauto; reflexivity.
  - unfold rok. cbn. intros [X|[X|[(X1 & X2 & X3)|X]]]; auto; left; [rewrite X|rewrite X2, orb_true_r]; reflexivity.
Qed.

Lemma winv_step : forall s e s', winv s -> step s e = Some s' -> winv s'.
Proof.
  intros s e s' W H. pose proof W as [W1 W2].
  destruct e as [| e | | | | | | | | e | ok | i o | i | i | i | i]; cbn [m_step] in H.
  - destruct (m_poll s) eqn:P; [|discriminate]. cbn in H. destruct (m_ldone s) eqn:LD, (m_rdone s) eqn:RD; injection H as <-; split; cbn; auto.
    + unfold lok, rok. cbn. auto 10.
    + congruence.
    + now destruct (m_next s).
  - destruct (m_poll s) as [|[|] k] eqn:P; try discriminate. destruct (m_sent s || negb (poll_event e)) eqn:G; [discriminate|].
    apply orb_false_iff in G as [G1 G2].
    assert (K : forall p pd, pa_step (m_pa s) e = Some p -> winv (set_pending (set_pa s p) pd)).
    { intros p pd S. split; [exact W1|]. cbn. rewrite P in *. destruct k as [|[|]|]; auto. unfold rok in *. cbn.
      destruct W2 as [W2|W2]; [left; eapply woken_env; eauto|tauto]. }
    assert (LDn : forall p, pa_step (m_pa s) e = Some p -> winv (left_done s k p)).
    { intros p S. specialize (K p (m_pending s) S). assert (KS : winv (sender_done s p)).
      { destruct K as [K1 K2]. split; [reflexivity|]. cbn in *. rewrite P in *. destruct k as [|[|]|]; auto. }
      unfold left_done. destruct (pa_ret p) as [[| |]|].
      - apply side_winv; [exact KS|cbn; rewrite P; reflexivity|reflexivity].
      - apply side_winv; [exact KS|cbn; rewrite P; reflexivity|exact Logic.I].
      - apply side_winv; [exact KS|cbn; rewrite P; reflexivity|exact Logic.I].
      - exact K. }
    destruct e as [|i|i|i|i| | | |i|i ok|i]; try discriminate.
    + destruct (pa_inreg (m_pa s)); [discriminate|]. destruct (pa_step (m_pa s) PaPull) eqn:S; [|discriminate]. injection H as <-. auto.
    + destruct (m_closed s); [discriminate|]. destruct (pa_step (m_pa s) (PaStart i)) eqn:S; [|discriminate]. injection H as <-. auto.
    + destruct (m_closed s); [|discriminate]. destruct (pa_step (m_pa s) (PaRefuse i)) eqn:S; [|discriminate]. injection H as <-. exact (K _ (m_pending s) eq_refl).
    + destruct (pa_step (m_pa s) (PaCheck i)) eqn:S; [|discriminate]. injection H as <-. auto.
    + destruct (pa_step (m_pa s) (PaFinish i)) eqn:S; [|discriminate]. injection H as <-. auto.
    + destruct (pa_step (m_pa s) PaReturn) eqn:S; [|discriminate]. injection H as <-. auto.
  - destruct (m_poll s) as [|[|] k] eqn:P; try discriminate. destruct (negb (m_sent s) && pa_idle (m_pa s)) eqn:G; [|discriminate]. injection H as <-.
    apply andb_true_iff in G as [_ G]. apply (side_winv s L k SPend W P). right. now right.
  - destruct (m_poll s) as [|[|] k] eqn:P; try discriminate. destruct (m_sent s) eqn:G; [|discriminate]. injection H as <-.
    exact (side_winv s L k SNone W P G).
  - destruct (m_poll s) as [|[|] k] eqn:P; try discriminate. destruct (m_then s) eqn:Tn; [discriminate|]. destruct (m_results s); [discriminate|].
    injection H as <-. split; [exact W1|]. cbn. rewrite P in *. destruct k as [|[|]|]; auto.
  - destruct (m_poll s) as [|[|] k] eqn:P; try discriminate. destruct (m_then s) eqn:Tn; [discriminate|]. destruct (m_results s) eqn:Rs; [|discriminate].
    injection H as <-. apply side_winv.
    + split; [exact W1|]. cbn. destruct k as [|[|]|]; auto.
    + reflexivity.
    + destruct (m_closed s && (m_pending s =? 0)%N); [exact Logic.I|]. right. right. left. cbn. auto.
  - destruct (m_poll s) as [|[|] k] eqn:P; try discriminate. destruct (m_then s) as [[r [|b|b]]|] eqn:Tn; try discriminate. injection H as <-.
    split; [exact W1|]. cbn. rewrite P in *. destruct k as [|[|]|]; auto.
  - destruct (m_poll s) as [|[|] k] eqn:P; try discriminate. destruct (m_then s) as [[r [|b|b]]|] eqn:Tn; try discriminate. injection H as <-.
    apply (side_winv (set_then s (Some (r, AWait true))) R k SPend).
    + split; [exact W1|]. cbn. rewrite P in *. destruct k as [|[|]|]; auto.
    + exact P.
    + right. right. right. cbn. eauto.
  - destruct (m_poll s) as [|[|] k] eqn:P; try discriminate. destruct (m_then s) as [[r [|b|[|]]]|] eqn:Tn; try discriminate; injection H as <-.
    + split; [exact W1|]. destruct (snd r); cbn; unfold lok, rok; cbn; auto.
    + split; [exact W1|]. cbn; unfold lok, rok; cbn; auto.
  - destruct (poll_event e) eqn:PV; [discriminate|]. destruct (pa_step (m_pa s) e) as [p|] eqn:S; [|discriminate]. injection H as <-.
    assert (KL : forall t, lok s -> lok (set_queues (set_pa s p) t (m_results s) (m_lost s))).
    { intros t [X|[X|X]]; unfold lok; cbn; auto.
      - left. eapply woken_env; eauto.
      - destruct (idle_env _ _ _ X PV S); auto. }
    assert (KR : forall t, rok s -> rok (set_queues (set_pa s p) t (m_results s) (m_lost s))).
    { intros t [X|X]; unfold rok; cbn; auto. left. eapply woken_env; eauto. }
    split; [exact W1|]. cbn. destruct (m_poll s) as [|[|] [|[|]|]]; auto. destruct W2; auto.
  - destruct (m_then s) as [[r [|b|b]]|] eqn:Tn; try discriminate. injection H as <-.
    assert (KR : rok s -> rok (set_pa (set_then s (Some (r, AReady ok))) (set_woken (m_pa s) (pa_woken (m_pa s) || b)))).
    { unfold rok. cbn. rewrite Tn. intros [X|[X|[(_ & _ & X)|(r' & X)]]]; auto; [|discriminate|].
      - rewrite X. auto.
      - injection X as -> ->. left. apply orb_true_r. }
    assert (KL : lok s -> lok (set_pa (set_then s (Some (r, AReady ok))) (set_woken (m_pa s) (pa_woken (m_pa s) || b)))).
    { unfold lok. cbn. intros [X|[X|X]]; auto. rewrite X. auto. }
    split; [exact W1|]. cbn. destruct (m_poll s) as [|[|] [|[|]|]]; auto. destruct W2; auto.
  - destruct (pick i (m_tasks s)) as [[t ts]|]; [|discriminate]. injection H as <-. apply deliver_winv. eapply winv_same; eauto.
  - destruct (pick i (m_tasks s)) as [[t ts]|]; [|discriminate]. injection H as <-. eapply winv_same; eauto.
  - destruct (pick i (m_results s)) as [[t ts]|] eqn:Pk; [|discriminate]. injection H as <-. eapply winv_same; eauto.
    unfold rok. cbn. intros [X|[X|[(X1 & X2 & X3)|X]]]; auto. rewrite X1 in Pk. destruct i; discriminate.
  - destruct (nth_error (m_tasks s) i); [|discriminate]. injection H as <-. eapply winv_same; eauto.
  - destruct (nth_error (m_results s) i); [|discriminate]. injection H as <-. now apply deliver_winv.
Qed.

Lemma winv_init : forall arr late en, winv (m_init arr late en).
Proof. intros. split; [discriminate|]. cbn. split; left; reflexivity. Qed.
Lemma winv_run : forall arr late en tr s, run_from step (m_init arr late en) tr = Some s -> winv s.
Proof.
  intros arr late en tr s H. exact (run_from_inv _ _ step winv winv_step tr _ s (winv_init arr late en) H).
Qed.

Variable f : A -> B.
Hypothesis exec_ok : forall o x y, exec o x = ROk y -> y = f x.

(** In a quiescent state everything was sent, executed, delivered and read. *)
Lemma quiet : forall inp s (o0 : O), minv f inp s -> winv s -> quiescent s ->
  m_sent s = true /\ pa_futs (m_pa s) = [] /\ m_tasks s = [] /\ (m_results s = [] \/ m_rdone s = true) /\ (m_then s = None \/ m_rdone s = true).
Proof.
  intros inp s o0 M [W1 W2] (Q1 & Q2 & Q3). rewrite Q1 in W2. destruct W2 as [WL WR]. destruct M as [PA _ _ _ _ SE _ _ _ _ _ _].
  assert (TK : m_tasks s = []).
  { destruct (m_tasks s) as [|t ts] eqn:T; [reflexivity|]. specialize (Q3 (MWork 0 o0) eq_refl). cbn in Q3. rewrite T in Q3. discriminate. }
  assert (SN : m_sent s = true).
  { destruct WL as [X|[X|X]]; [congruence|exact X|exfalso].
    unfold pa_idle in X. destruct (pa_ret (m_pa s)) eqn:Rt; [discriminate|]. cbn [andb] in X. apply andb_true_iff in X as [X1 X2].
    destruct (pa_futs (m_pa s)) as [|[[n x] u] us] eqn:Fu.
    - assert (MP : may_pull (m_pa s) = true).
      { unfold may_pull. rewrite Fu. pose proof (pi_limit0 _ _ PA). destruct (pa_limit (m_pa s)) as [[|l]|]; [congruence|reflexivity|reflexivity]. }
      rewrite MP in X2. cbn in X2. rewrite andb_false_r, !orb_false_r in X2.
      destruct (pi_reg _ _ PA X2 Rt) as (_ & Ar & En). destruct (pa_late (m_pa s)) as [|y lt] eqn:Lt.
      + specialize (Q3 (MEnv PaEnd) eq_refl). cbn [m_step poll_event] in Q3. unfold pa_step in Q3. rewrite Rt, Lt, En in Q3. discriminate.
      + specialize (Q3 (MEnv PaArrive) eq_refl). cbn [m_step poll_event] in Q3. unfold pa_step in Q3. rewrite Rt, Lt in Q3. discriminate.
    - cbn [forallb snd] in X1. apply andb_true_iff in X1 as [X1 _]. destruct u as [|[|] b|b]; try discriminate; destruct b; try discriminate.
      + specialize (Q3 (MEnv (PaReply 0 true)) eq_refl). cbn [m_step poll_event] in Q3. unfold pa_step in Q3. rewrite Rt, Fu in Q3. discriminate.
      + specialize (Q3 (MEnv (PaAccept 0)) eq_refl). cbn [m_step poll_event] in Q3. unfold pa_step in Q3. rewrite Rt, Fu in Q3. discriminate. }
  split; [exact SN|]. split; [apply (pi_ret _ _ PA), SE, SN|]. split; [exact TK|].
  destruct WR as [X|[X|[(X1 & X2 & X3)|(r & X)]]]; auto; [congruence|].
  specialize (Q3 (MAckReply true) eq_refl). cbn in Q3. rewrite X in Q3. discriminate.
Qed.

(** Runs in which nothing goes wrong. *)
Record good (s : st) : Prop := {
  g_brk : broken (m_log s) = false;
  g_bad : existsb bad (pa_futs (m_pa s)) = false;
  g_ret : pa_ret (m_pa s) = None \/ pa_ret (m_pa s) = Some PaOk;
  g_lost : m_lost s = [];
  g_then : forall r, m_then s <> Some (r, AReady false)
}.

Lemma good_pa : forall inp (p p' : pall (N * A) E) e, (forall x, ~ In (RErr x) inp) -> pinv inp p' ->
  existsb bad (pa_futs p) = false -> pa_ret p = None \/ pa_ret p = Some PaOk -> is_failure e = false ->
  pa_step p e = Some p' ->
  existsb bad (pa_futs p') = false /\ (pa_ret p' = None \/ pa_ret p' = Some PaOk).
Proof.
  intros inp p p' e NE PI Bd Rt NF S.
  assert (IE : forall x, pa_ret p' <> Some (PaInput x)).
  { intros x X. apply (NE x). rewrite (pi_split _ _ PI), X. cbn. apply in_or_app. right. left. reflexivity. }
  assert (BU : forall i g, bad g = false -> existsb bad (upd i g (pa_futs p)) = false).
  { intros i g G. destruct (existsb bad (upd i g (pa_futs p))) eqn:X; [|reflexivity]. apply existsb_exists in X as (y & Y1 & Y2).
    apply nth_In_upd in Y1 as [-> | Y1]; [congruence|]. rewrite <- Bd. symmetry. apply existsb_exists. eauto. }
  unfold pa_step in S. destruct Rt as [Rt|Rt]; rewrite Rt in S.
  2: { destruct e; try discriminate. destruct (pick i (pa_dropped p)) as [[x d]|]; [|discriminate]. injection S as <-. cbn. auto. }
  destruct e as [|i|i|i|i| | | |i|i ok|i]; try discriminate.
  - destruct (pa_open p && may_pull p); [|discriminate].
    destruct (pa_arr p) as [|[x|x] arr]; [destruct (pa_end p)| |]; injection S as <-; cbn in *; auto.
    + rewrite existsb_app, Bd. cbn. auto.
    + exfalso. now apply (IE x).
  - destruct (nth_error (pa_futs p) i) as [[[n x] [|a b|b]]|]; try discriminate. injection S as <-. cbn. auto.
  - destruct (nth_error (pa_futs p) i) as [[[n x] [|a [|]|b]]|]; try discriminate. injection S as <-. cbn. auto.
  - destruct (pick i (pa_futs p)) as [[[[n x] [|a b|[|]]] r]|] eqn:P; try discriminate; injection S as <-; cbn.
    + split; [|auto]. destruct (existsb bad r) eqn:X; [|reflexivity]. apply existsb_exists in X as (y & Y1 & Y2).
      rewrite <- Bd. symmetry. apply existsb_exists. exists y. split; [|exact Y2].
      apply pick_perm in P. eapply Permutation_in; [symmetry; exact P|]. now right.
    + exfalso. assert (existsb bad (pa_futs p) = true); [|congruence]. apply existsb_exists. exists (n, x, FReady false). split; [|reflexivity].
      apply pick_perm in P. eapply Permutation_in; [symmetry; exact P|]. now left.
  - destruct (pa_open p); [discriminate|]. destruct (pa_futs p) eqn:F; [|discriminate]. injection S as <-. cbn. auto.
  - destruct (pa_late p); [discriminate|]. injection S as <-. cbn. auto.
  - destruct (pa_late p); [|discriminate]. destruct (pa_end p); [discriminate|]. injection S as <-. cbn. auto.
  - destruct (nth_error (pa_futs p) i) as [[[n x] [|[|] b|b]]|]; try discriminate. injection S as <-. cbn. auto.
  - destruct (nth_error (pa_futs p) i) as [[[n x] [|a b|b]]|]; try discriminate.
    destruct ok; [|discriminate]. cbn in S. destruct a; [|discriminate]. injection S as <-. cbn. auto.
Qed.

Lemma good_quiet : forall s sd k r, good s -> r = SPend \/ r = SNone -> good (side_done s sd k r).
Proof.
  intros s sd k r [G1 G2 G3 G4 G5] [-> | ->]; cbn; destruct k as [|[|]|]; destruct sd; constructor; cbn; auto.
Qed.

Definition no_errors (inp : list (res E (N * A))) : Prop := forall x, ~ In (RErr x) inp.

Lemma good_step : forall inp s e s', no_errors inp -> minv f inp s' ->
  duplicates e = false -> loses e = false -> fails e = false ->
  m_closed s = m_sent s -> good s -> step s e = Some s' -> good s'.
Proof.
  intros inp s e s' NE M ND NL NF CS G H. pose proof G as [G1 G2 G3 G4 G5].
  destruct e as [| e | | | | | | | | e | ok | i o | i | i | i | i]; try discriminate; cbn [m_step] in H.
  - destruct (m_poll s) eqn:P; [|discriminate]. cbn in H. destruct (m_ldone s), (m_rdone s); injection H as <-; constructor; cbn; auto.
  - destruct (m_poll s) as [|[|] k] eqn:P; try discriminate. destruct (m_sent s || negb (poll_event e)) eqn:Gd; [discriminate|].
    apply orb_false_iff in Gd as [Gd1 Gd2]. rewrite CS, Gd1 in H. apply negb_false_iff in Gd2.
    assert (K : forall p pd, pa_step (m_pa s) e = Some p -> pinv inp p -> is_failure e = false -> good (set_pending (set_pa s p) pd)).
    { intros p pd S PI IF. destruct (good_pa inp _ _ _ NE PI G2 G3 IF S) as [X1 X2]. constructor; cbn; auto. }
    assert (KL : forall p, pa_step (m_pa s) e = Some p -> is_failure e = false -> s' = left_done s k p -> good s').
    { intros p S IF ->.
      assert (PI : pinv inp p).
      { destruct M as [PI _ _ _ _ _ _ _ _ _ _ _]. unfold left_done in PI.
        destruct (pa_ret p) as [[| |]|] eqn:Q; cbn in PI; auto; destruct k as [|[|]|]; cbn in PI; auto; destruct PI; constructor; auto. }
      destruct (good_pa inp _ _ _ NE PI G2 G3 IF S) as [X1 X2].
      unfold left_done. destruct X2 as [X2|X2]; rewrite X2.
      - constructor; cbn; auto.
      - apply good_quiet; [|auto]. constructor; cbn; auto. }
    destruct e as [|i|i|i|i| | | |i|i ok|i]; try discriminate.
    + destruct (pa_inreg (m_pa s)); [discriminate|]. destruct (pa_step (m_pa s) PaPull) as [p|] eqn:S; [|discriminate]. injection H as <-.
      exact (KL p eq_refl eq_refl eq_refl).
    + destruct (pa_step (m_pa s) (PaStart i)) as [p|] eqn:S; [|discriminate]. injection H as <-.
      apply (K p _ eq_refl); [exact (mi_pa _ _ _ M)|reflexivity].
    + destruct (pa_step (m_pa s) (PaCheck i)) as [p|] eqn:S; [|discriminate]. injection H as <-. exact (KL p eq_refl eq_refl eq_refl).
    + destruct (pa_step (m_pa s) (PaFinish i)) as [p|] eqn:S; [|discriminate]. injection H as <-. exact (KL p eq_refl eq_refl eq_refl).
    + destruct (pa_step (m_pa s) PaReturn) as [p|] eqn:S; [|discriminate]. injection H as <-. exact (KL p eq_refl eq_refl eq_refl).
  - destruct (m_poll s) as [|[|] k]; try discriminate. destruct (negb (m_sent s) && pa_idle (m_pa s)); [|discriminate]. injection H as <-.
    apply (good_quiet s L k SPend); auto.
  - destruct (m_poll s) as [|[|] k]; try discriminate. destruct (m_sent s); [|discriminate]. injection H as <-.
    apply (good_quiet s L k SNone); auto.
  - destruct (m_poll s) as [|[|] k]; try discriminate. destruct (m_then s) eqn:Tn; [discriminate|]. destruct (m_results s); [discriminate|].
    injection H as <-. constructor; cbn; auto; intros; congruence.
  - destruct (m_poll s) as [|[|] k]; try discriminate. destruct (m_then s) eqn:Tn; [discriminate|]. destruct (m_results s); [|discriminate].
    injection H as <-. apply good_quiet; [constructor; cbn; auto; intros; congruence|]. destruct (m_closed s && (m_pending s =? 0)%N); auto.
  - destruct (m_poll s) as [|[|] k]; try discriminate. destruct (m_then s) as [[r [|b|b]]|] eqn:Tn; try discriminate. injection H as <-.
    constructor; cbn; auto; intros; congruence.
  - destruct (m_poll s) as [|[|] k]; try discriminate. destruct (m_then s) as [[r [|b|b]]|] eqn:Tn; try discriminate. injection H as <-.
    apply (good_quiet (set_then s (Some (r, AWait true))) R k SPend); [|auto]. constructor; cbn; auto; intros; congruence.
  - destruct (m_poll s) as [|[|] k]; try discriminate. destruct (m_then s) as [[r [|b|[|]]]|] eqn:Tn; try discriminate; injection H as <-.
    + destruct (snd r); constructor; cbn; auto; intros; congruence.
    + exfalso. now apply (G5 r).
  - destruct (poll_event e) eqn:PV; [discriminate|]. destruct (pa_step (m_pa s) e) as [p|] eqn:S; [|discriminate]. injection H as <-.
    assert (IF : is_failure e = false) by (destruct e as [| | | | | | | | |i [|]|]; try reflexivity; discriminate).
    destruct (good_pa inp _ _ _ NE (mi_pa _ _ _ M) G2 G3 IF S) as [X1 X2]. constructor; cbn; auto.
  - destruct ok; [|discriminate]. destruct (m_then s) as [[r [|b|b]]|] eqn:Tn; try discriminate. injection H as <-. constructor; cbn; auto; intros; congruence.
  - destruct (pick i (m_tasks s)) as [[t ts]|]; [|discriminate]. injection H as <-. constructor; cbn; auto.
Qed.

Lemma no_fault_dup : forall tr : list (m_event O), no_fault tr -> no_dup tr.
Proof. intros tr H e I. now apply H. Qed.

Lemma good_run : forall arr late en tr s, no_errors (arr ++ late) -> (N.of_nat (length (arr ++ late)) < usize_max)%N -> no_fault tr ->
  run_from step (m_init arr late en) tr = Some s -> good s.
Proof.
  intros arr late en tr. induction tr as [|e tr IH] using rev_ind; intros s NE SH NF H.
  - cbn in H. injection H as <-. constructor; cbn; auto; intros; congruence.
  - pose proof (minv_run exec f exec_ok arr late en _ s SH (no_fault_dup _ NF) H) as M.
    apply run_from_app in H as (s1 & H1 & H2). cbn in H2. destruct (step s1 e) as [s2|] eqn:S; [|discriminate]. injection H2 as ->.
    assert (NF1 : no_fault tr) by (intros x X; apply NF, in_or_app; auto).
    pose proof (minv_run exec f exec_ok arr late en _ s1 SH (no_fault_dup _ NF1) H1) as M1.
    destruct (NF e) as (N1 & N2 & N3); [apply in_or_app; right; now left|].
    eapply (good_step (arr ++ late) s1 e s); eauto. exact (mi_closed _ _ _ M1).
Qed.

(** Without faults the counter says exactly what is under way. *)
Lemma good_pending : forall inp s, minv f inp s -> good s ->
  m_pending s = N.of_nat (cnt is_half (pa_futs (m_pa s)) + length (m_tasks s) + length (m_results s) + length (then_list s)).
Proof.
  intros inp s M [G1 G2 G3 G4 G5]. destruct (mi_pend _ _ _ M) as (lk & PE & LE).
  assert (lk = 0) as -> by (destruct lk as [|lk]; [reflexivity|]; destruct LE as [X|X]; [lia|congruence|congruence]).
  assert (D : pa_dropped (m_pa s) = []).
  { destruct G3 as [X|X]; [apply (pi_drop _ _ (mi_pa _ _ _ M) X)|apply (pi_ok _ _ (mi_pa _ _ _ M) X)]. }
  rewrite PE, D, G4. cbn [length]. f_equal. lia.
Qed.

(** Nothing left at all. *)
Record settled (s : st) : Prop := {
  se_sent : m_sent s = true;
  se_closed : m_closed s = true;
  se_pend : m_pending s = 0%N;
  se_futs : pa_futs (m_pa s) = [];
  se_drop : pa_dropped (m_pa s) = [];
  se_ret : pa_ret (m_pa s) <> None;
  se_tasks : m_tasks s = [];
  se_res : m_results s = [];
  se_then : m_then s = None
}.

Lemma quiet_settled : forall inp s (o0 : O), minv f inp s -> winv s -> good s -> quiescent s -> settled s.
Proof.
  intros inp s o0 M W G Q. destruct (quiet inp s o0 M W Q) as (Q1 & Q2 & Q3 & Q4 & Q5).
  pose proof (good_pending _ _ M G) as PE. pose proof M as [PA _ _ _ _ SE CS _ RD _ _ _].
  assert (RT : pa_ret (m_pa s) <> None) by now apply SE.
  assert (D : pa_dropped (m_pa s) = []).
  { destruct (g_ret _ G) as [X|X]; [congruence|apply (pi_ok _ _ PA X)]. }
  assert (X : m_results s = [] /\ m_then s = None).
  { destruct (m_rdone s) eqn:R.
    - destruct (RD eq_refl) as [_ Z]. rewrite Z in PE. unfold then_list in PE.
      destruct (m_results s); [|cbn in PE; lia]. destruct (m_then s) as [[r a]|]; [cbn in PE; lia|auto].
    - destruct Q4, Q5; try discriminate. auto. }
  destruct X as [X1 X2].
  constructor; auto; [congruence|]. rewrite PE, Q2, Q3, X1. unfold then_list. rewrite X2. reflexivity.
Qed.


(** From such a state every poll returns the end, whatever happens meanwhile. *)
Definition finishing (s : st) : Prop :=
  settled s /\ (m_poll s = MIdle -> ended (m_log s) = true) /\ forall sd, m_poll s <> MSide sd (KSecond false).

Lemma settled_same : forall s s', settled s -> m_sent s' = m_sent s -> m_closed s' = m_closed s -> m_pending s' = m_pending s ->
  pa_futs (m_pa s') = pa_futs (m_pa s) -> pa_dropped (m_pa s') = pa_dropped (m_pa s) -> pa_ret (m_pa s') = pa_ret (m_pa s) ->
  m_tasks s' = m_tasks s -> m_results s' = m_results s -> m_then s' = m_then s -> settled s'.
Proof. intros s s' [] ? ? ? ? ? ? ? ? ?. constructor; congruence. Qed.

Lemma finishing_none : forall s sd k, finishing s -> m_poll s = MSide sd k -> finishing (side_done s sd k SNone).
Proof.
  intros s sd k (F1 & F2 & F3) P. cbn. destruct k as [|[|]|].
  - repeat split; try apply F1; cbn; intros; congruence.
  - repeat split; try apply F1; cbn; intros; congruence.
  - exfalso. now apply (F3 sd).
  - repeat split; try apply F1; cbn; intros; congruence.
Qed.

Lemma finishing_step : forall s e s', finishing s -> step s e = Some s' -> finishing s'.
Proof.
  intros s e s' F H. pose proof F as (F1 & F2 & F3). pose proof F1 as [S1 S2 S3 S4 S5 S6 S7 S8 S9].
  destruct e as [| e | | | | | | | | e | ok | i o | i | i | i | i]; cbn [m_step] in H; rewrite ?S1, ?S7, ?S8, ?S9 in H.
  - destruct (m_poll s) eqn:P; [|discriminate]. cbn in H.
    destruct (m_ldone s), (m_rdone s); injection H as <-; (split; [eapply settled_same; eauto|]); cbn; split; intros; try congruence; auto.
  - destruct (m_poll s) as [|[|] k]; discriminate.
  - destruct (m_poll s) as [|[|] k]; discriminate.
  - destruct (m_poll s) as [|[|] k] eqn:P; try discriminate. injection H as <-. exact (finishing_none s L k F P).
  - destruct (m_poll s) as [|[|] k]; discriminate.
  - destruct (m_poll s) as [|[|] k] eqn:P; try discriminate. rewrite S2, S3 in H. cbn [N.eqb andb] in H. injection H as <-.
    apply finishing_none; [|reflexivity]. split; [constructor; auto|]. cbn. split; [congruence|exact F3].
  - destruct (m_poll s) as [|[|] k]; discriminate.
  - destruct (m_poll s) as [|[|] k]; discriminate.
  - destruct (m_poll s) as [|[|] k]; discriminate.
  - destruct (poll_event e); [discriminate|]. destruct (pa_step (m_pa s) e) as [p|] eqn:S; [|discriminate]. exfalso.
    unfold pa_step in S. destruct (pa_ret (m_pa s)); [|congruence]. destruct e; try discriminate. rewrite S5 in S. destruct i; discriminate.
  - discriminate.
  - destruct i; discriminate.
  - destruct i; discriminate.
  - destruct i; discriminate.
  - destruct i; discriminate.
  - destruct i; discriminate.
Qed.

Lemma settled_ends : forall s tr s', settled s -> m_poll s = MIdle -> run_from step s (MPoll :: tr) = Some s' -> m_poll s' = MIdle ->
  ended (m_log s') = true.
Proof.
  intros s tr s' S P H I. cbn [run_from] in H. destruct (step s MPoll) as [s1|] eqn:St; [|discriminate].
  assert (F : finishing s1).
  { cbn in St. rewrite P in St. destruct (m_ldone s), (m_rdone s); injection St as <-; (split; [eapply settled_same; eauto|]); cbn; split; intros; congruence. }
  apply (run_from_inv _ _ step finishing finishing_step tr s1 s' F H). exact I.
Qed.

(** An input that is there from the start, a publisher that never suspends. *)
Definition nosus (x : nat * (N * A) * fut) : Prop := match snd x with FWait _ true => False | _ => True end.
Definition jpa (p : pall (N * A) E) : Prop :=
  pa_late p = [] /\ pa_end p = true /\ pa_inreg p = false /\ pa_limit p = Some max_concurrency
  /\ forall x, In x (pa_futs p) -> nosus x.

Lemma jpa_idle : forall p, jpa p -> pa_idle p = false.
Proof.
  intros p (J1 & J2 & J3 & J4 & J5). unfold pa_idle. destruct (pa_ret p); [reflexivity|]. cbn [andb].
  destruct (pa_futs p) as [|[n u] us] eqn:Fu.
  - unfold may_pull. rewrite J3, J4, Fu. cbn. rewrite andb_false_r. reflexivity.
  - cbn [forallb snd]. specialize (J5 (n, u) (or_introl eq_refl)). unfold nosus in J5. cbn in J5. destruct u as [|a [|]|b]; try contradiction; reflexivity.
Qed.

Lemma jpa_step : forall p e p', jpa p -> (forall i, e <> PaCheck i) -> pa_step p e = Some p' -> jpa p'.
Proof.
  intros p e p' (J1 & J2 & J3 & J4 & J5) NC S. unfold pa_step in S.
  destruct (pa_ret p) as [r|].
  { destruct e; try discriminate. destruct (pick i (pa_dropped p)) as [[x d]|]; [|discriminate]. injection S as <-. repeat split; auto. }
  assert (KU : forall i g, nosus g ->
    forall x, In x (upd i g (pa_futs p)) -> nosus x).
  { intros i g G x X. apply nth_In_upd in X as [-> | X]; [exact G|exact (J5 x X)]. }
  destruct e as [|i|i|i|i| | | |i|i ok|i]; try discriminate; rewrite ?J1, ?J2 in S.
  - destruct (pa_open p && may_pull p); [|discriminate].
    destruct (pa_arr p) as [|[x|x] arr]; injection S as <-; repeat split; auto; cbn; try contradiction.
    intros y Y. apply in_app_or in Y as [Y|[<-|[]]]; [auto|exact Logic.I].
  - destruct (nth_error (pa_futs p) i) as [[[n x] [|a b|b]]|] eqn:Nt; try discriminate. injection S as <-. repeat split; auto. apply KU; exact Logic.I.
  - destruct (nth_error (pa_futs p) i) as [[[n x] [|a b|b]]|] eqn:Nt; try discriminate. injection S as <-. repeat split; auto. apply KU; exact Logic.I.
  - exfalso. now apply (NC i).
  - destruct (pick i (pa_futs p)) as [[[[n x] [|a b|[|]]] r]|] eqn:P; try discriminate; injection S as <-; repeat split; auto; cbn; try contradiction.
    intros y Y. apply J5. apply pick_perm in P. eapply Permutation_in; [symmetry; exact P|]. now right.
  - destruct (pa_open p); [discriminate|]. destruct (pa_futs p) eqn:F; [|discriminate]. injection S as <-. repeat split; auto.
  - discriminate.
  - discriminate.
  - destruct (nth_error (pa_futs p) i) as [[[n x] [|[|] b|b]]|] eqn:Nt; try discriminate. injection S as <-. repeat split; auto.
    apply KU. exact (J5 _ (nth_error_In _ _ Nt)).
  - destruct (nth_error (pa_futs p) i) as [[[n x] [|a b|b]]|] eqn:Nt; try discriminate. destruct (negb ok || a); [|discriminate].
    injection S as <-. repeat split; auto. apply KU; exact Logic.I.
Qed.

Definition rok2 (s : st) : Prop :=
  pa_woken (m_pa s) = true \/ ended (m_log s) = true \/ (m_results s = [] /\ m_resreg s = true /\ m_then s = None /\ m_pending s <> 0%N)
  \/ exists r, m_then s = Some (r, AWait true).
Definition jinv (s : st) : Prop :=
  jpa (m_pa s) /\ m_closed s = m_sent s /\
  if m_sent s
  then match m_poll s with
       | MIdle | MSide L (KSecond false) => rok2 s
       | MSide R (KSecond false) => False
       | _ => True
       end
  else m_ldone s = false /\ m_rdone s = false /\
       match m_poll s with
       | MIdle => m_next s = L /\ pa_woken (m_pa s) = true
       | MSide L KFirst => True
       | _ => False
       end.

Lemma jinv_same : forall s s', jinv s -> jpa (m_pa s') -> (pa_woken (m_pa s) = true -> pa_woken (m_pa s') = true) ->
  m_poll s' = m_poll s -> m_ldone s' = m_ldone s -> m_rdone s' = m_rdone s -> m_sent s' = m_sent s -> m_closed s' = m_closed s -> m_next s' = m_next s ->
  (rok2 s -> rok2 s') -> jinv s'.
Proof.
  intros s s' (J1 & J2 & J3) P W Po Ld Rd Sn Cl Nx X. split; [exact P|]. split; [congruence|]. rewrite Sn, Po, Ld, Rd, Nx.
  destruct (m_sent s).
  - destruct (m_poll s) as [|[|] [|[|]|]]; auto.
  - destruct (m_poll s) as [|[|] [|[|]|]]; auto. tauto.
Qed.
Lemma jpa_woken : forall p b, jpa p -> jpa (set_woken p b).
Proof. intros p b H. exact H. Qed.
Lemma jinv_deliver : forall s r, jinv s -> jinv (deliver s r).
Proof.
  intros s r J. eapply jinv_same; eauto; cbn.
  - destruct J as (J1 & _). exact J1.
  - intros ->. reflexivity.
  - unfold rok2. cbn. intros [X|[X|[(X1 & X2 & X3)|X]]]; auto; left; [rewrite X|rewrite X2, orb_true_r]; reflexivity.
Qed.

Lemma jinv_step : forall s e s', jinv s -> (forall i, e <> MLeft (PaCheck i)) -> step s e = Some s' -> jinv s'.
Proof.
  intros s e s' J NC H. pose proof J as (J1 & J2 & J3).
  assert (RET : forall p lg x, jpa p -> m_return (sender_done s p) x = lg -> match x with MItem _ _ | MErr _ | MNone => True | _ => False end -> jinv lg).
  { intros p lg x P <- X. split; [destruct x; exact P|]. split; [reflexivity|]. cbn. unfold rok2. cbn. destruct x; try contradiction; auto. }
  destruct e as [| e | | | | | | | | e | ok | i o | i | i | i | i]; cbn [m_step] in H.
  - destruct (m_poll s) eqn:P; [|discriminate]. cbn in H. destruct (m_sent s) eqn:Sn.
    + destruct (m_ldone s), (m_rdone s); injection H as <-; (split; [exact J1|]); (split; [cbn; congruence|]); cbn; rewrite ?Sn; auto.
      * unfold rok2. cbn. auto.
      * now destruct (m_next s).
    + destruct J3 as (L1 & L2 & L3 & L4). rewrite L1, L2, L3 in H. injection H as <-. split; [exact J1|]. split; [cbn; congruence|]. cbn. rewrite ?Sn. auto.
  - destruct (m_poll s) as [|[|] k] eqn:P; try discriminate. destruct (m_sent s || negb (poll_event e)) eqn:G; [discriminate|].
    apply orb_false_iff in G as [G1 G2]. rewrite G1 in J3. destruct J3 as (L1 & L2 & L3). destruct k as [|[|]|]; try contradiction.
    assert (NE : forall i, e <> PaCheck i) by (intros i ->; now apply (NC i)).
    assert (K : forall p pd, pa_step (m_pa s) e = Some p -> jinv (set_pending (set_pa s p) pd)).
    { intros p pd S. split; [eapply jpa_step; eauto|]. split; [exact J2|]. cbn. rewrite G1, P. auto. }
    assert (LDn : forall p, pa_step (m_pa s) e = Some p -> jinv (left_done s KFirst p)).
    { intros p S. assert (JP : jpa p) by (eapply jpa_step; eauto). specialize (K p (m_pending s) S).
      unfold left_done. destruct (pa_ret p) as [[| |]|].
      - split; [exact JP|]. split; reflexivity.
      - eapply (RET p _ (MErr (EInput e0))); [exact JP|reflexivity|exact Logic.I].
      - eapply (RET p _ (MErr (EPublish n))); [exact JP|reflexivity|exact Logic.I].
      - exact K. }
    destruct e as [|i|i|i|i| | | |i|i ok|i]; try discriminate.
    + destruct (pa_inreg (m_pa s)); [discriminate|]. destruct (pa_step (m_pa s) PaPull) eqn:S; [|discriminate]. injection H as <-. auto.
    + destruct (m_closed s); [discriminate|]. destruct (pa_step (m_pa s) (PaStart i)) eqn:S; [|discriminate]. injection H as <-. auto.
    + destruct (m_closed s); [|discriminate]. destruct (pa_step (m_pa s) (PaRefuse i)) eqn:S; [|discriminate]. injection H as <-. exact (K _ (m_pending s) eq_refl).
    + exfalso. now apply (NC i).
    + destruct (pa_step (m_pa s) (PaFinish i)) eqn:S; [|discriminate]. injection H as <-. auto.
    + destruct (pa_step (m_pa s) PaReturn) eqn:S; [|discriminate]. injection H as <-. auto.
  - destruct (m_poll s) as [|[|] k] eqn:P; try discriminate. rewrite (jpa_idle _ J1), andb_false_r in H. discriminate.
  - destruct (m_poll s) as [|[|] k] eqn:P; try discriminate. destruct (m_sent s) eqn:G; [|discriminate]. injection H as <-.
    cbn. destruct k as [|[|]|]; (split; [exact J1|]); (split; [cbn; congruence|]); cbn; rewrite G; unfold rok2 in *; cbn; auto.
  - destruct (m_poll s) as [|[|] k] eqn:P; try discriminate. destruct (m_then s) eqn:Tn; [discriminate|]. destruct (m_results s); [discriminate|].
    injection H as <-. destruct (m_sent s) eqn:Sn; [|tauto]. split; [exact J1|]. split; [cbn; congruence|]. cbn. rewrite ?Sn, P.
    destruct k as [|[|]|]; auto.
  - destruct (m_poll s) as [|[|] k] eqn:P; try discriminate. destruct (m_then s) eqn:Tn; [discriminate|]. destruct (m_results s) eqn:Rs; [|discriminate].
    injection H as <-. destruct (m_sent s) eqn:Sn; [|tauto]. rewrite J2. cbn [andb m_closed m_pending].
    destruct (m_pending s =? 0)%N eqn:Z.
    + cbn. destruct k as [|[|]|]; try contradiction; (split; [exact J1|]); (split; [cbn; congruence|]); cbn; unfold rok2; cbn; auto.
    + apply N.eqb_neq in Z. cbn. destruct k as [|[|]|]; try contradiction; (split; [exact J1|]); (split; [cbn; congruence|]); cbn; unfold rok2; cbn; auto 10.
  - destruct (m_poll s) as [|[|] k] eqn:P; try discriminate. destruct (m_then s) as [[r [|b|b]]|] eqn:Tn; try discriminate. injection H as <-.
    destruct (m_sent s) eqn:Sn; [|tauto]. split; [exact J1|]. split; [cbn; congruence|]. cbn. rewrite ?Sn, P. destruct k as [|[|]|]; auto.
  - destruct (m_poll s) as [|[|] k] eqn:P; try discriminate. destruct (m_then s) as [[r [|b|b]]|] eqn:Tn; try discriminate. injection H as <-.
    destruct (m_sent s) eqn:Sn; [|tauto]. cbn. destruct k as [|[|]|]; try contradiction; (split; [exact J1|]); (split; [cbn; congruence|]); cbn; rewrite ?Sn; unfold rok2; cbn; eauto 10.
  - destruct (m_poll s) as [|[|] k] eqn:P; try discriminate. destruct (m_sent s) eqn:Sn; [|tauto].
    destruct (m_then s) as [[r [|b|[|]]]|] eqn:Tn; try discriminate; injection H as <-.
    + destruct (snd r); (split; [exact J1|]); (split; [cbn; congruence|]); cbn; rewrite ?Sn; unfold rok2; cbn; auto.
    + (split; [exact J1|]); (split; [cbn; congruence|]); cbn; rewrite ?Sn; unfold rok2; cbn; auto.
  - destruct (poll_event e) eqn:PV; [discriminate|]. destruct (pa_step (m_pa s) e) as [p|] eqn:S; [|discriminate]. injection H as <-.
    eapply jinv_same; eauto; cbn.
    + eapply jpa_step; eauto. intros i ->. discriminate.
    + intros X. eapply woken_env; eauto.
    + unfold rok2. cbn. intros [X|X]; [|tauto]. left. eapply woken_env; eauto.
  - destruct (m_then s) as [[r [|b|b]]|] eqn:Tn; try discriminate. injection H as <-.
    eapply jinv_same; eauto; cbn.
    + intros ->. reflexivity.
    + unfold rok2. cbn. rewrite Tn. intros [X|[X|[(_ & _ & X & _)|(r' & X)]]]; auto; [left; rewrite X; reflexivity|discriminate|].
      injection X as -> ->. left. apply orb_true_r.
  - destruct (pick i (m_tasks s)) as [[t ts]|]; [|discriminate]. injection H as <-. apply jinv_deliver. eapply jinv_same; eauto.
  - destruct (pick i (m_tasks s)) as [[t ts]|]; [|discriminate]. injection H as <-. eapply jinv_same; eauto.
  - destruct (pick i (m_results s)) as [[t ts]|] eqn:Pk; [|discriminate]. injection H as <-. eapply jinv_same; eauto.
    unfold rok2. cbn. intros [X|[X|[(X1 & X2 & X3)|X]]]; auto. rewrite X1 in Pk. destruct i; discriminate.
  - destruct (nth_error (m_tasks s) i); [|discriminate]. injection H as <-. eapply jinv_same; eauto.
  - destruct (nth_error (m_results s) i); [|discriminate]. injection H as <-. now apply jinv_deliver.
Qed.

Definition never_suspends (tr : list (m_event O)) : Prop := forall i, ~ In (MLeft (PaCheck i)) tr.

Lemma jinv_run : forall arr tr s, never_suspends tr -> run_from step (m_init arr [] true) tr = Some s -> jinv s.
Proof.
  intros arr tr. induction tr as [|e tr IH] using rev_ind; intros s NS H.
  - cbn in H. injection H as <-. repeat split; cbn; auto; contradiction.
  - apply run_from_app in H as (s1 & H1 & H2). cbn in H2. destruct (step s1 e) as [s2|] eqn:S; [|discriminate]. injection H2 as ->.
    eapply (jinv_step s1 e s); [|intros i ->; apply (NS i), in_or_app; right; now left|exact S].
    apply IH; [|exact H1]. intros i X. apply (NS i), in_or_app. now left.
Qed.
End MapLive.
