(** Invariants of the worker beside the accounting of WorkerProofs. *)
From Coq Require Import List Arith NArith Lia Bool.
From Verif Require Import Base BaseFacts RetryModel WorkerModel WorkerSpec WorkerProofs WorkerFacts.
Import ListNotations.
Open Scope nat_scope.

(** ** Time and the map of terminated jobs *)
Record tinv (s : wstate) : Prop := mkTI {
  ti_log : forall tm a, In (tm, a) (w_log s) -> (tm <= w_now s)%N;
  ti_reap : (w_reap s <= w_now s + clear_interval)%N;
  ti_from : forall k tm, In (k, tm) (w_jobs s) -> In (tm, AMark k) (w_log s) /\ (w_reap s <= tm + 2 * clear_interval)%N;
  ti_to : forall k tm, In (tm, AMark k) (w_log s) -> (w_now s < tm + clear_interval)%N -> In (k, tm) (w_jobs s)
}.
Lemma tinv_init : forall ident, tinv (w_init ident).
Proof. intros ident. constructor; cbn; try contradiction. lia. Qed.
Lemma tinv_step : forall s e s', tinv s -> w_step s e = Some s' -> tinv s'.
Proof.
  intros s e s' [T1 T2 T3 T4] H. destruct (step_acts s e s' H) as (new & L & X).
  destruct (kept_step s e s' H) as [[K1 K2 (new' & L' & K3)]|[(d & -> & N1 & R1 & J1 & L1 & _)|(-> & RN & N1 & R1 & J1 & L1 & _)]].
  - rewrite L in L'. apply app_inv_tail in L'. subst new'. constructor.
    + intros tm a I. rewrite L in I. rewrite K1. apply in_app_or in I. destruct I as [I|I]; [destruct (X tm a I) as [-> _]; lia|eauto].
    + rewrite K1, K2. exact T2.
    + intros k tm I. rewrite K3 in I. rewrite K2, L. apply in_app_or in I. destruct I as [I|I].
      * apply jobs_in in I. split; [apply in_or_app; now left|]. destruct (X _ _ I) as [-> _]. unfold clear_interval in *. lia.
      * destruct (T3 k tm I) as [A B]. split; [apply in_or_app; now right|exact B].
    + intros k tm I Q. rewrite K3. rewrite L in I. rewrite K1 in Q. apply in_or_app. apply in_app_or in I. destruct I as [I|I]; [left; now apply jobs_in|right; eauto].
  - constructor; rewrite ?N1, ?R1, ?J1, ?L1; auto.
    + intros tm a I. specialize (T1 tm a I). lia.
    + lia.
    + intros k tm I Q. apply T4; auto. lia.
  - constructor; rewrite ?N1, ?R1, ?J1, ?L1; auto.
    + lia.
    + intros k tm I. apply filter_In in I. destruct I as [I Q]. cbn [snd] in Q. apply N.ltb_lt in Q. destruct (T3 k tm I) as [A _]. split; [exact A|].
      specialize (T1 _ _ A). unfold clear_interval in *. lia.
    + intros k tm I Q. apply filter_In. split; [now apply T4|]. cbn [snd]. apply N.ltb_lt. specialize (T1 _ _ I). lia.
Qed.
Lemma tinv_run : forall ident tr s, run_from w_step (w_init ident) tr = Some s -> tinv s.
Proof. intros ident tr s H. exact (run_from_inv _ _ w_step tinv tinv_step tr _ s (tinv_init ident) H). Qed.

(** ** No start while the job is marked *)
Definition rinv (s : wstate) : Prop :=
  winv s /\ tinv s /\
  (forall t sn st tm tt, w_main s = WpRun t sn st -> later (tt, ATake (cur s) t) (tm, AMark (t_key t)) (w_log s) -> (tm + clear_interval <= w_now s)%N) /\
  (forall i t ts tt tm, In (ts, AStart i) (w_log s) -> later (tt, ATake i t) (tm, AMark (t_key t)) (w_log s) -> (tm + clear_interval <= ts)%N) /\
  (forall i t t' tm tm', In (tm, ATake i t) (w_log s) -> In (tm', ATake i t') (w_log s) -> t = t' /\ tm = tm').
Lemma rinv_init : forall ident, rinv (w_init ident).
Proof. intros ident. repeat split; try apply winv_init; try apply tinv_init; cbn; try contradiction; discriminate. Qed.
Lemma rinv_step : forall s e s', rinv s -> w_step s e = Some s' -> rinv s'.
Proof.
  intros s e s' (W & T & R1 & R2 & R3) H. destruct (step_acts s e s' H) as (new & L & X).
  pose proof (winv_step s e s' W H) as W'. pose proof (tinv_step s e s' T H) as T'. split; [exact W'|]. split; [exact T'|].
  assert (MONO : (w_now s <= w_now s')%N).
  { destruct (kept_step s e s' H) as [[K1 _ _]|[(d & -> & N1 & _)|(-> & RN & N1 & _)]]; lia. }
  assert (TAKE : forall tt i t q, later (tt, ATake i t) q (w_log s') -> later (tt, ATake i t) q (w_log s) \/ (i = w_taken s /\ w_main s = WpWait /\ e = WTake t)).
  { intros tt i t q Q. rewrite L in Q. apply later_app in Q. destruct Q as [Q|Q]; [now left|]. right. apply X in Q. destruct Q as [_ Q]. exact Q. }
  repeat split.
  - intros t sn st tm tt M Q. destruct (run_phase s e s' t sn st H M) as [TK C]. destruct (TAKE _ _ _ _ Q) as [Q'|(_ & A & ->)].
    + unfold cur in Q'. rewrite TK in Q'. destruct C as [(sn0 & st0 & M0 & _)|(M0 & MK & _)].
      * specialize (R1 t sn0 st0 tm tt M0 Q'). lia.
      * apply later_in in Q'. destruct Q' as [_ Q']. destruct (N.lt_ge_cases (w_now s) (tm + clear_interval)) as [Z|Z]; [|lia].
        exfalso. pose proof (ti_to s T (t_key t) tm Q' Z) as J. assert (marked (t_key t) (w_jobs s) = true); [|congruence].
        apply existsb_exists. exists (t_key t, tm). split; [exact J|]. cbn. apply Nat.eqb_refl.
    + destruct C as [(? & ? & C & _)|(C & _)]; congruence.
  - intros i t ts tt tm I Q. rewrite L in I. apply in_app_or in I. destruct (TAKE _ _ _ _ Q) as [Q'|(A & B & ->)].
    + destruct I as [I|I]; [|eauto]. destruct (X _ _ I) as [-> (-> & (t0 & sn0 & M0) & _)].
      assert (t0 = t) as ->.
      { destruct (wi_cur s W) as (_ & C & _). rewrite M0 in C. destruct (C t0 eq_refl) as (_ & tm0 & C0). apply later_in in Q'. destruct Q' as [Q' _]. eapply R3; eauto. }
      eapply R1; eauto.
    + destruct I as [I|I].
      * destruct (X _ _ I) as [_ (_ & (t0 & sn0 & M0) & _)]. congruence.
      * exfalso. pose proof (wi_inst s W _ _ I eq_refl). lia.
  - rewrite L in *. apply in_app_or in H0. apply in_app_or in H1. destruct H0 as [A|A]; destruct H1 as [B|B].
    + destruct (X _ _ A) as [_ (_ & _ & E1)]. destruct (X _ _ B) as [_ (_ & _ & E2)]. congruence.
    + destruct (X _ _ A) as [_ (-> & _)]. pose proof (wi_inst s W _ _ B eq_refl). lia.
    + destruct (X _ _ B) as [_ (-> & _)]. pose proof (wi_inst s W _ _ A eq_refl). lia.
    + eapply R3; eauto.
  - rewrite L in *. apply in_app_or in H0. apply in_app_or in H1. destruct H0 as [A|A]; destruct H1 as [B|B].
    + destruct (X _ _ A) as [-> _]. destruct (X _ _ B) as [-> _]. reflexivity.
    + destruct (X _ _ A) as [_ (-> & _)]. pose proof (wi_inst s W _ _ B eq_refl). lia.
    + destruct (X _ _ B) as [_ (-> & _)]. pose proof (wi_inst s W _ _ A eq_refl). lia.
    + eapply R3; eauto.
Qed.
Lemma rinv_run : forall ident tr s, run_from w_step (w_init ident) tr = Some s -> rinv s.
Proof. intros ident tr s H. exact (run_from_inv _ _ w_step rinv rinv_step tr _ s (rinv_init ident) H). Qed.

(** ** Nothing but a nack after the signal *)
Definition no_signal (l : wlog) : Prop := forall tm i, ~ In (tm, ASignal i) l.
Definition nosig (s s' : wstate) : Prop := exists new, w_log s' = new ++ w_log s /\ no_signal new.
Lemma nosig_refl : forall s s', w_log s' = w_log s -> nosig s s'.
Proof. intros s s' E. exists []. split; [exact E|]. intros tm i []. Qed.
Lemma nosig_one : forall s s' tm a, (forall i, a <> ASignal i) -> w_log s' = (tm, a) :: w_log s -> nosig s s'.
Proof. intros s s' tm a NA E. exists [(tm, a)]. split; [exact E|]. intros tm' i [Q|[]]. injection Q as _ ->. now destruct (NA i). Qed.
Lemma nosig_trans : forall s1 s2 s3, nosig s1 s2 -> nosig s2 s3 -> nosig s1 s3.
Proof.
  intros s1 s2 s3 (n1 & L1 & X1) (n2 & L2 & X2). exists (n2 ++ n1). split; [now rewrite L2, L1, app_assoc|].
  intros tm i I. apply in_app_or in I. destruct I as [I|I]; [exact (X2 _ _ I)|exact (X1 _ _ I)].
Qed.
Lemma nosig_exec : forall s t sn st r, nosig s (poll_exec s t sn st r).
Proof.
  intros s t sn st r. unfold poll_exec.
  assert (K : nosig s (start s t sn st)).
  { unfold start. destruct st; [now apply nosig_refl|]. eapply (nosig_one s _ _ (AStart (cur s))); [discriminate|reflexivity]. }
  destruct r as [o|]; [|exact K]. eapply nosig_trans; [exact K|]. unfold finish.
  assert (F : nosig (start s t sn st) (log (start s t sn st) (AFinish (cur (start s t sn st)) o))).
  { eapply (nosig_one _ _ _ (AFinish (cur (start s t sn st)) o)); [discriminate|reflexivity]. }
  destruct o; cbn zeta.
  - eapply nosig_trans; [exact F|]. now apply nosig_refl.
  - eapply nosig_trans; [exact F|]. eapply (nosig_trans _ (fst (mark (log (start s t sn st) (AFinish (cur (start s t sn st)) (OcErr fs msg))) (t_key t)))); [|now apply nosig_refl].
    unfold mark. destruct (marked _ _); cbn [fst]; [now apply nosig_refl|]. eapply (nosig_one _ _ _ (AMark (t_key t))); [discriminate|reflexivity].
  - eapply nosig_trans; [exact F|]. now apply nosig_refl.
Qed.
(** In a step that sees the signal, nothing is done after that. *)
Lemma step_signal : forall s e s', w_step s e = Some s' -> exists new, w_log s' = new ++ w_log s /\
  (no_signal new \/ exists tm i rest, new = (tm, ASignal i) :: rest /\ no_signal rest /\ ending (w_main s') = true).
Proof.
  intros s e s' H. destruct (step_acts s e s' H) as (new & L & X).
  assert (D : (forall sf r, e <> WPoll sf r) \/ exists sf r, e = WPoll sf r) by (destruct e; try (left; discriminate); right; eauto).
  destruct D as [D|(sf & r & ->)].
  { exists new. split; [exact L|]. left. intros tm i I. destruct (X _ _ I) as [_ (_ & _ & _ & sf & r & E)]. now destruct (D sf r). }
  clear new L X. unfold w_step in H. destruct (w_main s) as [|t|t|t a|t sn st|t y a d|t fs msg a d|t a|t u|e] eqn:M; try discriminate. injection H as <-. unfold poll_select. destruct sf.
  - destruct (signal_main s t sn st M) as (S1 & S2 & S3 & _ & [(S4 & _ & _ & S5)|(S4 & S5 & [S6|[S6 _]])]).
    + rewrite S4. cbn iota. rewrite S4. exists [(w_now s, ASignal (cur s))]. split; [exact S5|]. right. exists (w_now s), (cur s), []. repeat split. intros tm i [].
    + rewrite S6. destruct (nosig_exec (poll_signal s t sn st) t (w_ver s) st r) as (n2 & L2 & X2). exists n2. split; [now rewrite L2, S5|]. now left.
    + rewrite S6. exists []. split; [exact S5|]. left. intros tm i [].
  - destruct (nosig_exec s t sn st r) as (n1 & L1 & X1). destruct (w_main (poll_exec s t sn st r)) as [|t1|t1|t1 a|t1 sn1 st1|t1 y a d|t1 fs msg a d|t1 a|t1 u|e] eqn:M1.
    1-4, 6-10: exists n1; split; [exact L1|now left].
    destruct (signal_main _ t1 sn1 st1 M1) as (S1 & S2 & S3 & _ & [(S4 & _ & _ & S5)|(S4 & S5 & S6)]).
    + rewrite S4. eexists (_ :: n1). split; [rewrite S5, L1; reflexivity|]. right. eexists _, _, n1. split; [reflexivity|]. now split.
    + exists n1. split; [now rewrite S5|now left].
Qed.

Definition sinv (s : wstate) : Prop :=
  (forall tm i, In (tm, ASignal i) (w_log s) -> ending (w_main s) = true) /\
  (forall tm a tm' i, later (tm, a) (tm', ASignal i) (w_log s) -> (exists j, a = ANack j) \/ (exists k, a = ACommand k) \/ (exists k, a = AMark k)).
Lemma sinv_init : forall ident, sinv (w_init ident).
Proof. intros ident. split; cbn; [contradiction|]. intros tm a tm' i Q. apply later_in in Q. destruct Q as [[] _]. Qed.
Lemma sinv_step : forall s e s', sinv s -> w_step s e = Some s' -> sinv s'.
Proof.
  intros s e s' [S1 S2] H. destruct (step_signal s e s' H) as (new & L & D). destruct (step_acts s e s' H) as (new' & L' & X).
  assert (new' = new) as -> by (rewrite L in L'; apply app_inv_tail in L'; congruence).
  split.
  - intros tm i I. rewrite L in I. apply in_app_or in I. destruct I as [I|I].
    + destruct D as [D|(_ & _ & _ & _ & _ & D)]; [now destruct (D _ _ I)|exact D].
    + eapply ending_step; eauto.
  - intros tm a tm' i Q. rewrite L in Q.
    assert (Z : later (tm, a) (tm', ASignal i) (w_log s) \/ (In (tm, a) new /\ In (tm', ASignal i) (w_log s))).
    { destruct D as [D|(tm0 & i0 & rest & -> & D & _)].
      - clear - Q D. induction new as [|x new IH]; [now left|]. cbn in Q. apply later_cons in Q. destruct Q as [[-> I]|Q].
        + apply in_app_or in I. destruct I as [I|I]; [exfalso; eapply D; right; exact I|right; split; [now left|exact I]].
        + destruct IH as [A|[A B]]; auto; [intros tm1 i1 J; eapply D; right; exact J|]. right. split; [now right|exact B].
      - cbn in Q. apply later_cons in Q. destruct Q as [[-> I]|Q].
        + apply in_app_or in I. destruct I as [I|I]; [exfalso; eapply D; exact I|right; split; [now left|exact I]].
        + clear - Q D. assert (later (tm, a) (tm', ASignal i) (w_log s) \/ (In (tm, a) rest /\ In (tm', ASignal i) (w_log s))) as [A|[A B]]; [|now left|right; split; [now right|exact B]].
          induction rest as [|x rest IH]; [now left|]. cbn in Q. apply later_cons in Q. destruct Q as [[-> I]|Q].
          * apply in_app_or in I. destruct I as [I|I]; [exfalso; eapply D; right; exact I|right; split; [now left|exact I]].
          * destruct IH as [A|[A B]]; auto; [intros tm1 i1 J; eapply D; right; exact J|]. right. split; [now right|exact B]. }
    destruct Z as [Z|[Z Z']]; [eauto|]. specialize (S1 _ _ Z'). destruct (X _ _ Z) as [_ EX].
    destruct a; cbn in EX; eauto; exfalso.
    + destruct EX as (_ & EX & _). rewrite EX in S1. discriminate.
    + destruct EX as (_ & t & EX & _). rewrite EX in S1. discriminate.
    + destruct EX as (_ & (t & sn & EX) & _). rewrite EX in S1. discriminate.
    + destruct EX as (_ & t & sn & st & sf & EX & _). rewrite EX in S1. discriminate.
    + destruct EX as (_ & (t & sn & st & EX & _) & _). rewrite EX in S1. discriminate.
    + destruct EX as (_ & t & y & d & EX). rewrite EX in S1. discriminate.
    + destruct EX as (_ & t & a & EX & _). rewrite EX in S1. discriminate.
    + destruct EX as (_ & t & fs & a & ab & EX & _). rewrite EX in S1. discriminate.
    + destruct EX as (_ & t & fs & msg & a & er & EX). rewrite EX in S1. discriminate.
Qed.
Lemma sinv_run : forall ident tr s, run_from w_step (w_init ident) tr = Some s -> sinv s.
Proof. intros ident tr s H. exact (run_from_inv _ _ w_step sinv sinv_step tr _ s (sinv_init ident) H). Qed.

(** ** What the waiter has seen *)
Definition vinv (s : wstate) : Prop :=
  forall t sn st, w_main s = WpRun t sn st -> sn <= w_ver s /\ (sn = w_ver s -> w_ver s = 0 \/ w_val s <> abort_all).
Lemma ver_step : forall s e s', w_step s e = Some s' -> (w_ver s' = w_ver s /\ w_val s' = w_val s /\ (e = WSend -> False)) \/ (e = WSend /\ w_ver s' = S (w_ver s) /\ w_main s' = w_main s /\ w_lis s = LisSend (w_val s')).
Proof.
  intros s e s' H.
  destruct e as [d| |k| | |t| | | |sf r|sl|sl ok|ok|ok| |]; unfold w_step in H.
  - left. injection H as <-. repeat split. discriminate.
  - left. destruct (w_main s) eqn:M; try discriminate; destruct (w_reap s <=? w_now s)%N eqn:E; try discriminate; injection H as <-; repeat split; discriminate.
  - left. assert (K : (let '(s1, fresh) := mark (log s (ACommand k)) k in
          Some (if fresh then mkW (w_now s1) (w_jobs s1) (w_reap s1) (LisSend k) (w_ver s1) (w_val s1) (w_flag s1) (w_main s1) (w_taken s1) (w_log s1) else s1)) = Some s').
    { destruct (w_main s); try discriminate; destruct (w_lis s); try discriminate; exact H. }
    clear H. destruct (mark_state (log s (ACommand k)) k) as (js & _ & _ & _ & _ & _ & A & B & _). destruct (mark (log s (ACommand k)) k) as [s1 fresh]. cbn [fst] in *. cbn [log w_ver w_val] in A, B.
    destruct fresh; injection K as <-; cbn; repeat split; auto; discriminate.
  - right. destruct (w_main s) eqn:M; try discriminate; destruct (w_lis s) eqn:LI; try discriminate; injection H as <-; cbn; rewrite ?M; auto.
  - left. destruct (w_main s) eqn:M; try discriminate; destruct (w_lis s) eqn:LI; try discriminate; injection H as <-; repeat split; discriminate.
  - left. destruct (w_main s) eqn:M; try discriminate. injection H as <-. repeat split; discriminate.
  - left. destruct (w_main s) eqn:M; try discriminate. injection H as <-. repeat split; discriminate.
  - left. destruct (w_main s) eqn:M; try discriminate. injection H as <-. repeat split; discriminate.
  - left. destruct (w_main s) eqn:M; try discriminate. injection H as <-. destruct (marked _ _); repeat split; discriminate.
  - left. destruct (w_main s) as [|t1|t1|t1 a|t1 sn1 st1|t1 y a d|t1 fs msg a d|t1 a|t1 u|e] eqn:M; try discriminate. injection H as <-. unfold poll_select. destruct sf.
    + destruct (signal_main s t1 sn1 st1 M) as (S1 & S2 & S3 & _). destruct (w_main (poll_signal s t1 sn1 st1)) as [|t2|t2|t2 a|t2 sn2 st2|t2 y a d|t2 fs msg a d|t2 a|t2 u|e] eqn:M1; try (repeat split; auto; discriminate).
      destruct (exec_main _ t2 sn2 st2 r M1) as (X1 & X2 & X3 & _). rewrite X2, X3. repeat split; auto; discriminate.
    + destruct (exec_main s t1 sn1 st1 r M) as (X1 & X2 & X3 & _). destruct (w_main (poll_exec s t1 sn1 st1 r)) as [|t2|t2|t2 a|t2 sn2 st2|t2 y a d|t2 fs msg a d|t2 a|t2 u|e] eqn:M1; try (repeat split; auto; discriminate).
      destruct (signal_main _ t2 sn2 st2 M1) as (S1 & S2 & S3 & _). rewrite S2, S3. repeat split; auto; discriminate.
  - left. destruct sl; destruct (w_main s) as [|t1|t1|t1 a|t1 sn1 st1|t1 y a d|t1 fs msg a d|t1 a|t1 u|e] eqn:M; try discriminate.
    1-4: destruct a; try discriminate; injection H as <-; repeat split; discriminate.
    + destruct d as [|p| |]; try discriminate. destruct p; try discriminate. injection H as <-; repeat split; discriminate.
    + destruct d as [|ab er| |]; try discriminate. destruct er; try discriminate. injection H as <-; repeat split; discriminate.
    + destruct d as [|ab er| |]; try discriminate. destruct ab; try discriminate. injection H as <-; repeat split; discriminate.
  - left. destruct sl; destruct (w_main s) as [|t1|t1|t1 a|t1 sn1 st1|t1 y a d|t1 fs msg a d|t1 a|t1 u|e] eqn:M; try discriminate.
    + destruct ok; [destruct a; try discriminate|]; injection H as <-; repeat split; discriminate.
    + destruct a; try discriminate; (destruct ok; [try discriminate|]); injection H as <-; repeat split; discriminate.
    + destruct a; try discriminate; (destruct ok; [try discriminate|]); injection H as <-; repeat split; discriminate.
    + destruct ok; [destruct a; try discriminate|]; injection H as <-; repeat split; discriminate.
    + destruct d as [|p| |]; try discriminate. destruct ok; [destruct p; try discriminate|]; injection H as <-; repeat split; discriminate.
    + destruct d as [|ab er| |]; try discriminate. destruct er; try discriminate; (destruct ok; [try discriminate|]); injection H as <-; repeat split; discriminate.
    + destruct d as [|ab er| |]; try discriminate. destruct ab; try discriminate; (destruct ok; [try discriminate|]); injection H as <-; repeat split; discriminate.
  - left. destruct (w_main s) as [|t1|t1|t1 a|t1 sn1 st1|t1 y a d|t1 fs msg a d|t1 a|t1 u|e] eqn:M; try discriminate; destruct d; try discriminate; injection H as <-; destruct ok; repeat split; discriminate.
  - left. destruct (w_main s) as [|t1|t1|t1 a|t1 sn1 st1|t1 y a d|t1 fs msg a d|t1 a|t1 u|e] eqn:M; try discriminate; destruct d; try discriminate; injection H as <-; destruct ok; repeat split; discriminate.
  - left. destruct (w_main s) as [|t1|t1|t1 a|t1 sn1 st1|t1 y a d|t1 fs msg a d|t1 a|t1 u|e] eqn:M; try discriminate; destruct a; try discriminate; destruct d; try discriminate; injection H as <-; repeat split; discriminate.
  - left. destruct (w_main s) as [|t1|t1|t1 a|t1 sn1 st1|t1 y a d|t1 fs msg a d|t1 a|t1 u|e] eqn:M; try discriminate. destruct (u <=? w_now s)%N; try discriminate. injection H as <-. repeat split; discriminate.
Qed.
Lemma vinv_init : forall ident, vinv (w_init ident).
Proof. intros ident t sn st M. discriminate. Qed.
Lemma vinv_step : forall s e s', vinv s -> w_step s e = Some s' -> vinv s'.
Proof.
  intros s e s' V H t sn st M. destruct (run_phase s e s' t sn st H M) as (_ & [(sn0 & st0 & M0 & D)|(M0 & _ & -> & -> & ->)]).
  - specialize (V t sn0 st0 M0). destruct (ver_step s e s' H) as [(V1 & V2 & V3)|(-> & V1 & V2 & V3)].
    + rewrite V1, V2. destruct D as [(_ & -> & ->)|(sf & -> & -> & D)]; [exact V|]. split; [lia|]. intros _. destruct D as [D|D]; [|now right]. subst sn0. now apply V.
    + destruct D as [(_ & -> & ->)|(sf & Q & _)]; [|discriminate]. rewrite V1. split; [lia|]. lia.
  - destruct (ver_step s WCheck s' H) as [(V1 & V2 & V3)|(Q & _)]; [|discriminate]. split; [lia|]. intros ->. now left.
Qed.
Lemma vinv_run : forall ident tr s, run_from w_step (w_init ident) tr = Some s -> vinv s.
Proof. intros ident tr s H. exact (run_from_inv _ _ w_step vinv vinv_step tr _ s (vinv_init ident) H). Qed.

(** ** Why a job is marked, and what is published *)
Record cinv (s : wstate) : Prop := mkCI {
  ci_mark : forall tm k, In (tm, AMark k) (w_log s) -> In (tm, ACommand k) (w_log s) \/
     exists j t fs msg tt, In (tm, AFinish j (OcErr fs msg)) (w_log s) /\ In (tt, ATake j t) (w_log s) /\ t_key t = k;
  ci_skip : forall tm i, In (tm, ASkip i) (w_log s) -> exists t tt k tm', In (tt, ATake i t) (w_log s) /\ k = t_key t /\ later (tm, ASkip i) (tm', AMark k) (w_log s);
  ci_ok : forall tm i k y, In (tm, AOk i k y) (w_log s) -> (exists t tt, In (tt, ATake i t) (w_log s) /\ k = t_key t) /\ outcome_of i (w_log s) = Some (OcOk y);
  ci_err : forall tm i k msg, In (tm, AErr i k msg) (w_log s) -> (exists t tt, In (tt, ATake i t) (w_log s) /\ k = t_key t) /\ outcome_of i (w_log s) = Some (OcErr FsTerminate msg)
}.
Lemma outcome_in : forall i l o, outcome_of i l = Some o -> exists tm, In (tm, AFinish i o) l.
Proof.
  intros i l o. induction l as [|[tm a] l IH]; cbn; [discriminate|]. intros H.
  destruct a; try (destruct (IH H) as (u & I); exists u; now right).
  destruct (Nat.eqb_spec i0 i) as [->|N0]; [injection H as ->; exists tm; now left|]. destruct (IH H) as (u & I). exists u. now right.
Qed.
Lemma outcome_some_in : forall i l tm o, In (tm, AFinish i o) l -> exists o', outcome_of i l = Some o'.
Proof.
  intros i l tm o. induction l as [|[u a] l IH]; cbn; [contradiction|]. intros [Q|I].
  - injection Q as _ ->. rewrite Nat.eqb_refl. eauto.
  - destruct a; auto. destruct (Nat.eqb i0 i); eauto.
Qed.
(** An outcome does not change. *)
Lemma outcome_keep : forall s e s' i o, winv s -> w_step s e = Some s' -> outcome_of i (w_log s) = Some o -> outcome_of i (w_log s') = Some o.
Proof.
  intros s e s' i o W H O. destruct (step_acts s e s' H) as (new & L & X). rewrite L, outcome_app.
  destruct (outcome_of i new) as [o'|] eqn:Q; [|exact O]. exfalso. destruct (outcome_in _ _ _ Q) as (tm & I). destruct (X _ _ I) as [_ (-> & t & sn & st & sf & M & _)].
  destruct (wi_cur s W) as (_ & _ & C). rewrite M in C. cbn [over phase_outcome] in C. destruct C as [C _]. unfold cur in O. congruence.
Qed.
Lemma cinv_init : forall ident, cinv (w_init ident).
Proof. intros ident. constructor; cbn; contradiction. Qed.
Lemma finish_in : forall s t sn st sf fs msg, w_main s = WpRun t sn st -> In (w_now s, AFinish (cur s) (OcErr fs msg)) (w_log (poll_select s t sn st sf (Some (OcErr fs msg)))) \/ (exists x, w_log (poll_select s t sn st sf (Some (OcErr fs msg))) = x ++ w_log s /\ forall tm k, ~ In (tm, AMark k) x).
Proof.
  intros s t sn st sf fs msg M.
  assert (F : forall u t1 sn1 st1, w_now u = w_now s -> w_taken u = w_taken s -> w_main u = WpRun t1 sn1 st1 -> In (w_now s, AFinish (cur s) (OcErr fs msg)) (w_log (poll_exec u t1 sn1 st1 (Some (OcErr fs msg))))).
  { intros u t1 sn1 st1 A B C. unfold poll_exec, finish. cbn zeta. cbn [set_main w_log]. destruct (start_same u t1 sn1 st1) as (S1 & S2 & _).
    destruct (mark_new (log (start u t1 sn1 st1) (AFinish (cur (start u t1 sn1 st1)) (OcErr fs msg))) (t_key t1)) as (new & L & _). rewrite L. apply in_or_app. right. left. unfold cur. rewrite S1, S2, A, B. reflexivity. }
  unfold poll_select. destruct sf.
  - destruct (signal_main s t sn st M) as (S1 & S2 & S3 & _ & [(S4 & _ & _ & S5)|(S4 & S5 & [S6|[S6 _]])]).
    + rewrite S4. right. exists [(w_now s, ASignal (cur s))]. split; [exact S5|]. intros tm k [Q|[]]. discriminate.
    + rewrite S6. left. apply F; auto. apply (k_now _ _ (kept_signal s t sn st)).
    + rewrite S6. right. exists []. split; [exact S5|]. intros tm k [].
  - left. destruct (exec_main s t sn st (Some (OcErr fs msg)) M) as (_ & _ & _ & _ & Z). rewrite Z. cbn [finished]. now apply (F s t sn st).
Qed.

Lemma take_cur : forall s t, winv s -> phase_task (w_main s) = Some t -> exists tt, In (tt, ATake (cur s) t) (w_log s).
Proof. intros s t W P. destruct (wi_cur s W) as (_ & C & _). now destruct (C t P) as (_ & tt & I); exists tt. Qed.
Lemma cinv_step : forall s e s', winv s /\ tinv s /\ cinv s -> w_step s e = Some s' -> winv s' /\ tinv s' /\ cinv s'.
Proof.
  intros s e s' (W & T & [C1 C2 C3 C4]) H. split; [exact (winv_step s e s' W H)|]. split; [exact (tinv_step s e s' T H)|].
  destruct (step_acts s e s' H) as (new & L & X).
  assert (OLD : forall p, In p (w_log s) -> In p (w_log s')) by (intros p I; rewrite L; apply in_or_app; now right).
  constructor.
  - intros tm k I. assert (I' := I). rewrite L in I. apply in_app_or in I. destruct I as [I|I].
    + destruct (X _ _ I) as [-> (_ & [->|(t & sn & st & sf & fs & msg & M & -> & ->)])].
      * left. clear - H. unfold w_step in H.
        assert (K : (let '(s1, fresh) := mark (log s (ACommand k)) k in
          Some (if fresh then mkW (w_now s1) (w_jobs s1) (w_reap s1) (LisSend k) (w_ver s1) (w_val s1) (w_flag s1) (w_main s1) (w_taken s1) (w_log s1) else s1)) = Some s').
        { destruct (w_main s); try discriminate; destruct (w_lis s); try discriminate; exact H. }
        destruct (mark_new (log s (ACommand k)) k) as (new & L & _). destruct (mark (log s (ACommand k)) k) as [s1 fresh]. cbn [fst] in L.
        assert (w_log s' = w_log s1) as -> by (destruct fresh; injection K as <-; reflexivity). rewrite L. apply in_or_app. right. now left.
      * right. destruct (take_cur s t W) as (tt & TK); [now rewrite M|]. unfold w_step in H. rewrite M in H. injection H as <-.
        destruct (finish_in s t sn st sf fs msg M) as [F|(x & F & NX)]; [do 5 eexists; repeat split; eauto|].
        exfalso. rewrite F in L. apply app_inv_tail in L. subst x. exact (NX _ _ I).
    + destruct (C1 tm k I) as [Q|(j & t & fs & msg & tt & A & B & C)]; [left; auto|right; do 5 eexists; repeat split; eauto].
  - intros tm i I. rewrite L in I. apply in_app_or in I. destruct I as [I|I].
    + destruct (X _ _ I) as [-> (-> & t & M & MK)]. destruct (take_cur s t W) as (tt & TK); [now rewrite M|].
      unfold marked in MK. apply existsb_exists in MK. destruct MK as ([k tm'] & J & E). cbn in E. apply Nat.eqb_eq in E. subst k.
      destruct (ti_from s T _ _ J) as [MI _]. exists t, tt, (t_key t), tm'. repeat split; auto. rewrite L. now apply later_new.
    + destruct (C2 tm i I) as (t & tt & k & tm' & A & B & C). exists t, tt, k, tm'. repeat split; auto. rewrite L. now apply later_lift.
  - intros tm i k y I. rewrite L in I. apply in_app_or in I. destruct I as [I|I].
    + destruct (X _ _ I) as [-> (-> & t & a & M & ->)]. destruct (take_cur s t W) as (tt & TK); [now rewrite M|]. split; [exists t, tt; auto|].
      eapply outcome_keep; eauto. destruct (wi_cur s W) as (_ & _ & C). rewrite M in C. apply C.
    + destruct (C3 tm i k y I) as [(t & tt & A & B) C]. split; [exists t, tt; auto|]. eapply outcome_keep; eauto.
  - intros tm i k msg I. rewrite L in I. apply in_app_or in I. destruct I as [I|I].
    + destruct (X _ _ I) as [-> (-> & t & fs & a & ab & M & ->)]. destruct (take_cur s t W) as (tt & TK); [now rewrite M|]. split; [exists t, tt; auto|].
      eapply outcome_keep; eauto. destruct (wi_cur s W) as (F & _ & C). rewrite M in C, F. destruct fs; [apply C|discriminate F].
    + destruct (C4 tm i k msg I) as [(t & tt & A & B) C]. split; [exists t, tt; auto|]. eapply outcome_keep; eauto.
Qed.
Lemma cinv_run : forall ident tr s, run_from w_step (w_init ident) tr = Some s -> cinv s.
Proof.
  intros ident tr s H. apply (run_from_inv _ _ w_step (fun s => winv s /\ tinv s /\ cinv s) cinv_step tr (w_init ident) s); auto using winv_init, tinv_init, cinv_init.
Qed.

(** ** Executions *)
Definition starts (i : nat) (l : wlog) : nat := cnt (fun p => match snd p with AStart j => Nat.eqb j i | _ => false end) l.
Definition finishes (i : nat) (l : wlog) : nat := cnt (fun p => match snd p with AFinish j _ => Nat.eqb j i | _ => false end) l.
Lemma starts_app : forall i l1 l2, starts i (l1 ++ l2) = starts i l1 + starts i l2.
Proof. intros. apply cnt_app. Qed.
Lemma finishes_app : forall i l1 l2, finishes i (l1 ++ l2) = finishes i l1 + finishes i l2.
Proof. intros. apply cnt_app. Qed.
Lemma starts_zero : forall i l, (forall tm, ~ In (tm, AStart i) l) -> starts i l = 0.
Proof. intros i l NI. apply cnt_zero. intros [tm a] I. cbn. destruct a; auto. destruct (Nat.eqb_spec i0 i) as [->|]; [now destruct (NI tm)|reflexivity]. Qed.
Lemma finishes_zero : forall i l, (forall tm o, ~ In (tm, AFinish i o) l) -> finishes i l = 0.
Proof. intros i l NI. apply cnt_zero. intros [tm a] I. cbn. destruct a; auto. destruct (Nat.eqb_spec i0 i) as [->|]; [now destruct (NI tm o)|reflexivity]. Qed.

Lemma mark_exec : forall s k i, starts i (w_log (fst (mark s k))) = starts i (w_log s) /\ finishes i (w_log (fst (mark s k))) = finishes i (w_log s).
Proof. intros s k i. unfold mark. destruct (marked k (w_jobs s)); cbn [fst log w_log]; [auto|]. unfold starts, finishes. rewrite !cnt_cons. cbn. auto. Qed.
Lemma exec_counts : forall s t sn st r i, w_main s = WpRun t sn st ->
  starts i (w_log (poll_exec s t sn st r)) = b2n (Nat.eqb (cur s) i && negb st) + starts i (w_log s) /\
  finishes i (w_log (poll_exec s t sn st r)) = b2n (Nat.eqb (cur s) i && match r with Some _ => true | None => false end) + finishes i (w_log s).
Proof.
  intros s t sn st r i M. unfold poll_exec.
  assert (S : starts i (w_log (start s t sn st)) = b2n (Nat.eqb (cur s) i && negb st) + starts i (w_log s) /\ finishes i (w_log (start s t sn st)) = finishes i (w_log s) /\ cur (start s t sn st) = cur s).
  { unfold start. destruct st; [rewrite andb_false_r; auto|]. rewrite andb_true_r. cbn [log set_main w_log w_taken cur]. unfold starts, finishes. rewrite !cnt_cons. cbn. auto. }
  destruct S as (S1 & S2 & S3). destruct r as [o|]; [|rewrite andb_false_r; auto]. rewrite andb_true_r. unfold finish.
  assert (F : starts i (w_log (log (start s t sn st) (AFinish (cur (start s t sn st)) o))) = starts i (w_log (start s t sn st)) /\ finishes i (w_log (log (start s t sn st) (AFinish (cur (start s t sn st)) o))) = b2n (Nat.eqb (cur s) i) + finishes i (w_log (start s t sn st))).
  { rewrite S3. cbn [log w_log]. unfold starts, finishes. rewrite !cnt_cons. cbn. auto. }
  destruct F as [F1 F2]. destruct o; cbn zeta.
  - cbn [set_main w_log]. rewrite F1, F2, S2. auto.
  - cbn [set_main w_log]. destruct (mark_exec (log (start s t sn st) (AFinish (cur (start s t sn st)) (OcErr fs msg))) (t_key t) i) as [A B]. rewrite A, B, F1, F2, S2. auto.
  - cbn [set_main w_log]. rewrite F1, F2, S2. auto.
Qed.
Lemma signal_counts : forall s t sn st i, starts i (w_log (poll_signal s t sn st)) = starts i (w_log s) /\ finishes i (w_log (poll_signal s t sn st)) = finishes i (w_log s).
Proof.
  intros s t sn st i. unfold poll_signal. destruct (_ && _); [|destruct (w_lis s); auto]. cbn [log w_log]. unfold starts, finishes. rewrite !cnt_cons. cbn. auto.
Qed.

(** Whether the current task has been started and whether it has finished. *)
Definition progress (p : wphase) (a b : nat) : Prop :=
  match p with
  | WpFlag _ | WpCheck _ | WpSkip _ _ => a = 0 /\ b = 0
  | WpRun _ _ st => a = b2n st /\ b = 0
  | WpOk _ _ _ _ | WpFail _ _ _ _ _ => a = 1 /\ b = 1
  | WpTerm _ _ | WpSleep _ _ => a <= 1 /\ b = 0
  | WpWait | WpStop _ => b <= a /\ a <= 1
  end.
Definition xinv (s : wstate) : Prop := winv s /\ (forall i, finishes i (w_log s) <= starts i (w_log s) <= 1) /\ progress (w_main s) (starts (cur s) (w_log s)) (finishes (cur s) (w_log s)).
Lemma xinv_init : forall ident, xinv (w_init ident).
Proof. intros ident. split; [apply winv_init|]. cbn. split; [intros i|]; cbv; lia. Qed.
Lemma xinv_step : forall s e s', xinv s -> w_step s e = Some s' -> xinv s'.
Proof.
  intros s e s' (W & X1 & X2) H. split; [exact (winv_step s e s' W H)|]. destruct (step_acts s e s' H) as (new & L & X).
  assert (D : (forall sf r, e <> WPoll sf r) \/ exists sf r, e = WPoll sf r) by (destruct e; try (left; discriminate); right; eauto).
  destruct D as [D|(sf & r & ->)].
  - assert (Z : forall i, starts i (w_log s') = starts i (w_log s) /\ finishes i (w_log s') = finishes i (w_log s)).
    { intros i. rewrite L, starts_app, finishes_app, starts_zero, finishes_zero; [auto| |].
      - intros tm o I. destruct (X _ _ I) as [_ (_ & t & sn & st & sf & _ & Q)]. now destruct (D sf (Some o)).
      - intros tm I. destruct (X _ _ I) as [_ (_ & _ & sf & r & Q)]. now destruct (D sf r). }
    split; [intros i; destruct (Z i) as [-> ->]; apply X1|].
    destruct (Z (cur s')) as [-> ->]. specialize (X1 (cur s')).
    assert (NEW : w_main s = WpWait -> w_taken s' = S (w_taken s) -> starts (cur s') (w_log s) = 0 /\ finishes (cur s') (w_log s) = 0).
    { intros _ TT. unfold cur. rewrite TT. cbn [pred]. split; [apply starts_zero|apply finishes_zero].
      - intros tm I. pose proof (wi_inst s W _ _ I eq_refl). lia.
      - intros tm o I. pose proof (wi_inst s W _ _ I eq_refl). lia. }
    assert (SAME : w_taken s' = w_taken s -> cur s' = cur s) by (unfold cur; congruence).
    clear X Z L.
    destruct e as [d| |k| | |t| | | |sf r|sl|sl ok|ok|ok| |]; unfold w_step in H; try (now destruct (D sf r)); clear D.
    + injection H as <-. exact X2.
    + destruct (w_main s) eqn:M; try discriminate; destruct (w_reap s <=? w_now s)%N eqn:E; try discriminate; injection H as <-; cbn [w_main]; rewrite ?M; exact X2.
    + assert (K : (let '(s1, fresh) := mark (log s (ACommand k)) k in
          Some (if fresh then mkW (w_now s1) (w_jobs s1) (w_reap s1) (LisSend k) (w_ver s1) (w_val s1) (w_flag s1) (w_main s1) (w_taken s1) (w_log s1) else s1)) = Some s').
      { destruct (w_main s); try discriminate; destruct (w_lis s); try discriminate; exact H. }
      clear H. destruct (mark_state (log s (ACommand k)) k) as (js & _ & _ & _ & _ & _ & _ & _ & _ & A & B). destruct (mark (log s (ACommand k)) k) as [s1 fresh]. cbn [fst] in *. cbn [log w_main w_taken] in A, B.
      assert (w_main s' = w_main s /\ w_taken s' = w_taken s) as [Q1 Q2] by (destruct fresh; injection K as <-; auto). rewrite Q1, (SAME Q2). exact X2.
    + destruct (w_main s) eqn:M; try discriminate; destruct (w_lis s) eqn:LI; try discriminate; injection H as <-; cbn [w_main]; rewrite ?M; exact X2.
    + destruct (w_main s) eqn:M; try discriminate; destruct (w_lis s) eqn:LI; try discriminate; injection H as <-; cbn [w_main]; rewrite ?M; exact X2.
    + destruct (w_main s) eqn:M; try discriminate. injection H as <-. cbn [w_main progress]. now apply NEW.
    + destruct (w_main s) eqn:M; try discriminate. injection H as <-. exact X2.
    + destruct (w_main s) eqn:M; try discriminate. injection H as <-. destruct (w_flag s); [split; apply X1|exact X2].
    + destruct (w_main s) eqn:M; try discriminate. injection H as <-. destruct (marked _ _); exact X2.
    + destruct sl; destruct (w_main s) as [|t1|t1|t1 a|t1 sn1 st1|t1 y a d|t1 fs msg a d|t1 a|t1 u|e] eqn:M; try discriminate.
      1-4: destruct a; try discriminate; injection H as <-; exact X2.
      * destruct d as [|p| |]; try discriminate. destruct p; try discriminate. injection H as <-; exact X2.
      * destruct d as [|ab er| |]; try discriminate. destruct er; try discriminate. injection H as <-; exact X2.
      * destruct d as [|ab er| |]; try discriminate. destruct ab; try discriminate. injection H as <-; exact X2.
    + destruct sl; destruct (w_main s) as [|t1|t1|t1 a|t1 sn1 st1|t1 y a d|t1 fs msg a d|t1 a|t1 u|e] eqn:M; try discriminate.
      * destruct ok; [destruct a; try discriminate|]; injection H as <-; cbn [set_main stop_err w_main progress]; split; apply X1.
      * destruct a; try discriminate; (destruct ok; [try discriminate|]); injection H as <-; (exact X2 || (split; apply X1)).
      * destruct a; try discriminate; (destruct ok; [try discriminate|]); injection H as <-; (exact X2 || (split; apply X1)).
      * destruct ok; [destruct a; try discriminate|]; injection H as <-; exact X2.
      * destruct d as [|p| |]; try discriminate. destruct ok; [destruct p; try discriminate|]; injection H as <-; (exact X2 || (split; apply X1)).
      * destruct d as [|ab er| |]; try discriminate. destruct er; try discriminate; (destruct ok; [try discriminate|]); injection H as <-; (exact X2 || (split; apply X1)).
      * destruct d as [|ab er| |]; try discriminate. destruct ab; try discriminate; (destruct ok; [try discriminate|]); injection H as <-; (exact X2 || (split; apply X1)).
    + destruct (w_main s) as [|t1|t1|t1 a|t1 sn1 st1|t1 y a d|t1 fs msg a d|t1 a|t1 u|e] eqn:M; try discriminate; destruct d; try discriminate; injection H as <-; destruct ok; (exact X2 || (split; apply X1)).
    + destruct (w_main s) as [|t1|t1|t1 a|t1 sn1 st1|t1 y a d|t1 fs msg a d|t1 a|t1 u|e] eqn:M; try discriminate; destruct d; try discriminate; injection H as <-; destruct ok; (exact X2 || (split; apply X1)).
    + destruct (w_main s) as [|t1|t1|t1 a|t1 sn1 st1|t1 y a d|t1 fs msg a d|t1 a|t1 u|e] eqn:M; try discriminate; destruct a; try discriminate; destruct d; try discriminate; injection H as <-; split; apply X1.
    + destruct (w_main s) as [|t1|t1|t1 a|t1 sn1 st1|t1 y a d|t1 fs msg a d|t1 a|t1 u|e] eqn:M; try discriminate. destruct (u <=? w_now s)%N; try discriminate. injection H as <-. split; apply X1.
  - clear X L new. unfold w_step in H. destruct (w_main s) as [|t|t|t a|t sn st|t y a d|t fs msg a d|t a|t u|e] eqn:M; try discriminate. injection H as <-.
    cbn [progress] in X2. destruct X2 as [X2 X3].
    assert (EX : forall u sn1, w_main u = WpRun t sn1 st -> w_taken u = w_taken s -> (forall i, starts i (w_log u) = starts i (w_log s) /\ finishes i (w_log u) = finishes i (w_log s)) ->
       (forall i, finishes i (w_log (poll_exec u t sn1 st r)) <= starts i (w_log (poll_exec u t sn1 st r)) <= 1) /\
       (forall p, progress p 1 (match r with Some _ => 1 | None => 0 end) -> progress p (starts (cur s) (w_log (poll_exec u t sn1 st r))) (finishes (cur s) (w_log (poll_exec u t sn1 st r))))).
    { intros u sn1 MU TU Z. assert (CU : cur u = cur s) by (unfold cur; congruence). split.
      - intros i. destruct (exec_counts u t sn1 st r i MU) as [-> ->]. destruct (Z i) as [-> ->]. rewrite CU. specialize (X1 i).
        destruct (Nat.eqb_spec (cur s) i) as [<-|]; cbn [andb b2n]; [|lia]. rewrite X2, X3. destruct st, r; cbn; lia.
      - intros p P. destruct (exec_counts u t sn1 st r (cur s) MU) as [-> ->]. destruct (Z (cur s)) as [-> ->]. rewrite CU, Nat.eqb_refl, X2, X3. destruct st, r; exact P. }
    unfold poll_select. destruct sf.
    + destruct (signal_main s t sn st M) as (S1 & S2 & S3 & _ & [(S4 & _ & _ & S5)|(S4 & S5 & [S6|[S6 _]])]).
      * rewrite S4. cbn iota. rewrite S4. assert (CS : cur (poll_signal s t sn st) = cur s) by (unfold cur; congruence). rewrite CS. split; [intros i; destruct (signal_counts s t sn st i) as [-> ->]; apply X1|].
        destruct (signal_counts s t sn st (cur s)) as [-> ->]. split; [apply X1|exact X3].
      * rewrite S6. destruct (EX _ _ S6 S1) as [A B]; [intros i; apply signal_counts|]. split; [exact A|].
        destruct (exec_main _ t (w_ver s) st r S6) as (Y1 & _ & _ & _ & Y2). assert (CS : cur (poll_exec (poll_signal s t sn st) t (w_ver s) st r) = cur s) by (unfold cur; congruence). rewrite CS, Y2.
        apply B. destruct r as [o|]; [destruct o; cbn; lia|cbn; auto].
      * rewrite S6. cbn iota. rewrite S6. assert (CS : cur (poll_signal s t sn st) = cur s) by (unfold cur; congruence). rewrite CS. split; [intros i; destruct (signal_counts s t sn st i) as [-> ->]; apply X1|].
        destruct (signal_counts s t sn st (cur s)) as [-> ->]. split; apply X1.
    + destruct (EX s sn M eq_refl) as [A B]; [auto|]. destruct (exec_main s t sn st r M) as (Y1 & _ & _ & _ & Y2). assert (CS : cur (poll_exec s t sn st r) = cur s) by (unfold cur; congruence).
      rewrite Y2. destruct r as [o|].
      * assert (Q : progress (finished t o) 1 1) by (destruct o; cbn; lia). specialize (B _ Q). destruct (finished t o) eqn:FO; try (rewrite CS, Y2; split; [exact A|exact B]). destruct o; discriminate.
      * destruct (signal_main _ t sn true Y2) as (S1 & S2 & S3 & _ & [(S4 & _ & _ & S5)|(S4 & S5 & S6)]).
        -- assert (CT : cur (poll_signal (poll_exec s t sn st None) t sn true) = cur s) by (unfold cur in *; congruence). rewrite S4, CT. split; [intros i; destruct (signal_counts (poll_exec s t sn st None) t sn true i) as [-> ->]; apply A|].
           destruct (signal_counts (poll_exec s t sn st None) t sn true (cur s)) as [-> ->]. apply B. cbn. lia.
        -- assert (CT : cur (poll_signal (poll_exec s t sn st None) t sn true) = cur s) by (unfold cur in *; congruence). rewrite CT. split; [intros i; destruct (signal_counts (poll_exec s t sn st None) t sn true i) as [-> ->]; apply A|].
           destruct (signal_counts (poll_exec s t sn st None) t sn true (cur s)) as [-> ->]. apply B. destruct S6 as [->|[-> _]]; cbn; lia.
Qed.
Lemma xinv_run : forall ident tr s, run_from w_step (w_init ident) tr = Some s -> xinv s.
Proof. intros ident tr s H. exact (run_from_inv _ _ w_step xinv xinv_step tr _ s (xinv_init ident) H). Qed.

(** ** Commands *)
Ltac brk H := repeat (match type of H with context [match ?x with _ => _ end] => destruct x eqn:?; try discriminate H end).
Lemma lis_step : forall s e s', w_step s e = Some s' -> w_lis s' = w_lis s \/ w_lis s' = LisIdle \/ w_lis s' = LisGone \/ exists k, e = WCommand k /\ w_lis s' = LisSend k.
Proof.
  intros s e s' H. destruct e as [d| |k| | |t| | | |sf r|sl|sl ok|ok|ok| |]; unfold w_step in H.
  3: { assert (K : (let '(s1, fresh) := mark (log s (ACommand k)) k in
          Some (if fresh then mkW (w_now s1) (w_jobs s1) (w_reap s1) (LisSend k) (w_ver s1) (w_val s1) (w_flag s1) (w_main s1) (w_taken s1) (w_log s1) else s1)) = Some s').
    { destruct (w_main s); try discriminate; destruct (w_lis s); try discriminate; exact H. }
    clear H. destruct (mark_state (log s (ACommand k)) k) as (js & _ & _ & _ & _ & _ & _ & _ & A & _). destruct (mark (log s (ACommand k)) k) as [s1 fresh]. cbn [fst] in *. cbn [log w_lis] in A.
    destruct fresh; injection K as <-; cbn; eauto 6. }
  9: { left. destruct (w_main s) as [|t1|t1|t1 a|t1 sn1 st1|t1 y a d|t1 fs msg a d|t1 a|t1 u|e] eqn:M; try discriminate. injection H as <-. unfold poll_select.
    assert (SG : forall u t sn st, w_lis (poll_signal u t sn st) = w_lis u) by (intros u t sn st; unfold poll_signal; destruct (_ && _); [reflexivity|]; destruct (w_lis u) eqn:Q; cbn; auto).
    destruct sf.
    - destruct (w_main (poll_signal s t1 sn1 st1)) as [|t2|t2|t2 a|t2 sn2 st2|t2 y a d|t2 fs msg a d|t2 a|t2 u|e] eqn:M1; rewrite ?SG; try reflexivity.
      destruct (exec_main _ t2 sn2 st2 r M1) as (X1 & X2 & X3 & X4 & _). now rewrite X4, SG.
    - destruct (exec_main s t1 sn1 st1 r M) as (X1 & X2 & X3 & X4 & _). destruct (w_main (poll_exec s t1 sn1 st1 r)) as [|t2|t2|t2 a|t2 sn2 st2|t2 y a d|t2 fs msg a d|t2 a|t2 u|e] eqn:M1; rewrite ?SG; auto. }
  all: brk H; try discriminate; try (injection H as <-; cbn; auto).
  all: unfold io_effect, io_return, option_map in *; brk H; try discriminate; injection H as <-; cbn; auto.
Qed.
Definition einv (s : wstate) : Prop :=
  (0 < w_ver s -> exists tm, In (tm, ACommand (w_val s)) (w_log s)) /\ (forall k, w_lis s = LisSend k -> exists tm, In (tm, ACommand k) (w_log s)).
Lemma einv_init : forall ident, einv (w_init ident).
Proof. intros ident. split; cbn; [lia|discriminate]. Qed.
Lemma einv_step : forall s e s', einv s -> w_step s e = Some s' -> einv s'.
Proof.
  intros s e s' [E1 E2] H. destruct (step_acts s e s' H) as (new & L & _).
  assert (OLD : forall k, (exists tm, In (tm, ACommand k) (w_log s)) -> exists tm, In (tm, ACommand k) (w_log s')) by (intros k (tm & I); exists tm; rewrite L; apply in_or_app; now right).
  split.
  - intros V. destruct (ver_step s e s' H) as [(V1 & V2 & V3)|(-> & V1 & V2 & V3)]; [rewrite V1 in V; rewrite V2; auto|auto].
  - intros k Q. destruct (lis_step s e s' H) as [D|[D|[D|(k' & -> & D)]]]; try congruence.
    + rewrite D in Q. auto.
    + rewrite D in Q. injection Q as ->. exists (w_now s). unfold w_step in H.
      assert (K : (let '(s1, fresh) := mark (log s (ACommand k)) k in
          Some (if fresh then mkW (w_now s1) (w_jobs s1) (w_reap s1) (LisSend k) (w_ver s1) (w_val s1) (w_flag s1) (w_main s1) (w_taken s1) (w_log s1) else s1)) = Some s').
      { destruct (w_main s); try discriminate; destruct (w_lis s); try discriminate; exact H. }
      destruct (mark_new (log s (ACommand k)) k) as (nw & LM & _). destruct (mark (log s (ACommand k)) k) as [s1 fresh]. cbn [fst] in LM.
      assert (w_log s' = w_log s1) as -> by (destruct fresh; injection K as <-; reflexivity). rewrite LM. apply in_or_app. right. now left.
Qed.
Lemma einv_run : forall ident tr s, run_from w_step (w_init ident) tr = Some s -> einv s.
Proof. intros ident tr s H. exact (run_from_inv _ _ w_step einv einv_step tr _ s (einv_init ident) H). Qed.
Definition ginv (s : wstate) : Prop := forall tm i, In (tm, ASignal i) (w_log s) -> exists tm', later (tm, ASignal i) (tm', ACommand abort_all) (w_log s).
Lemma ginv_step : forall s e s', einv s /\ vinv s /\ ginv s -> w_step s e = Some s' -> einv s' /\ vinv s' /\ ginv s'.
Proof.
  intros s e s' (E & V & G) H. split; [exact (einv_step _ _ _ E H)|]. split; [exact (vinv_step _ _ _ V H)|]. destruct (step_acts s e s' H) as (new & L & X).
  intros tm i I. rewrite L in I |- *. apply in_app_or in I. destruct I as [I|I].
  - destruct (X _ _ I) as [-> (-> & (t & sn & st & M & SN) & A & _)]. destruct (V t sn st M) as [LE _]. destruct E as [E _]. destruct (E ltac:(lia)) as (tm' & EI). rewrite A in EI. exists tm'. now apply later_new.
  - destruct (G tm i I) as (tm' & Q). exists tm'. now apply later_lift.
Qed.
Lemma ginv_run : forall ident tr s, run_from w_step (w_init ident) tr = Some s -> ginv s.
Proof.
  intros ident tr s H. apply (run_from_inv _ _ w_step (fun s => einv s /\ vinv s /\ ginv s) ginv_step tr (w_init ident) s); auto.
  split; [apply einv_init|]. split; [apply vinv_init|]. intros tm i [].
Qed.
