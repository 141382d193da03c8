(** What each action of the worker says about the state it was done in, and the order of actions. *)
From Coq Require Import List Arith NArith Lia Bool.
From Verif Require Import Base BaseFacts RetryModel WorkerModel WorkerSpec WorkerProofs.
Import ListNotations.
Open Scope nat_scope.

(** The state [s] and event [e] in which an action is done. *)
Definition explains (s : wstate) (e : w_event) (a : wact) : Prop :=
  match a with
  | ATake i t => i = w_taken s /\ w_main s = WpWait /\ e = WTake t
  | ASkip i => i = cur s /\ exists t, w_main s = WpCheck t /\ marked (t_key t) (w_jobs s) = true
  | AStart i => i = cur s /\ (exists t sn, w_main s = WpRun t sn false) /\ exists sf r, e = WPoll sf r
  | AFinish i o => i = cur s /\ exists t sn st sf, w_main s = WpRun t sn st /\ e = WPoll sf (Some o)
  | ASignal i => i = cur s /\ (exists t sn st, w_main s = WpRun t sn st /\ sn <> w_ver s) /\ w_val s = abort_all /\ exists sf r, e = WPoll sf r
  | AAck i => i = cur s /\ exists t y d, w_main s = WpOk t y IoOpen d
  | ANack i => i = cur s /\ exists t, w_main s = WpSkip t IoOpen \/ w_main s = WpTerm t IoOpen \/ exists fs msg d, w_main s = WpFail t fs msg IoOpen d
  | AOk i k y => i = cur s /\ exists t a, w_main s = WpOk t y a (OPub IoOpen) /\ k = t_key t
  | AErr i k msg => i = cur s /\ exists t fs a ab, w_main s = WpFail t fs msg a (FPub ab IoOpen) /\ k = t_key t
  | AAbortAll i => i = cur s /\ exists t fs msg a er, w_main s = WpFail t fs msg a (FPub IoOpen er)
  | AMark k => marked k (w_jobs s) = false /\ (e = WCommand k \/ exists t sn st sf fs msg, w_main s = WpRun t sn st /\ e = WPoll sf (Some (OcErr fs msg)) /\ k = t_key t)
  | ACommand k => e = WCommand k
  end.

Definition explained (s : wstate) (e : w_event) (new : wlog) : Prop := forall tm a, In (tm, a) new -> tm = w_now s /\ explains s e a.

Lemma expl_nil : forall s e, explained s e [].
Proof. intros s e tm a []. Qed.
Lemma expl_cons : forall s e tm a new, tm = w_now s -> explains s e a -> explained s e new -> explained s e ((tm, a) :: new).
Proof. intros s e tm a new T E X tm' a' [Q|I]; [injection Q as <- <-; auto|now apply X]. Qed.
Lemma expl_app : forall s e n1 n2, explained s e n1 -> explained s e n2 -> explained s e (n1 ++ n2).
Proof. intros s e n1 n2 X1 X2 tm a I. apply in_app_or in I. destruct I; [now apply X1|now apply X2]. Qed.

Lemma mark_new : forall s k, exists new, w_log (fst (mark s k)) = new ++ w_log s /\ ((new = [] /\ marked k (w_jobs s) = true) \/ (new = [(w_now s, AMark k)] /\ marked k (w_jobs s) = false)).
Proof.
  intros s k. unfold mark. destruct (marked k (w_jobs s)) eqn:M; cbn [fst log w_log].
  - exists []. auto.
  - exists [(w_now s, AMark k)]. auto.
Qed.

Lemma signal_acts : forall s e t sn st, w_main s = WpRun t sn st -> (exists sf r, e = WPoll sf r) ->
  exists new, w_log (poll_signal s t sn st) = new ++ w_log s /\ explained s e new /\ forall tm a, In (tm, a) new -> exists i, a = ASignal i.
Proof.
  intros s e t sn st M EP. unfold poll_signal. destruct (_ && _) eqn:E.
  - apply andb_prop in E. destruct E as [E1 E2]. apply Nat.eqb_eq in E2. apply Bool.negb_true_iff, Nat.eqb_neq in E1.
    exists [(w_now s, ASignal (cur s))]. split; [reflexivity|]. split.
    + apply expl_cons; [reflexivity| |apply expl_nil]. cbn. repeat split; eauto 6.
    + intros tm a [Q|[]]. injection Q as _ <-. eauto.
  - exists []. split; [destruct (w_lis s); reflexivity|]. split; [apply expl_nil|intros tm a []].
Qed.
Lemma finish_acts : forall s t sn st sf o s0, w_main s0 = WpRun t sn st -> w_now s = w_now s0 -> w_taken s = w_taken s0 -> w_jobs s = w_jobs s0 ->
  exists new, w_log (finish s t o) = new ++ w_log s /\ explained s0 (WPoll sf (Some o)) new.
Proof.
  intros s t sn st sf o s0 M N0 T J.
  assert (F : explains s0 (WPoll sf (Some o)) (AFinish (cur s) o)) by (cbn; unfold cur; rewrite T; split; [reflexivity|]; do 4 eexists; split; [exact M|reflexivity]).
  unfold finish. destruct o as [y|fs msg|].
  - exists [(w_now s, AFinish (cur s) (OcOk y))]. split; [reflexivity|]. apply expl_cons; auto using expl_nil.
  - destruct (mark_new (log s (AFinish (cur s) (OcErr fs msg))) (t_key t)) as (new & L & D).
    exists (new ++ [(w_now s, AFinish (cur s) (OcErr fs msg))]). split; [cbn [set_main w_log]; rewrite L, <- app_assoc; reflexivity|].
    apply expl_app; [|apply expl_cons; auto using expl_nil]. destruct D as [[-> _]|[-> D]]; [apply expl_nil|].
    apply expl_cons; [exact N0| |apply expl_nil]. cbn [explains]. cbn [log w_jobs] in D. rewrite J in D. split; [exact D|]. right. do 6 eexists. split; [exact M|]. split; reflexivity.
  - exists [(w_now s, AFinish (cur s) OcPanic)]. split; [reflexivity|]. apply expl_cons; auto using expl_nil.
Qed.
Lemma start_same : forall s t sn st, w_now (start s t sn st) = w_now s /\ w_taken (start s t sn st) = w_taken s /\ w_jobs (start s t sn st) = w_jobs s /\
  w_ver (start s t sn st) = w_ver s /\ w_val (start s t sn st) = w_val s /\ w_lis (start s t sn st) = w_lis s /\ w_reap (start s t sn st) = w_reap s /\
  (w_main s = WpRun t sn st -> w_main (start s t sn st) = WpRun t sn true).
Proof. intros s t sn st. unfold start. destruct st; cbn; repeat split; auto. Qed.
Lemma exec_acts : forall s sf t sn st r s0, w_main s = WpRun t sn st -> w_now s = w_now s0 -> w_taken s = w_taken s0 -> w_jobs s = w_jobs s0 -> (exists sn0, w_main s0 = WpRun t sn0 st) ->
  exists new, w_log (poll_exec s t sn st r) = new ++ w_log s /\ explained s0 (WPoll sf r) new.
Proof.
  intros s sf t sn st r s0 M N0 T J (sn0 & M0). unfold poll_exec.
  assert (S : exists new, w_log (start s t sn st) = new ++ w_log s /\ explained s0 (WPoll sf r) new).
  { unfold start. destruct st.
    - exists []. split; [reflexivity|apply expl_nil].
    - exists [(w_now s, AStart (cur s))]. split; [reflexivity|]. apply expl_cons; [exact N0| |apply expl_nil]. cbn. unfold cur. rewrite T. eauto 8. }
  destruct S as (n1 & L1 & X1). destruct r as [o|]; [|eauto].
  destruct (start_same s t sn st) as (S1 & S2 & S3 & _).
  destruct (finish_acts (start s t sn st) t sn0 st sf o s0 M0) as (n2 & L2 & X2); try congruence.
  exists (n2 ++ n1). split; [now rewrite L2, L1, app_assoc|]. now apply expl_app.
Qed.

Lemma step_acts : forall s e s', w_step s e = Some s' -> exists new, w_log s' = new ++ w_log s /\ explained s e new.
Proof.
  intros s e s' H.
  assert (NIL : w_log s' = w_log s -> exists new, w_log s' = new ++ w_log s /\ explained s e new) by (intros Q; exists []; split; [exact Q|apply expl_nil]).
  assert (ONE : forall a, w_log s' = (w_now s, a) :: w_log s -> explains s e a -> exists new, w_log s' = new ++ w_log s /\ explained s e new)
    by (intros a Q X; exists [(w_now s, a)]; split; [exact Q|apply expl_cons; auto using expl_nil]).
  destruct e as [d| |k| | |t| | | |sf r|sl|sl ok|ok|ok| |]; unfold w_step in H.
  - injection H as <-. now apply NIL.
  - destruct (w_main s) eqn:M; try discriminate; destruct (w_reap s <=? w_now s)%N; try discriminate; injection H as <-; now apply NIL.
  - assert (K : (let '(s1, fresh) := mark (log s (ACommand k)) k in
          Some (if fresh then mkW (w_now s1) (w_jobs s1) (w_reap s1) (LisSend k) (w_ver s1) (w_val s1) (w_flag s1) (w_main s1) (w_taken s1) (w_log s1) else s1)) = Some s').
    { destruct (w_main s); try discriminate; destruct (w_lis s); try discriminate; exact H. }
    clear H. destruct (mark_new (log s (ACommand k)) k) as (new & L & D). destruct (mark (log s (ACommand k)) k) as [s1 fresh]. cbn [fst] in L.
    exists (new ++ [(w_now s, ACommand k)]). split; [rewrite <- app_assoc; destruct fresh; injection K as <-; exact L|].
    apply expl_app; [|apply expl_cons; [reflexivity|reflexivity|apply expl_nil]]. destruct D as [[-> _]|[-> D]]; [apply expl_nil|].
    apply expl_cons; [reflexivity| |apply expl_nil]. split; [exact D|]. now left.
  - destruct (w_main s) eqn:M; try discriminate; destruct (w_lis s) eqn:LI; try discriminate; injection H as <-; now apply NIL.
  - destruct (w_main s) eqn:M; try discriminate; destruct (w_lis s) eqn:LI; try discriminate; injection H as <-; now apply NIL.
  - destruct (w_main s) eqn:M; try discriminate. injection H as <-. eapply ONE; [reflexivity|]. cbn. auto.
  - destruct (w_main s) eqn:M; try discriminate. injection H as <-. now apply NIL.
  - destruct (w_main s) eqn:M; try discriminate. injection H as <-. now apply NIL.
  - destruct (w_main s) eqn:M; try discriminate. injection H as <-. destruct (marked _ _) eqn:MK; [|now apply NIL]. eapply ONE; [reflexivity|]. cbn. eauto.
  - destruct (w_main s) as [|t|t|t a|t sn st|t y a d|t fs msg a d|t a|t u|e] eqn:M; try discriminate. injection H as <-. clear NIL ONE. unfold poll_select. destruct sf.
    + destruct (signal_acts s (WPoll true r) t sn st M (ex_intro _ _ (ex_intro _ _ eq_refl))) as (n1 & L1 & X1 & _). unfold poll_signal in *. destruct (_ && _); [cbn [log w_main]; eauto|].
      destruct (w_lis s) eqn:LI; cbn [set_main w_main] in *; [| |eauto].
      all: destruct (exec_acts (set_main s (WpRun t (w_ver s) st)) true t (w_ver s) st r s) as (n2 & L2 & X2); [reflexivity..|eauto|].
      all: exists n2; split; [exact L2|exact X2].
    + destruct (exec_acts s false t sn st r s M) as (n1 & L1 & X1); [reflexivity..|eauto|].
      destruct (start_same s t sn st) as (S1 & S2 & S3 & S4 & S5 & S6 & S7 & S8). specialize (S8 M).
      destruct r as [o|]; unfold poll_exec in *.
      * destruct (w_main (finish (start s t sn st) t o)) eqn:M1; try (exists n1; split; assumption). exfalso. destruct o; cbn in M1; discriminate.
      * rewrite S8. destruct (signal_acts (start s t sn st) (WPoll false None) t sn true S8 (ex_intro _ _ (ex_intro _ _ eq_refl))) as (n2 & L2 & X2 & X3). exists (n2 ++ n1). split; [now rewrite L2, L1, app_assoc|].
        apply expl_app; [|exact X1]. intros tm a I. destruct (X2 tm a I) as [TM E]. rewrite S1 in TM. split; [exact TM|].
        destruct (X3 tm a I) as (i & ->). cbn in E |- *. unfold cur in *. rewrite S2, S4, S5 in E. destruct E as (E1 & (t' & sn' & st' & E2 & E3) & E4 & E5).
        repeat split; auto. rewrite S8 in E2. injection E2 as <- <- <-. eauto.
  - destruct sl; destruct (w_main s) as [|t|t|t a|t sn st|t y a d|t fs msg a d|t a|t u|e] eqn:M; try discriminate.
    1-4: destruct a; try discriminate; injection H as <-; eapply ONE; [reflexivity|]; cbn; eauto 8.
    + destruct d as [|p| |]; try discriminate. destruct p; try discriminate. injection H as <-. eapply ONE; [reflexivity|]. cbn; eauto 8.
    + destruct d as [|ab er| |]; try discriminate. destruct er; try discriminate. injection H as <-. eapply ONE; [reflexivity|]. cbn; eauto 8.
    + destruct d as [|ab er| |]; try discriminate. destruct ab; try discriminate. injection H as <-. eapply ONE; [reflexivity|]. cbn; eauto 8.
  - apply NIL. destruct sl; destruct (w_main s) as [|t|t|t a|t sn st|t y a d|t fs msg a d|t a|t u|e] eqn:M; try discriminate.
    + destruct ok; [destruct a; try discriminate|]; injection H as <-; reflexivity.
    + destruct a; try discriminate; (destruct ok; [try discriminate|]); injection H as <-; reflexivity.
    + destruct a; try discriminate; (destruct ok; [try discriminate|]); injection H as <-; reflexivity.
    + destruct ok; [destruct a; try discriminate|]; injection H as <-; reflexivity.
    + destruct d as [|p| |]; try discriminate. destruct ok; [destruct p; try discriminate|]; injection H as <-; reflexivity.
    + destruct d as [|ab er| |]; try discriminate. destruct er; try discriminate; (destruct ok; [try discriminate|]); injection H as <-; reflexivity.
    + destruct d as [|ab er| |]; try discriminate. destruct ab; try discriminate; (destruct ok; [try discriminate|]); injection H as <-; reflexivity.
  - apply NIL. destruct (w_main s) as [|t|t|t a|t sn st|t y a d|t fs msg a d|t a|t u|e] eqn:M; try discriminate; destruct d; try discriminate; injection H as <-; destruct ok; reflexivity.
  - apply NIL. destruct (w_main s) as [|t|t|t a|t sn st|t y a d|t fs msg a d|t a|t u|e] eqn:M; try discriminate; destruct d; try discriminate; injection H as <-; destruct ok; reflexivity.
  - apply NIL. destruct (w_main s) as [|t|t|t a|t sn st|t y a d|t fs msg a d|t a|t u|e] eqn:M; try discriminate; destruct a; try discriminate; destruct d; try discriminate; injection H as <-; reflexivity.
  - apply NIL. destruct (w_main s) as [|t|t|t a|t sn st|t y a d|t fs msg a d|t a|t u|e] eqn:M; try discriminate. destruct (u <=? w_now s)%N; try discriminate. injection H as <-. reflexivity.
Qed.

Lemma later_cons : forall p q x l, later p q (x :: l) <-> (p = x /\ In q l) \/ later p q l.
Proof.
  intros p q x l. split.
  - intros (l1 & l2 & E & I). destruct l1 as [|y l1]; injection E as <- ->; [now left|right; now exists l1, l2].
  - intros [[-> I]|(l1 & l2 & -> & I)]; [now exists [], l|now exists (x :: l1), l2].
Qed.
Lemma later_app : forall p q new l, later p q (new ++ l) -> later p q l \/ In p new.
Proof.
  intros p q new. induction new as [|x new IH]; intros l H; [now left|]. cbn in H. apply later_cons in H. destruct H as [[-> I]|H]; [right; now left|].
  destruct (IH l H); [now left|right; now right].
Qed.
Lemma later_in : forall p q l, later p q l -> In p l /\ In q l.
Proof. intros p q l (l1 & l2 & -> & I). split; [apply in_elt|]. apply in_or_app. right. now right. Qed.
Lemma later_lift : forall p q new l, later p q l -> later p q (new ++ l).
Proof. intros p q new l (l1 & l2 & -> & I). exists (new ++ l1), l2. now rewrite app_assoc. Qed.
Lemma later_new : forall p q new l, In p new -> In q l -> later p q (new ++ l).
Proof.
  intros p q new l I Q. apply in_split in I. destruct I as (n1 & n2 & ->). exists n1, (n2 ++ l). rewrite <- app_assoc. split; [reflexivity|].
  apply in_or_app. now right.
Qed.

(** ** The other parts of the state *)
Lemma mark_state : forall s k, exists js, w_jobs (fst (mark s k)) = js ++ w_jobs s /\
  w_log (fst (mark s k)) = map (fun p => (snd p, AMark (fst p))) js ++ w_log s /\
  (js = [] \/ js = [(k, w_now s)]) /\ w_now (fst (mark s k)) = w_now s /\ w_reap (fst (mark s k)) = w_reap s /\
  w_ver (fst (mark s k)) = w_ver s /\ w_val (fst (mark s k)) = w_val s /\ w_lis (fst (mark s k)) = w_lis s /\ w_main (fst (mark s k)) = w_main s /\ w_taken (fst (mark s k)) = w_taken s.
Proof.
  intros s k. unfold mark. destruct (marked k (w_jobs s)); cbn.
  - exists []. repeat split; auto.
  - exists [(k, w_now s)]. repeat split; auto.
Qed.

(** What a step does to the map of terminated jobs. *)
Definition jobs_of (new : wlog) : list (nat * N) := concat (map (fun p => match snd p with AMark k => [(k, fst p)] | _ => [] end) new).
Lemma jobs_in : forall new k tm, In (k, tm) (jobs_of new) <-> In (tm, AMark k) new.
Proof.
  intros new k tm. unfold jobs_of. induction new as [|[u a] new IH]; cbn; [tauto|]. rewrite in_app_iff, IH.
  destruct a; cbn; (split; [intros [[]|]; auto|intros [Q|]; [discriminate|auto]]) || idtac.
  split; [intros [[Q|[]]|]; [injection Q as -> ->; now left|now right]|intros [Q|]; [injection Q as -> ->; left; now left|now right]].
Qed.
Lemma jobs_app : forall n1 n2, jobs_of (n1 ++ n2) = jobs_of n1 ++ jobs_of n2.
Proof. intros. unfold jobs_of. now rewrite map_app, concat_app. Qed.

Record kept (s s' : wstate) : Prop := mkKept {
  k_now : w_now s' = w_now s; k_reap : w_reap s' = w_reap s; k_jobs : exists new, w_log s' = new ++ w_log s /\ w_jobs s' = jobs_of new ++ w_jobs s
}.
Lemma kept_refl : forall s, kept s s.
Proof. intros s. constructor; auto. now exists []. Qed.
Lemma kept_trans : forall s1 s2 s3, kept s1 s2 -> kept s2 s3 -> kept s1 s3.
Proof.
  intros s1 s2 s3 [A1 A2 (n1 & A3 & A4)] [B1 B2 (n2 & B3 & B4)]. constructor; try congruence. exists (n2 ++ n1). rewrite B3, A3, B4, A4, jobs_app.
  split; now rewrite app_assoc.
Qed.
Lemma kept_eq : forall s s', w_now s' = w_now s -> w_reap s' = w_reap s -> w_jobs s' = w_jobs s -> w_log s' = w_log s -> kept s s'.
Proof. intros s s' A B C D. constructor; auto. exists []. auto. Qed.
Lemma kept_log : forall s s' a, (forall k, a <> AMark k) -> w_now s' = w_now s -> w_reap s' = w_reap s -> w_jobs s' = w_jobs s -> w_log s' = (w_now s, a) :: w_log s -> kept s s'.
Proof.
  intros s s' a NM A B C D. constructor; auto. exists [(w_now s, a)]. split; [exact D|]. rewrite C. destruct a; cbn; auto. now destruct (NM k).
Qed.
Lemma kept_mark : forall s k, kept s (fst (mark s k)).
Proof.
  intros s k. unfold mark. destruct (marked k (w_jobs s)); cbn [fst]; [apply kept_refl|]. constructor; try reflexivity.
  exists [(w_now s, AMark k)]. split; reflexivity.
Qed.
Lemma kept_signal : forall s t sn st, kept s (poll_signal s t sn st).
Proof.
  intros s t sn st. unfold poll_signal. destruct (_ && _); [|destruct (w_lis s); now apply kept_eq].
  eapply (kept_log s _ (ASignal (cur s))); try reflexivity. discriminate.
Qed.
Lemma kept_exec : forall s t sn st r, kept s (poll_exec s t sn st r).
Proof.
  intros s t sn st r. unfold poll_exec.
  assert (K : kept s (start s t sn st)).
  { unfold start. destruct st; [apply kept_refl|]. eapply (kept_log s _ (AStart (cur s))); try reflexivity. discriminate. }
  destruct r as [o|]; [|exact K]. eapply kept_trans; [exact K|]. unfold finish.
  assert (F : kept (start s t sn st) (log (start s t sn st) (AFinish (cur (start s t sn st)) o))).
  { eapply (kept_log _ _ (AFinish (cur (start s t sn st)) o)); try reflexivity. discriminate. }
  destruct o; cbn zeta.
  - eapply kept_trans; [exact F|]. now apply kept_eq.
  - eapply kept_trans; [exact F|]. eapply kept_trans; [apply (kept_mark _ (t_key t))|]. now apply kept_eq.
  - eapply kept_trans; [exact F|]. now apply kept_eq.
Qed.

Lemma kept_step : forall s e s', w_step s e = Some s' ->
  kept s s' \/ (exists d, e = WTick d /\ w_now s' = (w_now s + d)%N /\ w_reap s' = w_reap s /\ w_jobs s' = w_jobs s /\ w_log s' = w_log s /\ w_main s' = w_main s /\ w_taken s' = w_taken s) \/
  (e = WReap /\ (w_reap s <= w_now s)%N /\ w_now s' = w_now s /\ w_reap s' = (w_now s + clear_interval)%N /\
     w_jobs s' = filter (fun p => (w_now s - snd p <? clear_interval)%N) (w_jobs s) /\ w_log s' = w_log s /\ w_main s' = w_main s /\ w_taken s' = w_taken s).
Proof.
  intros s e s' H. destruct e as [d| |k| | |t| | | |sf r|sl|sl ok|ok|ok| |]; unfold w_step in H.
  - right. left. injection H as <-. exists d. cbn. repeat split; reflexivity.
  - right. right. destruct (w_main s) eqn:M; try discriminate; destruct (w_reap s <=? w_now s)%N eqn:E; try discriminate; apply N.leb_le in E; injection H as <-; cbn; rewrite ?M; repeat split; auto.
  - left. assert (K : (let '(s1, fresh) := mark (log s (ACommand k)) k in
          Some (if fresh then mkW (w_now s1) (w_jobs s1) (w_reap s1) (LisSend k) (w_ver s1) (w_val s1) (w_flag s1) (w_main s1) (w_taken s1) (w_log s1) else s1)) = Some s').
    { destruct (w_main s); try discriminate; destruct (w_lis s); try discriminate; exact H. }
    eapply kept_trans; [eapply (kept_log s (log s (ACommand k)) (ACommand k)); try reflexivity; discriminate|]. eapply kept_trans; [apply (kept_mark _ k)|].
    destruct (mark (log s (ACommand k)) k) as [s1 fresh]. cbn [fst]. destruct fresh; injection K as <-; [now apply kept_eq|apply kept_refl].
  - left. destruct (w_main s) eqn:M; try discriminate; destruct (w_lis s) eqn:LI; try discriminate; injection H as <-; now apply kept_eq.
  - left. destruct (w_main s) eqn:M; try discriminate; destruct (w_lis s) eqn:LI; try discriminate; injection H as <-; now apply kept_eq.
  - left. destruct (w_main s) eqn:M; try discriminate. injection H as <-. eapply (kept_log s _ (ATake (w_taken s) t)); try reflexivity. discriminate.
  - left. destruct (w_main s) eqn:M; try discriminate. injection H as <-. now apply kept_eq.
  - left. destruct (w_main s) eqn:M; try discriminate. injection H as <-. now apply kept_eq.
  - left. destruct (w_main s) eqn:M; try discriminate. injection H as <-. destruct (marked _ _); [|now apply kept_eq]. eapply (kept_log s _ (ASkip (cur s))); try reflexivity. discriminate.
  - left. destruct (w_main s) as [|t|t|t a|t sn st|t y a d|t fs msg a d|t a|t u|e] eqn:M; try discriminate. injection H as <-. unfold poll_select. destruct sf.
    + pose proof (kept_signal s t sn st) as K. destruct (w_main (poll_signal s t sn st)); try exact K. eapply kept_trans; [exact K|apply kept_exec].
    + pose proof (kept_exec s t sn st r) as K. destruct (w_main (poll_exec s t sn st r)); try exact K. eapply kept_trans; [exact K|apply kept_signal].
  - left. destruct sl; destruct (w_main s) as [|t|t|t a|t sn st|t y a d|t fs msg a d|t a|t u|e] eqn:M; try discriminate.
    + destruct a; try discriminate; injection H as <-. eapply (kept_log s _ (ANack (cur s))); try reflexivity. discriminate.
    + destruct a; try discriminate; injection H as <-. eapply (kept_log s _ (AAck (cur s))); try reflexivity. discriminate.
    + destruct a; try discriminate; injection H as <-. eapply (kept_log s _ (ANack (cur s))); try reflexivity. discriminate.
    + destruct a; try discriminate; injection H as <-. eapply (kept_log s _ (ANack (cur s))); try reflexivity. discriminate.
    + destruct d as [|p| |]; try discriminate. destruct p; try discriminate. injection H as <-. eapply (kept_log s _ (AOk (cur s) (t_key t) y)); try reflexivity. discriminate.
    + destruct d as [|ab er| |]; try discriminate. destruct er; try discriminate. injection H as <-. eapply (kept_log s _ (AErr (cur s) (t_key t) msg)); try reflexivity. discriminate.
    + destruct d as [|ab er| |]; try discriminate. destruct ab; try discriminate. injection H as <-. eapply (kept_log s _ (AAbortAll (cur s))); try reflexivity. discriminate.
  - left. destruct sl; destruct (w_main s) as [|t|t|t a|t sn st|t y a d|t fs msg a d|t a|t u|e] eqn:M; try discriminate.
    + destruct ok; [destruct a; try discriminate|]; injection H as <-; now apply kept_eq.
    + destruct a; try discriminate; (destruct ok; [try discriminate|]); injection H as <-; now apply kept_eq.
    + destruct a; try discriminate; (destruct ok; [try discriminate|]); injection H as <-; now apply kept_eq.
    + destruct ok; [destruct a; try discriminate|]; injection H as <-; now apply kept_eq.
    + destruct d as [|p| |]; try discriminate. destruct ok; [destruct p; try discriminate|]; injection H as <-; now apply kept_eq.
    + destruct d as [|ab er| |]; try discriminate. destruct er; try discriminate; (destruct ok; [try discriminate|]); injection H as <-; now apply kept_eq.
    + destruct d as [|ab er| |]; try discriminate. destruct ab; try discriminate; (destruct ok; [try discriminate|]); injection H as <-; now apply kept_eq.
  - left. destruct (w_main s) as [|t|t|t a|t sn st|t y a d|t fs msg a d|t a|t u|e] eqn:M; try discriminate; destruct d; try discriminate; injection H as <-; destruct ok; now apply kept_eq.
  - left. destruct (w_main s) as [|t|t|t a|t sn st|t y a d|t fs msg a d|t a|t u|e] eqn:M; try discriminate; destruct d; try discriminate; injection H as <-; destruct ok; now apply kept_eq.
  - left. destruct (w_main s) as [|t|t|t a|t sn st|t y a d|t fs msg a d|t a|t u|e] eqn:M; try discriminate; destruct a; try discriminate; destruct d; try discriminate; injection H as <-; now apply kept_eq.
  - left. destruct (w_main s) as [|t|t|t a|t sn st|t y a d|t fs msg a d|t a|t u|e] eqn:M; try discriminate. destruct (u <=? w_now s)%N; try discriminate. injection H as <-. now apply kept_eq.
Qed.

Lemma signal_main : forall s t sn st, w_main s = WpRun t sn st ->
  w_taken (poll_signal s t sn st) = w_taken s /\ w_ver (poll_signal s t sn st) = w_ver s /\ w_val (poll_signal s t sn st) = w_val s /\ w_jobs (poll_signal s t sn st) = w_jobs s /\
  ((w_main (poll_signal s t sn st) = WpTerm t IoOpen /\ sn <> w_ver s /\ w_val s = abort_all /\ w_log (poll_signal s t sn st) = (w_now s, ASignal (cur s)) :: w_log s) \/
   ((sn = w_ver s \/ w_val s <> abort_all) /\ w_log (poll_signal s t sn st) = w_log s /\
    (w_main (poll_signal s t sn st) = WpRun t (w_ver s) st \/ (w_main (poll_signal s t sn st) = WpStop EndPanic /\ w_lis s = LisGone)))).
Proof.
  intros s t sn st M. unfold poll_signal. destruct (_ && _) eqn:E.
  - apply andb_prop in E. destruct E as [E1 E2]. apply Nat.eqb_eq in E2. apply negb_true_iff, Nat.eqb_neq in E1. cbn. repeat split. left. auto.
  - assert (Q : sn = w_ver s \/ w_val s <> abort_all).
    { apply andb_false_iff in E. destruct E as [E|E]; [left; apply negb_false_iff, Nat.eqb_eq in E; exact E|right; now apply Nat.eqb_neq in E]. }
    destruct (w_lis s) eqn:L; cbn; repeat split; right; auto.
Qed.
(** The phase after an execution that finishes. *)
Definition finished (t : wtask) (o : outcome) : wphase :=
  match o with
  | OcOk y => WpOk t y IoOpen ODecl
  | OcErr fs msg => WpFail t fs msg IoOpen (match fs with FsIgnore => FDone | FsTerminate => FDecl end)
  | OcPanic => WpStop EndPanic
  end.
Lemma exec_main : forall s t sn st r, w_main s = WpRun t sn st ->
  w_taken (poll_exec s t sn st r) = w_taken s /\ w_ver (poll_exec s t sn st r) = w_ver s /\ w_val (poll_exec s t sn st r) = w_val s /\ w_lis (poll_exec s t sn st r) = w_lis s /\
  w_main (poll_exec s t sn st r) = match r with Some o => finished t o | None => WpRun t sn true end.
Proof.
  intros s t sn st r M. destruct (start_same s t sn st) as (S1 & S2 & S3 & S4 & S5 & S6 & S7 & S8). specialize (S8 M). unfold poll_exec. destruct r as [o|].
  - unfold finish, finished. destruct o; cbn; try tauto. destruct (mark_state (log (start s t sn st) (AFinish (cur (start s t sn st)) (OcErr fs msg))) (t_key t)) as (js & _ & _ & _ & _ & _ & A & B & C & _ & D).
    rewrite A, B, C, D. cbn. auto.
  - auto.
Qed.

Lemma run_phase : forall s e s' t sn st, w_step s e = Some s' -> w_main s' = WpRun t sn st ->
  w_taken s' = w_taken s /\
  ((exists sn0 st0, w_main s = WpRun t sn0 st0 /\ ((forall sf r, e <> WPoll sf r) /\ sn = sn0 /\ st = st0 \/ exists sf, e = WPoll sf None /\ sn = w_ver s /\ (sn0 = w_ver s \/ w_val s <> abort_all)))
   \/ (w_main s = WpCheck t /\ marked (t_key t) (w_jobs s) = false /\ e = WCheck /\ sn = 0 /\ st = false)).
Proof.
  intros s e s' t sn st H M'.
  assert (SAME : w_main s = WpRun t sn st -> (forall sf r, e <> WPoll sf r) -> (exists sn0 st0, w_main s = WpRun t sn0 st0 /\ ((forall sf r, e <> WPoll sf r) /\ sn = sn0 /\ st = st0 \/ exists sf, e = WPoll sf None /\ sn = w_ver s /\ (sn0 = w_ver s \/ w_val s <> abort_all)))).
  { intros Q NP. exists sn, st. split; [exact Q|]. left. auto. }
  destruct e as [d| |k| | |t0| | | |sf r|sl|sl ok|ok|ok| |]; unfold w_step in H.
  - injection H as <-. cbn in M'. split; [reflexivity|]. left. apply SAME; [exact M'|discriminate].
  - destruct (w_main s) eqn:M; try discriminate; destruct (w_reap s <=? w_now s)%N eqn:E; try discriminate; injection H as <-; cbn in M'; try congruence. split; [reflexivity|]. left. apply SAME; [exact M'|discriminate].
  - assert (K : (let '(s1, fresh) := mark (log s (ACommand k)) k in
          Some (if fresh then mkW (w_now s1) (w_jobs s1) (w_reap s1) (LisSend k) (w_ver s1) (w_val s1) (w_flag s1) (w_main s1) (w_taken s1) (w_log s1) else s1)) = Some s').
    { destruct (w_main s); try discriminate; destruct (w_lis s); try discriminate; exact H. }
    clear H. destruct (mark_state (log s (ACommand k)) k) as (js & _ & _ & _ & _ & _ & _ & _ & _ & A & B). destruct (mark (log s (ACommand k)) k) as [s1 fresh]. cbn [fst] in *. cbn [log w_main w_taken] in A, B.
    assert (w_main s' = w_main s /\ w_taken s' = w_taken s) as [C D] by (destruct fresh; injection K as <-; auto).
    split; [exact D|]. left. apply SAME; [congruence|discriminate].
  - destruct (w_main s) eqn:M; try discriminate; destruct (w_lis s) eqn:LI; try discriminate; injection H as <-; cbn in M'; rewrite ?M in M'; try congruence. split; [reflexivity|]. left. apply SAME; [exact M'|discriminate].
  - destruct (w_main s) eqn:M; try discriminate; destruct (w_lis s) eqn:LI; try discriminate; injection H as <-; cbn in M'; rewrite ?M in M'; try congruence. split; [reflexivity|]. left. apply SAME; [exact M'|discriminate].
  - destruct (w_main s) eqn:M; try discriminate. injection H as <-. discriminate M'.
  - destruct (w_main s) eqn:M; try discriminate. injection H as <-. discriminate M'.
  - destruct (w_main s) eqn:M; try discriminate. injection H as <-. destruct (w_flag s); discriminate M'.
  - destruct (w_main s) eqn:M; try discriminate. injection H as <-. destruct (marked _ _) eqn:MK; [discriminate M'|]. cbn in M'. injection M' as <- <- <-. split; [reflexivity|]. right. auto.
  - destruct (w_main s) as [|t1|t1|t1 a|t1 sn1 st1|t1 y a d|t1 fs msg a d|t1 a|t1 u|e] eqn:M; try discriminate. injection H as <-. clear SAME. unfold poll_select in *. destruct sf.
    + destruct (signal_main s t1 sn1 st1 M) as (S1 & S2 & S3 & _ & [(S4 & _)|(S4 & _ & [S5|[S5 _]])]); try (rewrite S4 in M'; congruence); rewrite S5 in *; [|congruence].
      destruct (exec_main _ t1 (w_ver s) st1 r S5) as (X1 & X2 & X3 & X4 & X5). rewrite X5 in M'. destruct r as [o|]; [destruct o; discriminate M'|]. injection M' as <- <- <-.
      split; [congruence|]. left. exists sn1, st1. split; [reflexivity|]. right. exists true. auto.
    + destruct (exec_main s t1 sn1 st1 r M) as (X1 & X2 & X3 & X4 & X5). destruct r as [o|].
      { exfalso. destruct (w_main (poll_exec s t1 sn1 st1 (Some o))) eqn:Z; try congruence. destruct o; discriminate X5. }
      rewrite X5 in *. destruct (signal_main _ t1 sn1 true X5) as (S1 & S2 & S3 & _ & [(S4 & _)|(S4 & _ & [S5|[S5 _]])]); rewrite ?S4, ?S5 in M'; try discriminate. injection M' as <- <- <-.
      split; [congruence|]. left. exists sn1, st1. split; [reflexivity|]. right. exists false. rewrite X2, X3 in *. auto.
  - exfalso. destruct sl; destruct (w_main s) as [|t1|t1|t1 a|t1 sn1 st1|t1 y a d|t1 fs msg a d|t1 a|t1 u|e] eqn:M; try discriminate.
    1-4: destruct a; try discriminate; injection H as <-; discriminate.
    + destruct d as [|p| |]; try discriminate. destruct p; try discriminate. injection H as <-; discriminate.
    + destruct d as [|ab er| |]; try discriminate. destruct er; try discriminate. injection H as <-; discriminate.
    + destruct d as [|ab er| |]; try discriminate. destruct ab; try discriminate. injection H as <-; discriminate.
  - exfalso. destruct sl; destruct (w_main s) as [|t1|t1|t1 a|t1 sn1 st1|t1 y a d|t1 fs msg a d|t1 a|t1 u|e] eqn:M; try discriminate.
    + destruct ok; [destruct a; try discriminate|]; injection H as <-; discriminate.
    + destruct a; try discriminate; (destruct ok; [try discriminate|]); injection H as <-; discriminate.
    + destruct a; try discriminate; (destruct ok; [try discriminate|]); injection H as <-; discriminate.
    + destruct ok; [destruct a; try discriminate|]; injection H as <-; discriminate.
    + destruct d as [|p| |]; try discriminate. destruct ok; [destruct p; try discriminate|]; injection H as <-; discriminate.
    + destruct d as [|ab er| |]; try discriminate. destruct er; try discriminate; (destruct ok; [try discriminate|]); injection H as <-; discriminate.
    + destruct d as [|ab er| |]; try discriminate. destruct ab; try discriminate; (destruct ok; [try discriminate|]); injection H as <-; discriminate.
  - exfalso. destruct (w_main s) as [|t1|t1|t1 a|t1 sn1 st1|t1 y a d|t1 fs msg a d|t1 a|t1 u|e] eqn:M; try discriminate; destruct d; try discriminate; injection H as <-; destruct ok; discriminate.
  - exfalso. destruct (w_main s) as [|t1|t1|t1 a|t1 sn1 st1|t1 y a d|t1 fs msg a d|t1 a|t1 u|e] eqn:M; try discriminate; destruct d; try discriminate; injection H as <-; destruct ok; discriminate.
  - exfalso. destruct (w_main s) as [|t1|t1|t1 a|t1 sn1 st1|t1 y a d|t1 fs msg a d|t1 a|t1 u|e] eqn:M; try discriminate; destruct a; try discriminate; destruct d; try discriminate; injection H as <-; discriminate.
  - exfalso. destruct (w_main s) as [|t1|t1|t1 a|t1 sn1 st1|t1 y a d|t1 fs msg a d|t1 a|t1 u|e] eqn:M; try discriminate. destruct (u <=? w_now s)%N; try discriminate. injection H as <-. discriminate.
Qed.

(** Once the signal is seen the worker only nacks and stops. *)
Definition ending (p : wphase) : bool := match p with WpTerm _ _ | WpSleep _ _ | WpStop _ => true | _ => false end.
Lemma ending_step : forall s e s', w_step s e = Some s' -> ending (w_main s) = true -> ending (w_main s') = true.
Proof.
  intros s e s' H E. destruct (w_main s) as [|t|t|t a|t sn st|t y a d|t fs msg a d|t a|t u|en] eqn:M; try discriminate; clear E.
  all: destruct e as [d'| |k| | |t0| | | |sf r|sl|sl ok|ok|ok| |]; unfold w_step in H; rewrite M in H; try discriminate.
  all: try (injection H as <-; cbn; rewrite ?M; reflexivity).
  all: try (destruct sl; discriminate).
  all: try (destruct (w_reap s <=? w_now s)%N; try discriminate; injection H as <-; cbn; rewrite ?M; reflexivity).
  all: try (destruct (u <=? w_now s)%N; try discriminate; injection H as <-; reflexivity).
  all: try (destruct (w_lis s); try discriminate; injection H as <-; cbn; rewrite ?M; reflexivity).
  all: try (destruct sl; try discriminate; destruct a; try discriminate; injection H as <-; reflexivity).
  all: try (destruct sl; try discriminate; destruct ok; [destruct a; try discriminate|]; injection H as <-; reflexivity).
  all: destruct (w_lis s); try discriminate; destruct (mark_state (log s (ACommand k)) k) as (js & _ & _ & _ & _ & _ & _ & _ & _ & A & B); destruct (mark (log s (ACommand k)) k) as [s1 fresh];
    cbn [fst] in *; cbn [log w_main] in A; destruct fresh; injection H as <-; cbn [w_main]; rewrite A, M; reflexivity.
Qed.
