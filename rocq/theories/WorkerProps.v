(** C35 to C39 and C53: the worker. *)
From Coq Require Import List Arith NArith Lia Bool.
From Verif Require Import Base BaseFacts RetryModel WorkerModel WorkerSpec WorkerProofs WorkerFacts WorkerInv.
Import ListNotations.
Open Scope nat_scope.

Definition reaches (ident : nat) (tr : list w_event) (s : wstate) : Prop := run_from w_step (w_init ident) tr = Some s.

(** * C35 *)
(** For the [i]-th task taken nothing is done that its outcome does not demand, and each demanded action at most once; once the worker
    waits again, exactly once. *)
Theorem C35_answers : forall ident tr s, reaches ident tr s ->
  (forall i c, i < w_taken s -> tally c i (w_log s) <= demanded (outcome_of i (w_log s)) c) /\
  (forall i c, S i < w_taken s \/ (S i = w_taken s /\ w_main s = WpWait) -> tally c i (w_log s) = demanded (outcome_of i (w_log s)) c) /\
  (forall i c, w_taken s <= i -> tally c i (w_log s) = 0).
Proof.
  intros ident tr s R. pose proof (winv_run _ _ _ R) as [W1 W2 (F & _ & C)]. repeat split.
  - intros i c L. destruct (Nat.eq_dec (S i) (w_taken s)) as [E|E]; [|rewrite W2; lia]. replace i with (pred (w_taken s)) by lia.
    destruct (over (w_main s)) eqn:O; [apply C|]. destruct C as [C1 C2]. rewrite C1, C2. now apply demanded_max.
  - intros i c [L|[L M]]; [now apply W2|]. replace i with (pred (w_taken s)) by lia. rewrite M in C. apply C. lia.
  - intros i c L. apply tally_other. intros p I Q. specialize (W1 p i I Q). lia.
Qed.
Theorem C35_one_answer : forall ident tr s i, reaches ident tr s -> tally CAck i (w_log s) + tally CNack i (w_log s) <= 1 /\ tally COk i (w_log s) + tally CErr i (w_log s) <= 1.
Proof.
  intros ident tr s i R. destruct (C35_answers _ _ _ R) as (A & _ & B). destruct (Nat.lt_ge_cases i (w_taken s)) as [L|L].
  - pose proof (A i CAck L). pose proof (A i CNack L). pose proof (A i COk L). pose proof (A i CErr L).
    destruct (outcome_of i (w_log s)) as [[y|[|] msg|]|]; cbn in *; lia.
  - rewrite !B by lia. lia.
Qed.
(** What is published is the outcome of the task's execution, on the key of the task. *)
Theorem C35_contents : forall ident tr s, reaches ident tr s ->
  (forall tm i k y, In (tm, AOk i k y) (w_log s) -> (exists t tt, In (tt, ATake i t) (w_log s) /\ k = t_key t) /\ outcome_of i (w_log s) = Some (OcOk y)) /\
  (forall tm i k msg, In (tm, AErr i k msg) (w_log s) -> (exists t tt, In (tt, ATake i t) (w_log s) /\ k = t_key t) /\ outcome_of i (w_log s) = Some (OcErr FsTerminate msg)).
Proof. intros ident tr s R. pose proof (cinv_run _ _ _ R) as [_ _ C3 C4]. split; assumption. Qed.
(** One task, one execution. *)
Theorem C35_one_execution : forall ident tr s, reaches ident tr s ->
  (forall i, finishes i (w_log s) <= starts i (w_log s) <= 1) /\
  (forall i t t' tm tm', In (tm, ATake i t) (w_log s) -> In (tm', ATake i t') (w_log s) -> t = t' /\ tm = tm').
Proof. intros ident tr s R. split; [apply (xinv_run _ _ _ R)|apply (rinv_run _ _ _ R)]. Qed.
Print Assumptions C35_answers.
Print Assumptions C35_one_answer.
Print Assumptions C35_contents.
Print Assumptions C35_one_execution.

(** Two tasks: the first succeeds, the second is fatal; the broker works. *)
Definition good : list w_event := [WTake (mkT 7 1); WFlag; WCheck; WPoll true None; WTick 5; WPoll false (Some (OcOk 42));
  WDeclare true; WEffect SAck; WEffect SResult; WReturn SResult true; WReturn SAck true; WClose true; WJoin].
Definition bad : list w_event := [WTake (mkT 8 2); WFlag; WCheck; WPoll true (Some (OcErr FsTerminate 3));
  WDeclare true; WEffect SAbort; WEffect SAck; WEffect SResult; WReturn SResult true; WReturn SAbort true; WReturn SAck true; WClose true; WJoin].
Definition facts (s : wstate) := (w_main s, w_taken s, w_log s).
Example C35_example : option_map facts (run_from w_step (w_init 99) (good ++ bad)) =
  Some (WpWait, 2, [(5%N, AErr 1 8 3); (5%N, ANack 1); (5%N, AAbortAll 1); (5%N, AMark 8); (5%N, AFinish 1 (OcErr FsTerminate 3)); (5%N, AStart 1); (5%N, ATake 1 (mkT 8 2));
     (5%N, AOk 0 7 42); (5%N, AAck 0); (5%N, AFinish 0 (OcOk 42)); (0%N, AStart 0); (0%N, ATake 0 (mkT 7 1))]).
Proof. reflexivity. Qed.

(** * C36 *)
(** A task taken after its job was marked is not started within 60 seconds of the mark. *)
Theorem C36_skipped : forall ident tr s, reaches ident tr s ->
  forall i t tm tt ts, later (tt, ATake i t) (tm, AMark (t_key t)) (w_log s) -> In (ts, AStart i) (w_log s) -> (tm + 60000 <= ts)%N.
Proof. intros ident tr s R i t tm tt ts L I. destruct (rinv_run _ _ _ R) as (_ & _ & _ & A & _). exact (A i t ts tt tm I L). Qed.
(** Such a task, if it is looked at within the time, is nacked without being executed. *)
Theorem C36_nacked : forall ident tr s t tm, reaches ident tr s -> w_main s = WpCheck t -> In (tm, AMark (t_key t)) (w_log s) -> (w_now s < tm + 60000)%N ->
  exists s', w_step s WCheck = Some s' /\ w_main s' = WpSkip t IoOpen /\ w_log s' = (w_now s, ASkip (cur s)) :: w_log s.
Proof.
  intros ident tr s t tm R M I L. unfold w_step. rewrite M. assert (MK : marked (t_key t) (w_jobs s) = true).
  { apply existsb_exists. exists (t_key t, tm). split; [|apply Nat.eqb_refl]. now apply (ti_to s (tinv_run _ _ _ R)). }
  rewrite MK. eexists. split; [reflexivity|]. auto.
Qed.
(** Another abort command within the time is not passed on to the task that is being executed. *)
Theorem C36_once : forall ident tr s s' k tm, reaches ident tr s -> In (tm, AMark k) (w_log s) -> (w_now s < tm + 60000)%N -> w_step s (WCommand k) = Some s' ->
  w_lis s' = w_lis s /\ w_ver s' = w_ver s /\ w_jobs s' = w_jobs s /\ w_log s' = (w_now s, ACommand k) :: w_log s.
Proof.
  intros ident tr s s' k tm R I L H. assert (MK : marked k (w_jobs s) = true).
  { apply existsb_exists. exists (k, tm). split; [|apply Nat.eqb_refl]. now apply (ti_to s (tinv_run _ _ _ R)). }
  unfold w_step in H. destruct (w_main s) eqn:M; try discriminate H; destruct (w_lis s) eqn:LS; try discriminate H; unfold mark in H; cbn [w_jobs log] in H; rewrite MK in H; injection H as <-; cbn; rewrite LS; auto.
Qed.
(** The mark goes away: if the reaper is never more than [delay] late, no mark is older than two minutes plus [delay]. *)
Theorem C36_forgotten : forall ident tr s delay k tm, reaches ident tr s -> (w_now s <= w_reap s + delay)%N -> In (k, tm) (w_jobs s) -> (w_now s <= tm + 120000 + delay)%N.
Proof.
  intros ident tr s delay k tm R P I. destruct (ti_from s (tinv_run _ _ _ R) k tm I) as [_ B]. unfold clear_interval in B. lia.
Qed.
(** A sweep leaves no mark of 60 seconds or more. *)
Theorem C36_sweep : forall s s' k tm, w_step s WReap = Some s' -> In (k, tm) (w_jobs s') -> (w_now s - tm < 60000)%N /\ In (k, tm) (w_jobs s).
Proof.
  intros s s' k tm H I. destruct (kept_step s WReap s' H) as [[_ KR _]|[(d & Q & _)|(_ & _ & _ & _ & J & _)]]; [|discriminate|].
  - exfalso. unfold w_step in H. destruct (w_main s) eqn:M; try discriminate; destruct (w_reap s <=? w_now s)%N eqn:E; try discriminate; apply N.leb_le in E; injection H as <-; cbn in KR; unfold clear_interval in KR; lia.
  - rewrite J in I. apply filter_In in I. destruct I as [I Q]. cbn in Q. apply N.ltb_lt in Q. auto.
Qed.
Print Assumptions C36_skipped.
Print Assumptions C36_nacked.
Print Assumptions C36_once.
Print Assumptions C36_forgotten.
Print Assumptions C36_sweep.

Definition next_task (t : wtask) (r : option outcome) : list w_event := [WTake t; WFlag; WCheck; WPoll true r].
(** Skipped just before 60 seconds have passed... *)
Example C36_example_skip : option_map facts (run_from w_step (w_init 99) (WCommand 7 :: WSend :: WTick 59999 :: WReap :: firstn 3 (next_task (mkT 7 1) None))) =
  Some (WpSkip (mkT 7 1) IoOpen, 1, [(59999%N, ASkip 0); (59999%N, ATake 0 (mkT 7 1)); (0%N, AMark 7); (0%N, ACommand 7)]).
Proof. reflexivity. Qed.
(** ... and executed after a sweep that comes later. *)
Example C36_example_run : option_map facts (run_from w_step (w_init 99) (WCommand 7 :: WSend :: WTick 60000 :: WReap :: next_task (mkT 7 1) None)) =
  Some (WpRun (mkT 7 1) 1 true, 1, [(60000%N, AStart 0); (60000%N, ATake 0 (mkT 7 1)); (0%N, AMark 7); (0%N, ACommand 7)]).
Proof. reflexivity. Qed.
(** The latest that a mark can go: a mark set just after a sweep survives the next sweep and goes with the one after. *)
Example C36_example_two_minutes : option_map w_jobs (run_from w_step (w_init 99) [WReap; WTick 1; WCommand 7; WTick 59999; WReap]) = Some [(7, 1%N)] /\
  option_map w_jobs (run_from w_step (w_init 99) [WReap; WTick 1; WCommand 7; WTick 59999; WReap; WTick 60000; WReap]) = Some [].
Proof. split; reflexivity. Qed.
(** Marking again does not extend the time: an Abort received at 59 s does not protect against a task taken at 60 s. *)
Theorem C36_not_extended : exists tr s ts, reaches 99 tr s /\ In (ts, AStart 0) (w_log s) /\
  later (60000%N, ATake 0 (mkT 7 1)) (59000%N, ACommand 7) (w_log s) /\ (ts < 59000 + 60000)%N.
Proof.
  exists (WCommand 7 :: WSend :: WTick 59000 :: WCommand 7 :: WTick 1000 :: WReap :: next_task (mkT 7 1) None). eexists. exists 60000%N.
  split; [vm_compute; reflexivity|]. cbn [w_log]. split; [now left|]. split; [|lia].
  exists [(60000%N, AStart 0)], [(59000%N, ACommand 7); (0%N, AMark 7); (0%N, ACommand 7)]. split; [reflexivity|now left].
Qed.
Print Assumptions C36_not_extended.

(** * C37 *)
(** Full statement: once the listener has received abort-all the worker finishes no execution that is not already finished when it next
    looks, and starts none. False in two ways. An Abort of a single job that the listener receives before the main loop looks replaces
    abort-all in the watch, and abort-all sent again within the minute is taken for a repetition: the worker carries on as if nothing had
    happened. *)
Definition resolve (y : nat) : list w_event := [WDeclare true; WEffect SAck; WEffect SResult; WReturn SResult true; WReturn SAck true; WClose true; WJoin].
Theorem C37_overwritten_refuted : exists tr s, reaches 99 tr s /\ w_main s = WpWait /\
  (exists tm, later (5000%N, AFinish 0 (OcOk 42)) (tm, ACommand abort_all) (w_log s)) /\
  (exists tm, later (5000%N, AStart 1) (tm, ACommand abort_all) (w_log s) /\ later (5000%N, AOk 1 9 43) (tm, ACommand abort_all) (w_log s)).
Proof.
  exists ([WTake (mkT 7 1); WFlag; WCheck; WPoll true None; WCommand abort_all; WSend; WCommand 8; WSend; WPoll true None;
           WCommand abort_all; WTick 5000; WPoll true (Some (OcOk 42))] ++ resolve 42 ++
          [WTake (mkT 9 2); WFlag; WCheck; WPoll true None; WPoll true (Some (OcOk 43))] ++ resolve 43).
  eexists. split; [vm_compute; reflexivity|]. cbn [w_log w_main]. split; [reflexivity|]. split.
  - exists 0%N. eexists (_ :: _ :: _ :: _ :: _ :: _ :: _ :: []), _. split; [cbn [app]; reflexivity|]. now left.
  - exists 0%N. split.
    + eexists (_ :: _ :: _ :: []), _. split; [cbn [app]; reflexivity|]. do 4 right. now left.
    + eexists [], _. split; [cbn [app]; reflexivity|]. do 7 right. now left.
Qed.
(** And a worker that is idle when abort-all arrives still starts the next task: the execution is polled before the waiter. *)
Theorem C37_idle_refuted : exists tr s, reaches 99 tr s /\ exists tm, later (tm, AStart 0) (0%N, ACommand abort_all) (w_log s) /\ later (tm, AOk 0 7 42) (0%N, ACommand abort_all) (w_log s).
Proof.
  exists ([WCommand abort_all; WSend; WTake (mkT 7 1); WFlag; WCheck; WPoll false (Some (OcOk 42))] ++ resolve 42).
  eexists. split; [vm_compute; reflexivity|]. cbn [w_log]. exists 0%N. split.
  - eexists (_ :: _ :: _ :: []), _. split; [cbn [app]; reflexivity|]. do 2 right. now left.
  - eexists [], _. split; [cbn [app]; reflexivity|]. do 5 right. now left.
Qed.
(** What does hold: while abort-all is the last key sent to the watch, every poll of the main loop ends the execution. Either it was
    finished already and was looked at first, or the worker sees the signal. *)
Theorem C37_partial : forall ident tr s t sn st sf r, reaches ident tr s -> w_main s = WpRun t sn st -> 0 < w_ver s -> w_val s = abort_all ->
  exists s', w_step s (WPoll sf r) = Some s' /\
    if sf then w_main s' = WpTerm t IoOpen /\ w_log s' = (w_now s, ASignal (cur s)) :: w_log s
    else match r with
         | None => w_main s' = WpTerm t IoOpen /\ In (w_now s, ASignal (cur s)) (w_log s')
         | Some o => w_main s' = finished t o
         end.
Proof.
  intros ident tr s t sn st sf r R M V A. pose proof (vinv_run _ _ _ R t sn st M) as [_ VI].
  assert (SN : sn <> w_ver s) by (intros Q; destruct (VI Q) as [Z|Z]; [lia|contradiction]).
  unfold w_step. rewrite M. eexists. split; [reflexivity|]. unfold poll_select. destruct sf.
  - destruct (signal_main s t sn st M) as (_ & _ & _ & _ & [(S4 & _ & _ & S5)|([S4|S4] & _)]); try contradiction. rewrite S4. auto.
  - destruct (exec_main s t sn st r M) as (X1 & X2 & X3 & X4 & X5). rewrite X5. destruct r as [o|].
    + destruct o; exact X5.
    + destruct (signal_main _ t sn true X5) as (_ & _ & _ & _ & [(S4 & _ & _ & S5)|([S4|S4] & _)]); [|rewrite X2 in S4; contradiction|rewrite X3 in S4; contradiction].
      split; [exact S4|]. rewrite S5. left. rewrite (k_now _ _ (kept_exec s t sn st None)). unfold cur. now rewrite X1.
Qed.
(** After the signal the worker does nothing but nack the task it has (the listener may still note commands). *)
Theorem C37_silent : forall ident tr s tm a tm' i, reaches ident tr s -> later (tm, a) (tm', ASignal i) (w_log s) ->
  (exists j, a = ANack j) \/ (exists k, a = ACommand k) \/ (exists k, a = AMark k).
Proof. intros ident tr s tm a tm' i R L. destruct (sinv_run _ _ _ R) as [_ S]. eauto. Qed.
(** The signal is abort-all, received by the listener. *)
Theorem C37_cause : forall ident tr s tm i, reaches ident tr s -> In (tm, ASignal i) (w_log s) -> exists tm', later (tm, ASignal i) (tm', ACommand abort_all) (w_log s).
Proof. intros ident tr s tm i R I. exact (ginv_run _ _ _ R tm i I). Qed.
(** The operation can see it: the flag it was given, [abort_worker_execution] 744, is set at the signal and only then. *)
Definition is_signal (p : N * wact) : bool := match snd p with ASignal _ => true | _ => false end.
Definition told (s : wstate) : Prop := w_flag s = existsb is_signal (w_log s).
Lemma mark_told : forall s k, told s -> told (fst (mark s k)).
Proof. intros s k T. unfold mark. now destruct (marked k (w_jobs s)). Qed.
Lemma signal_told : forall s t sn st, told s -> told (poll_signal s t sn st).
Proof. intros s t sn st T. unfold poll_signal. destruct (_ && _); [reflexivity|]. now destruct (w_lis s). Qed.
Lemma exec_told : forall s t sn st r, told s -> told (poll_exec s t sn st r).
Proof.
  intros s t sn st r T. assert (S : told (start s t sn st)) by (unfold start; now destruct st). unfold poll_exec. destruct r as [o|]; [|exact S]. unfold finish.
  destruct o as [y|fs msg|]; [exact S| |exact S]. exact (mark_told (log (start s t sn st) (AFinish (cur (start s t sn st)) (OcErr fs msg))) (t_key t) S).
Qed.
Lemma told_step : forall s e s', told s -> w_step s e = Some s' -> told s'.
Proof.
  intros s e s' T H. destruct e as [d| |k| | |t| | | |sf r|sl|sl ok|ok|ok| |].
  - injection H as <-. exact T.
  - cbn [w_step] in H. destruct (w_main s); try discriminate H; (destruct (w_reap s <=? w_now s)%N; [|discriminate H]); injection H as <-; exact T.
  - cbn [w_step] in H. assert (X : told (fst (mark (log s (ACommand k)) k))) by (apply mark_told; exact T). destruct (mark (log s (ACommand k)) k) as [s1 fresh]. cbn [fst] in X.
    destruct (w_main s); try discriminate H; (destruct (w_lis s); try discriminate H); injection H as <-; destruct fresh; exact X.
  - cbn [w_step] in H. destruct (w_main s); try discriminate H; (destruct (w_lis s); try discriminate H); injection H as <-; exact T.
  - cbn [w_step] in H. destruct (w_main s); try discriminate H; (destruct (w_lis s); try discriminate H); injection H as <-; exact T.
  - cbn [w_step] in H. destruct (w_main s); try discriminate H; injection H as <-; exact T.
  - cbn [w_step] in H. destruct (w_main s); try discriminate H; injection H as <-; exact T.
  - cbn [w_step] in H. destruct (w_main s); try discriminate H; injection H as <-; exact T.
  - cbn [w_step] in H. destruct (w_main s); try discriminate H; injection H as <-; destruct (marked _ _); exact T.
  - cbn [w_step] in H. destruct (w_main s) as [| | | |t sn st| | | | |]; try discriminate H. injection H as <-. unfold poll_select. destruct sf.
    + pose proof (signal_told s t sn st T) as W1. destruct (w_main (poll_signal s t sn st)); try exact W1. now apply exec_told.
    + pose proof (exec_told s t sn st r T) as W1. destruct (w_main (poll_exec s t sn st r)); try exact W1. now apply signal_told.
  - cbn [w_step] in H. destruct sl; destruct (w_main s) as [| | |t a|t sn st|t y a d|t fs msg a d|t a|t u|x]; try discriminate H; try (destruct d; try discriminate H);
      (match type of H with option_map _ ?x = _ => destruct x; [|discriminate H] end); injection H as <-; exact T.
  - cbn [w_step] in H. destruct sl, ok; destruct (w_main s) as [| | |t a|t sn st|t y a d|t fs msg a d|t a|t u|x]; try discriminate H; try (destruct d; try discriminate H); try (destruct a; try discriminate H); try (destruct ab; try discriminate H);
      try (destruct er; try discriminate H); try (destruct p; try discriminate H); cbn in H; try discriminate H; try (injection H as <-; exact T).
  - cbn [w_step] in H. destruct (w_main s) as [| | |t a|t sn st|t y a d|t fs msg a d|t a|t u|x]; try discriminate H; (destruct d; try discriminate H); injection H as <-; destruct ok; exact T.
  - cbn [w_step] in H. destruct (w_main s) as [| | |t a|t sn st|t y a d|t fs msg a d|t a|t u|x]; try discriminate H; (destruct d; try discriminate H); injection H as <-; destruct ok; exact T.
  - cbn [w_step] in H. destruct (w_main s) as [| | |t a|t sn st|t y a d|t fs msg a d|t a|t u|x]; try discriminate H; (destruct a; try discriminate H); (destruct d; try discriminate H); injection H as <-; exact T.
  - cbn [w_step] in H. destruct (w_main s); try discriminate H. destruct (_ <=? _)%N; [|discriminate H]. injection H as <-; exact T.
Qed.
Theorem C37_told : forall ident tr s, reaches ident tr s -> (w_flag s = true <-> exists tm i, In (tm, ASignal i) (w_log s)).
Proof.
  intros ident tr s R. assert (T : told s) by (eapply (run_from_inv _ _ w_step told); [exact told_step| |exact R]; reflexivity). rewrite T. split.
  - intros X. apply existsb_exists in X. destruct X as ([tm a] & I & X). destruct a; try discriminate X. eauto.
  - intros (tm & i & I). apply existsb_exists. now exists (tm, ASignal i).
Qed.
Print Assumptions C37_told.
Print Assumptions C37_overwritten_refuted.
Print Assumptions C37_idle_refuted.
Print Assumptions C37_partial.
Print Assumptions C37_silent.
Print Assumptions C37_cause.
(** A worker interrupted in the middle of an execution. *)
Example C37_example : option_map facts (run_from w_step (w_init 99) [WTake (mkT 7 1); WFlag; WCheck; WPoll true None; WCommand abort_all; WSend; WPoll true None;
    WEffect SAck; WReturn SAck true; WTick 10000; WWake]) =
  Some (WpStop EndOk, 1, [(0%N, ANack 0); (0%N, ASignal 0); (0%N, AMark 0); (0%N, ACommand 0); (0%N, AStart 0); (0%N, ATake 0 (mkT 7 1))]).
Proof. reflexivity. Qed.

(** * C38 *)
(** Full statement: after a task failed with Ignore the other tasks of the job are executed. False: the job is marked terminated whatever
    the strategy, so this worker skips, and by the nack drops, the tasks of the job it takes in the next minute. *)
Definition ignored : list w_event := [WTake (mkT 7 1); WFlag; WCheck; WPoll true (Some (OcErr FsIgnore 3)); WEffect SAck; WReturn SAck true; WJoin].
Theorem C38_refuted : exists tr s, reaches 99 tr s /\ w_main s = WpWait /\ outcome_of 0 (w_log s) = Some (OcErr FsIgnore 3) /\
  In (0%N, ATake 0 (mkT 7 1)) (w_log s) /\ In (1000%N, ATake 1 (mkT 7 2)) (w_log s) /\ starts 1 (w_log s) = 0 /\ tally CNack 1 (w_log s) = 1 /\
  forall tm k, ~ In (tm, ACommand k) (w_log s).
Proof.
  exists (ignored ++ [WTick 1000; WTake (mkT 7 2); WFlag; WCheck; WEffect SAck; WReturn SAck true]). eexists. split; [vm_compute; reflexivity|]. cbn [w_log w_main].
  split; [reflexivity|]. split; [reflexivity|]. split; [cbn; tauto|]. split; [cbn; tauto|]. split; [reflexivity|]. split; [reflexivity|].
  intros tm k I. cbn in I. repeat destruct I as [I|I]; try discriminate. exact I.
Qed.
(** What does hold: a task is skipped only if its own job was marked before, and a job is marked only by an Abort received for that very key
    or by a failed execution of one of its own tasks. *)
Theorem C38_partial : forall ident tr s tm i, reaches ident tr s -> In (tm, ASkip i) (w_log s) ->
  exists t tt tm', In (tt, ATake i t) (w_log s) /\ later (tm, ASkip i) (tm', AMark (t_key t)) (w_log s) /\
    (In (tm', ACommand (t_key t)) (w_log s) \/
     exists j t' fs msg tt', In (tm', AFinish j (OcErr fs msg)) (w_log s) /\ In (tt', ATake j t') (w_log s) /\ t_key t' = t_key t).
Proof.
  intros ident tr s tm i R I. pose proof (cinv_run _ _ _ R) as [C1 C2 _ _]. destruct (C2 tm i I) as (t & tt & k & tm' & A & -> & B).
  exists t, tt, tm'. split; [exact A|]. split; [exact B|]. apply C1. apply (later_in _ _ _ B).
Qed.
Print Assumptions C38_refuted.
Print Assumptions C38_partial.
(** A task of another job is executed after the failure. *)
Example C38_example : option_map facts (run_from w_step (w_init 99) (ignored ++ next_task (mkT 8 2) None)) =
  Some (WpRun (mkT 8 2) 0 true, 2, [(0%N, AStart 1); (0%N, ATake 1 (mkT 8 2)); (0%N, ANack 0); (0%N, AMark 7); (0%N, AFinish 0 (OcErr FsIgnore 3)); (0%N, AStart 0); (0%N, ATake 0 (mkT 7 1))]).
Proof. reflexivity. Qed.

(** * C39 *)
(** A crash is the end of a run at any state; the broker then delivers again what is neither acked nor nacked. *)
Definition redelivered (i : nat) (l : wlog) : Prop := tally CAck i l = 0 /\ tally CNack i l = 0.
Definition published (i : nat) (l : wlog) : Prop := tally COk i l = 1 \/ tally CErr i l = 1.
(** Full statement: at each state every task taken is redelivered or its result has been published. False: ack and publication run
    concurrently, and the ack may come first; in the same way the nack of a failed task may come before the error is published. *)
Theorem C39_ack_first_refuted : exists tr s, reaches 99 tr s /\ outcome_of 0 (w_log s) = Some (OcOk 42) /\ ~ redelivered 0 (w_log s) /\ ~ published 0 (w_log s).
Proof.
  exists [WTake (mkT 7 1); WFlag; WCheck; WPoll true (Some (OcOk 42)); WEffect SAck]. eexists. split; [vm_compute; reflexivity|]. cbn [w_log]. split; [reflexivity|]. split.
  - intros [Q _]. discriminate.
  - intros [Q|Q]; discriminate.
Qed.
Theorem C39_nack_first_refuted : exists tr s, reaches 99 tr s /\ outcome_of 0 (w_log s) = Some (OcErr FsTerminate 3) /\ ~ redelivered 0 (w_log s) /\ ~ published 0 (w_log s).
Proof.
  exists [WTake (mkT 7 1); WFlag; WCheck; WPoll true (Some (OcErr FsTerminate 3)); WEffect SAck]. eexists. split; [vm_compute; reflexivity|]. cbn [w_log]. split; [reflexivity|]. split.
  - intros [_ Q]. discriminate.
  - intros [Q|Q]; discriminate.
Qed.
(** Not only a crash: if the publication fails after the ack took effect, the worker stops with an error and the task is lost for good. *)
Theorem C39_error_refuted : exists tr s, reaches 99 tr s /\ w_main s = WpStop EndErr /\ outcome_of 0 (w_log s) = Some (OcOk 42) /\ ~ redelivered 0 (w_log s) /\ ~ published 0 (w_log s).
Proof.
  exists [WTake (mkT 7 1); WFlag; WCheck; WPoll true (Some (OcOk 42)); WEffect SAck; WDeclare false]. eexists. split; [vm_compute; reflexivity|]. cbn [w_log w_main]. split; [reflexivity|]. split; [reflexivity|]. split.
  - intros [Q _]. discriminate.
  - intros [Q|Q]; discriminate.
Qed.
(** What does hold: a task that is neither redelivered nor published was dropped on purpose (not executed, or failed with Ignore), or it is the
    last one taken and the worker stopped between the answer to the broker and the publication. *)
Theorem C39_partial : forall ident tr s i, reaches ident tr s -> i < w_taken s -> redelivered i (w_log s) \/ published i (w_log s) \/
  (tally CNack i (w_log s) = 1 /\ (outcome_of i (w_log s) = None \/ exists msg, outcome_of i (w_log s) = Some (OcErr FsIgnore msg))) \/
  (S i = w_taken s /\ w_main s <> WpWait /\ exists o, outcome_of i (w_log s) = Some o /\ ((exists y, o = OcOk y) \/ (exists msg, o = OcErr FsTerminate msg))).
Proof.
  intros ident tr s i R L. destruct (C35_answers _ _ _ R) as (A & B & _). pose proof (fun c => A i c L) as A'. unfold redelivered, published.
  assert (Z : (S i < w_taken s \/ (S i = w_taken s /\ w_main s = WpWait)) \/ (S i = w_taken s /\ w_main s <> WpWait)).
  { destruct (Nat.eq_dec (S i) (w_taken s)) as [E|E]; [|left; left; lia]. destruct (w_main s); try (right; split; [exact E|discriminate]). left. right. auto. }
  pose proof (A' CAck) as A1. pose proof (A' CNack) as A2. pose proof (A' COk) as A3. pose proof (A' CErr) as A4. pose proof (fun c P => B i c P) as B'.
  destruct (outcome_of i (w_log s)) as [[y|[|] msg|]|] eqn:O; cbn in A1, A2, A3, A4.
  - destruct Z as [Z|Z]; [right; left; left; apply (B' COk Z)|]. right. right. right. destruct Z. repeat split; auto. exists (OcOk y). split; [reflexivity|]. left. eauto.
  - destruct Z as [Z|Z]; [right; left; right; apply (B' CErr Z)|]. right. right. right. destruct Z. repeat split; auto. exists (OcErr FsTerminate msg). split; [reflexivity|]. right. eauto.
  - destruct (Nat.eq_dec (tally CNack i (w_log s)) 0) as [Q|Q]; [left; lia|]. right. right. left. split; [lia|]. right. eauto.
  - left. lia.
  - destruct (Nat.eq_dec (tally CNack i (w_log s)) 0) as [Q|Q]; [left; lia|]. right. right. left. split; [lia|]. now left.
Qed.
Print Assumptions C39_ack_first_refuted.
Print Assumptions C39_nack_first_refuted.
Print Assumptions C39_error_refuted.
Print Assumptions C39_partial.

(** * C53 *)
(** Full statement: a fatal failure of a task leaves the tasks of other jobs alone. False: the failure is announced with abort-all, which
    every worker receives, this one too. The next task, of another job, is dropped and the worker stops. *)
Theorem C53_refuted : exists tr s, reaches 99 tr s /\ w_main s = WpStop EndOk /\
  outcome_of 0 (w_log s) = Some (OcErr FsTerminate 3) /\ In (0%N, ATake 0 (mkT 8 2)) (w_log s) /\ later (0%N, ACommand abort_all) (0%N, AAbortAll 0) (w_log s) /\
  In (0%N, ATake 1 (mkT 7 1)) (w_log s) /\ outcome_of 1 (w_log s) = None /\ tally CNack 1 (w_log s) = 1 /\
  forall tm k, In (tm, ACommand k) (w_log s) -> k = abort_all.
Proof.
  exists (bad ++ [WCommand abort_all; WSend] ++ next_task (mkT 7 1) None ++ [WEffect SAck; WReturn SAck true; WTick 10000; WWake]). eexists. split; [vm_compute; reflexivity|].
  cbn [w_log w_main]. split; [reflexivity|]. split; [reflexivity|]. split; [cbn; tauto|]. split; [|split; [cbn; tauto|]; split; [reflexivity|]; split; [reflexivity|]].
  - eexists (_ :: _ :: _ :: _ :: []), _. split; [cbn [app]; reflexivity|]. cbn. tauto.
  - intros tm k I. cbn in I. repeat destruct I as [I|I]; try discriminate; try contradiction. injection I as _ <-. reflexivity.
Qed.
(** What does hold: a failed task by itself, without a command, keeps no task of another job from being executed. *)
Theorem C53_partial : forall ident tr s t, reaches ident tr s -> w_main s = WpCheck t ->
  (forall tm, ~ In (tm, ACommand (t_key t)) (w_log s)) ->
  (forall j t' fs msg tm tm', In (tm, ATake j t') (w_log s) -> In (tm', AFinish j (OcErr fs msg)) (w_log s) -> t_key t' <> t_key t) ->
  exists s', w_step s WCheck = Some s' /\ w_main s' = WpRun t 0 false.
Proof.
  intros ident tr s t R M NC NF. unfold w_step. rewrite M. destruct (marked (t_key t) (w_jobs s)) eqn:MK; [|eexists; split; reflexivity].
  exfalso. apply existsb_exists in MK. destruct MK as ([k tm] & J & E). cbn in E. apply Nat.eqb_eq in E. subst k.
  destruct (ti_from s (tinv_run _ _ _ R) _ _ J) as [I _]. destruct (ci_mark s (cinv_run _ _ _ R) _ _ I) as [Q|(j & t' & fs & msg & tt & A & B & C)].
  - exact (NC _ Q).
  - exact (NF j t' fs msg tt tm B A C).
Qed.
Print Assumptions C53_refuted.
Print Assumptions C53_partial.
Example C53_example : exists s, reaches 99 (bad ++ firstn 2 (next_task (mkT 7 1) None)) s /\ w_main s = WpCheck (mkT 7 1) /\ tally CAbort 0 (w_log s) = 1.
Proof. eexists. split; [vm_compute; reflexivity|]. split; reflexivity. Qed.

(** * C54 *)
(** Every step of the main loop outside the select brings it closer to waiting, and if the broker operations succeed there always is one. *)
Definition io_left (p : io) : nat := match p with IoOpen => 2 | IoEffect => 1 | IoOk => 0 end.
Definition todo (p : wphase) : nat :=
  match p with
  | WpWait | WpStop _ | WpRun _ _ _ => 0
  | WpFlag _ => 5
  | WpCheck _ => 4
  | WpSkip _ a => 1 + io_left a
  | WpOk _ _ a d => 1 + io_left a + match d with ODecl => 4 | OPub p => 1 + io_left p | OClose => 1 | ODone => 0 end
  | WpFail _ _ _ a d => 1 + io_left a + match d with FDecl => 7 | FPub ab er => 2 + io_left ab + io_left er | FClose => 1 | FDone => 0 end
  | WpTerm _ a => 2 + io_left a
  | WpSleep _ _ => 1
  end.
Definition main_event (e : w_event) : bool := match e with WTick _ | WReap | WCommand _ | WSend | WHangUp => false | _ => true end.
(** Operations that fail; an operation fails by returning an error. *)
Definition fails (e : w_event) : bool := match e with WReturn _ ok | WDeclare ok | WClose ok => negb ok | _ => false end.
Definition busy (p : wphase) : bool := match p with WpWait | WpStop _ | WpRun _ _ _ => false | _ => true end.

Lemma aside_main : forall s e s', w_step s e = Some s' -> main_event e = false -> w_main s' = w_main s.
Proof.
  intros s e s' H ME. destruct e as [d| |k| | |t| | | |sf r|sl|sl ok|ok|ok| |]; try discriminate; unfold w_step in H.
  - injection H as <-. reflexivity.
  - destruct (w_main s) eqn:M; try discriminate; destruct (w_reap s <=? w_now s)%N eqn:E; try discriminate; injection H as <-; cbn; rewrite ?M; reflexivity.
  - destruct (mark_state (log s (ACommand k)) k) as (js & _ & _ & _ & _ & _ & _ & _ & _ & A & _).
    assert (K : (let '(s1, fresh) := mark (log s (ACommand k)) k in
          Some (if fresh then mkW (w_now s1) (w_jobs s1) (w_reap s1) (LisSend k) (w_ver s1) (w_val s1) (w_flag s1) (w_main s1) (w_taken s1) (w_log s1) else s1)) = Some s').
    { destruct (w_main s); try discriminate; destruct (w_lis s); try discriminate; exact H. }
    destruct (mark (log s (ACommand k)) k) as [s1 fresh]. cbn [fst] in *. destruct fresh; injection K as <-; exact A.
  - destruct (w_main s) eqn:M; try discriminate; destruct (w_lis s) eqn:LI; try discriminate; injection H as <-; cbn; rewrite ?M; reflexivity.
  - destruct (w_main s) eqn:M; try discriminate; destruct (w_lis s) eqn:LI; try discriminate; injection H as <-; cbn; rewrite ?M; reflexivity.
Qed.
Theorem C54_closer : forall s e s', w_step s e = Some s' -> busy (w_main s) = true -> main_event e = true -> todo (w_main s') < todo (w_main s).
Proof.
  intros s e s' H BU ME. destruct e as [d| |k| | |t| | | |sf r|sl|sl ok|ok|ok| |]; try discriminate; clear ME; unfold w_step in H.
  all: destruct (w_main s) as [|t1|t1|t1 a|t1 sn1 st1|t1 y a d|t1 fs msg a d|t1 a|t1 u|en] eqn:M; try discriminate; try (destruct sl; discriminate).
  - injection H as <-. destruct (w_flag s); cbn; lia.
  - injection H as <-. destruct (marked _ _); cbn; lia.
  - destruct sl; try discriminate. destruct a; try discriminate. injection H as <-. cbn. lia.
  - destruct sl; try discriminate; [destruct a; try discriminate; injection H as <-; cbn; lia|]. destruct d as [|p| |]; try discriminate. destruct p; try discriminate. injection H as <-. cbn. lia.
  - destruct sl; try discriminate; [destruct a; try discriminate; injection H as <-; cbn; lia| |]; (destruct d as [|ab er| |]; try discriminate).
    + destruct er; try discriminate. injection H as <-. cbn. lia.
    + destruct ab; try discriminate. injection H as <-. cbn. lia.
  - destruct sl; try discriminate. destruct a; try discriminate. injection H as <-. cbn. lia.
  - destruct sl; try discriminate. destruct ok; [destruct a; try discriminate|]; injection H as <-; cbn; lia.
  - destruct sl; try discriminate.
    + destruct a; try discriminate; (destruct ok; [try discriminate|]); injection H as <-; cbn; lia.
    + destruct d as [|p| |]; try discriminate. destruct ok; [destruct p; try discriminate|]; injection H as <-; cbn; lia.
  - destruct sl; try discriminate.
    + destruct a; try discriminate; (destruct ok; [try discriminate|]); injection H as <-; cbn; lia.
    + destruct d as [|ab er| |]; try discriminate. destruct er; try discriminate; (destruct ok; [try discriminate|]); injection H as <-; cbn; try lia. destruct ab; cbn; lia.
    + destruct d as [|ab er| |]; try discriminate. destruct ab; try discriminate; (destruct ok; [try discriminate|]); injection H as <-; cbn; try lia. destruct er; cbn; lia.
  - destruct sl; try discriminate. destruct ok; [destruct a; try discriminate|]; injection H as <-; cbn; lia.
  - destruct d; try discriminate; injection H as <-; destruct ok; cbn; lia.
  - destruct d; try discriminate; injection H as <-; destruct ok; cbn; lia.
  - destruct d; try discriminate; injection H as <-; destruct ok; cbn; lia.
  - destruct d; try discriminate; injection H as <-; destruct ok; cbn; lia.
  - destruct a; try discriminate; destruct d; try discriminate; injection H as <-; cbn; lia.
  - destruct a; try discriminate; destruct d; try discriminate; injection H as <-; cbn; lia.
  - destruct (u <=? w_now s)%N; try discriminate. injection H as <-. cbn. lia.
Qed.
(** Operations that have returned are not waited for. *)
Definition sound (p : wphase) : Prop :=
  match p with
  | WpSkip _ a | WpTerm _ a => a <> IoOk
  | WpOk _ _ _ (OPub p) => p <> IoOk
  | WpFail _ _ _ _ (FPub ab er) => ab <> IoOk \/ er <> IoOk
  | _ => True
  end.
Lemma sound_step : forall s e s', sound (w_main s) -> w_step s e = Some s' -> sound (w_main s').
Proof.
  intros s e s' SO H. destruct (main_event e) eqn:ME; [|now rewrite (aside_main s e s' H ME)].
  destruct e as [d| |k| | |t| | | |sf r|sl|sl ok|ok|ok| |]; try discriminate; clear ME; unfold w_step in H.
  all: destruct (w_main s) as [|t1|t1|t1 a|t1 sn1 st1|t1 y a d|t1 fs msg a d|t1 a|t1 u|en] eqn:M; try discriminate; try (destruct sl; discriminate).
  - injection H as <-. exact Logic.I.
  - injection H as <-. exact Logic.I.
  - injection H as <-. destruct (w_flag s); exact Logic.I.
  - injection H as <-. destruct (marked _ _); cbn; [discriminate|exact Logic.I].
  - injection H as <-. unfold poll_select. destruct sf.
    + destruct (signal_main s t1 sn1 st1 M) as (_ & _ & _ & _ & [(S4 & _)|(_ & _ & [S6|[S6 _]])]).
      * rewrite S4. cbn iota. rewrite S4. discriminate.
      * rewrite S6. destruct (exec_main _ t1 (w_ver s) st1 r S6) as (_ & _ & _ & _ & Y). rewrite Y. destruct r as [[y|[|] msg|]|]; exact Logic.I.
      * rewrite S6. cbn iota. rewrite S6. exact Logic.I.
    + destruct (exec_main s t1 sn1 st1 r M) as (_ & _ & _ & _ & Y). rewrite Y. destruct r as [o|].
      * destruct o as [y|[|] msg|]; cbn [finished]; rewrite Y; exact Logic.I.
      * destruct (signal_main _ t1 sn1 true Y) as (_ & _ & _ & _ & [(S4 & _)|(_ & _ & [S6|[S6 _]])]); [rewrite S4; discriminate|rewrite S6; exact Logic.I|rewrite S6; exact Logic.I].
  - destruct sl; try discriminate. destruct a; try discriminate. injection H as <-. discriminate.
  - destruct sl; try discriminate; [destruct a; try discriminate; injection H as <-; exact SO|]. destruct d as [|p| |]; try discriminate. destruct p; try discriminate. injection H as <-. discriminate.
  - destruct sl; try discriminate; [destruct a; try discriminate; injection H as <-; exact SO| |]; (destruct d as [|ab er| |]; try discriminate).
    + destruct er; try discriminate. injection H as <-. right. discriminate.
    + destruct ab; try discriminate. injection H as <-. left. discriminate.
  - destruct sl; try discriminate. destruct a; try discriminate. injection H as <-. discriminate.
  - destruct sl; try discriminate. destruct ok; [destruct a; try discriminate|]; injection H as <-; exact Logic.I.
  - destruct sl; try discriminate.
    + destruct a; try discriminate; (destruct ok; [try discriminate|]); injection H as <-; (exact SO || exact Logic.I).
    + destruct d as [|p| |]; try discriminate. destruct ok; [destruct p; try discriminate|]; injection H as <-; exact Logic.I.
  - destruct sl; try discriminate.
    + destruct a; try discriminate; (destruct ok; [try discriminate|]); injection H as <-; (exact SO || exact Logic.I).
    + destruct d as [|ab er| |]; try discriminate. destruct er; try discriminate; (destruct ok; [try discriminate|]); injection H as <-; try exact Logic.I. destruct ab; cbn; auto; left; discriminate.
    + destruct d as [|ab er| |]; try discriminate. destruct ab; try discriminate; (destruct ok; [try discriminate|]); injection H as <-; try exact Logic.I. destruct er; cbn; auto; right; discriminate.
  - destruct sl; try discriminate. destruct ok; [destruct a; try discriminate|]; injection H as <-; exact Logic.I.
  - destruct d; try discriminate; injection H as <-; destruct ok; cbn; auto; discriminate.
  - destruct d; try discriminate; injection H as <-; destruct ok; cbn; auto. left. discriminate.
  - destruct d; try discriminate; injection H as <-; destruct ok; exact Logic.I.
  - destruct d; try discriminate; injection H as <-; destruct ok; exact Logic.I.
  - destruct a; try discriminate; destruct d; try discriminate; injection H as <-; exact Logic.I.
  - destruct a; try discriminate; destruct d; try discriminate; injection H as <-; exact Logic.I.
  - destruct (u <=? w_now s)%N; try discriminate. injection H as <-. exact Logic.I.
Qed.
Theorem C54_never_stuck : forall ident tr s, reaches ident tr s -> busy (w_main s) = true ->
  (exists e s', main_event e = true /\ fails e = false /\ w_step s e = Some s') \/ (exists t u, w_main s = WpSleep t u /\ (w_now s < u)%N).
Proof.
  intros ident tr s R BU. assert (SO : sound (w_main s)) by exact (run_from_inv _ _ w_step (fun s => sound (w_main s)) sound_step tr (w_init ident) s Logic.I R).
  destruct (w_main s) as [|t1|t1|t1 a|t1 sn1 st1|t1 y a d|t1 fs msg a d|t1 a|t1 u|en] eqn:M; try discriminate.
  - left. exists WFlag. unfold w_step. rewrite M. eauto.
  - left. exists WCheck. unfold w_step. rewrite M. eauto.
  - left. destruct a; [exists (WEffect SAck)|exists (WReturn SAck true)|now destruct SO]; unfold w_step; rewrite M; cbn; eauto.
  - left. destruct a; [exists (WEffect SAck)|exists (WReturn SAck true)|]; try (unfold w_step; rewrite M; cbn; eauto; fail).
    destruct d as [|p| |]; [exists (WDeclare true)|destruct p; [exists (WEffect SResult)|exists (WReturn SResult true)|now destruct SO]|exists (WClose true)|exists WJoin]; unfold w_step; rewrite M; cbn; eauto.
  - left. destruct a; [exists (WEffect SAck)|exists (WReturn SAck true)|]; try (unfold w_step; rewrite M; cbn; eauto; fail).
    destruct d as [|ab er| |]; [exists (WDeclare true)| |exists (WClose true)|exists WJoin]; try (unfold w_step; rewrite M; cbn; eauto; fail).
    destruct ab; [exists (WEffect SAbort)|exists (WReturn SAbort true)|]; try (unfold w_step; rewrite M; cbn; eauto; fail).
    destruct er; [exists (WEffect SResult)|exists (WReturn SResult true)|destruct SO as [SO|SO]; now destruct SO]; unfold w_step; rewrite M; cbn; eauto.
  - left. destruct a; [exists (WEffect SAck)|exists (WReturn SAck true)|now destruct SO]; unfold w_step; rewrite M; cbn; eauto.
  - destruct (N.lt_ge_cases (w_now s) u) as [L|L]; [right; eauto|]. left. exists WWake. unfold w_step. rewrite M. apply N.leb_le in L. rewrite L. eauto.
Qed.
(** The helper tasks do not move the main loop. *)
Theorem C54_undisturbed : forall s e s', w_step s e = Some s' -> main_event e = false -> w_main s' = w_main s.
Proof. exact aside_main. Qed.
Print Assumptions C54_closer.
Print Assumptions C54_never_stuck.
Print Assumptions C54_undisturbed.
Example C54_example : option_map (fun s => (todo (w_main s), busy (w_main s))) (run_from w_step (w_init 99) (firstn 4 bad)) = Some (10, true) /\
  option_map (fun s => (todo (w_main s), busy (w_main s))) (run_from w_step (w_init 99) bad) = Some (0, false).
Proof. split; reflexivity. Qed.
