(** C38, continued: a failure keeps the worker from the job's tasks for a minute whatever its strategy. *)
From Coq Require Import List Arith NArith Bool Lia.
From Verif Require Import Base BaseFacts RetryModel WorkerModel WorkerSpec WorkerFacts WorkerInv WorkerProps.
Import ListNotations.
Open Scope nat_scope.

Lemma log_kept : forall tr s s' x, run_from w_step s tr = Some s' -> In x (w_log s) -> In x (w_log s').
Proof.
  intros tr s s' x R I. apply (run_from_inv _ _ w_step (fun s => In x (w_log s))) with tr s; auto. intros a e b A S. destruct (step_acts a e b S) as (new & -> & _). apply in_or_app. now right.
Qed.
(** A poll that finds a failed execution, whatever the strategy, of a job that is not on the worker's list, marks the job. *)
Lemma poll_marks : forall s t sn st sf fs msg s', w_main s = WpRun t sn st -> marked (t_key t) (w_jobs s) = false -> w_step s (WPoll sf (Some (OcErr fs msg))) = Some s' ->
  (exists a d, w_main s' = WpFail t fs msg a d) -> In (w_now s, AMark (t_key t)) (w_log s').
Proof.
  intros s t sn st sf fs msg s' M NM H (a & d & E).
  assert (X : forall u sn' st', w_now u = w_now s -> w_jobs u = w_jobs s -> In (w_now s, AMark (t_key t)) (w_log (poll_exec u t sn' st' (Some (OcErr fs msg))))).
  { intros u sn' st' N J. unfold poll_exec, finish. assert (N1 : w_now (start u t sn' st') = w_now s) by (unfold start; destruct st'; exact N). assert (J1 : w_jobs (start u t sn' st') = w_jobs s) by (unfold start; destruct st'; exact J).
    unfold mark. cbn [w_jobs log]. rewrite J1, NM. cbn. rewrite N1. now left. }
  unfold w_step in H. rewrite M in H. injection H as <-. unfold poll_select in *. destruct sf.
  - unfold poll_signal in *. destruct (negb (sn =? w_ver s) && (w_val s =? abort_all)); [cbn in E; discriminate E|]. destruct (w_lis s); cbn [w_main set_main] in *; try discriminate E; apply X; reflexivity.
  - destruct (exec_main s t sn st (Some (OcErr fs msg)) M) as (_ & _ & _ & _ & X5). rewrite X5 in *. cbn [finished] in *. apply X; reflexivity.
Qed.
(** From then on, whatever happens, every task of the job that the worker looks at within the minute is dropped without being executed. *)
Theorem C38_any_strategy_partial : forall ident tr s t sn st sf fs msg s1 a d t1 s2 t2,
  reaches ident tr s -> w_main s = WpRun t sn st -> marked (t_key t) (w_jobs s) = false ->
  w_step s (WPoll sf (Some (OcErr fs msg))) = Some s1 -> w_main s1 = WpFail t fs msg a d ->
  run_from w_step s1 t1 = Some s2 -> w_main s2 = WpCheck t2 -> t_key t2 = t_key t -> (w_now s2 < w_now s + 60000)%N ->
  exists s3, w_step s2 WCheck = Some s3 /\ w_main s3 = WpSkip t2 IoOpen /\ w_log s3 = (w_now s2, ASkip (cur s2)) :: w_log s2.
Proof.
  intros ident tr s t sn st sf fs msg s1 a d t1 s2 t2 R M NM S E R2 M2 K L.
  assert (RR : reaches ident (tr ++ WPoll sf (Some (OcErr fs msg)) :: t1) s2) by (apply run_from_app; exists s; split; [exact R|]; cbn [run_from]; now rewrite S).
  apply (C36_nacked ident _ s2 t2 (w_now s) RR M2); [|exact L]. rewrite K. apply (log_kept _ _ _ _ R2). eapply poll_marks; eauto.
Qed.
Print Assumptions C38_any_strategy_partial.

(** A failure with Ignore, and 59 seconds later a task of the job. *)
Example C38_any_strategy_case : exists s s1 s2, reaches 99 (firstn 3 ignored) s /\ w_main s = WpRun (mkT 7 1) 0 false /\ marked 7 (w_jobs s) = false /\
  w_step s (WPoll true (Some (OcErr FsIgnore 3))) = Some s1 /\ w_main s1 = WpFail (mkT 7 1) FsIgnore 3 IoOpen FDone /\
  run_from w_step s1 [WEffect SAck; WReturn SAck true; WJoin; WTick 59000; WReap; WTake (mkT 7 2); WFlag] = Some s2 /\ w_main s2 = WpCheck (mkT 7 2) /\ w_now s2 = 59000%N.
Proof. eexists. eexists. eexists. split; [vm_compute; reflexivity|]. repeat (split; [vm_compute; reflexivity|]). vm_compute; reflexivity. Qed.
