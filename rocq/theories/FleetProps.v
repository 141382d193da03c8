(** Theorems about fleets of workers: C59 to C62. *)
From Coq Require Import List Arith NArith Lia Bool Permutation.
From Verif Require Import Base BaseFacts RetryModel WorkerModel WorkerSpec WorkerProofs WorkerFacts WorkerInv WorkerProps SystemModel SystemProofs FleetModel FleetSpec FleetProofs.
Import ListNotations.
Open Scope nat_scope.

(** * C59 *)
(** In memory: what a worker has received and what waits in its queue are together the commands published since it started, in that order;
    the first one to start also gets those published before. *)
Theorem C59_in_memory : forall tr1 s1 ident tr2 s m, f_run Copies tr1 = Some s1 -> run_from (f_step Copies) s1 (FStart ident :: tr2) = Some s ->
  nth_error (fl_mem s) (length (fl_mem s1)) = Some m ->
  exists later, fl_pub s = fl_pub s1 ++ later /\ received m ++ m_box m = (match fl_mem s1 with [] => fl_pub s1 | _ => [] end) ++ later.
Proof.
  intros tr1 s1 ident tr2 s m H1 H2 NM. cbn [run_from] in H2. destruct (f_step Copies s1 (FStart ident)) as [s0|] eqn:S0; [|discriminate].
  destruct (grow_run _ _ _ _ H2) as [(a & A) (b & B)]. destruct (cinv_run _ _ H1) as (_ & QE & QN).
  assert (R : f_run Copies (tr1 ++ FStart ident :: tr2) = Some s). { apply run_from_app. exists s1. split; [exact H1|]. cbn [run_from]. now rewrite S0. }
  destruct (cinv_run _ _ R) as (C & _). destruct (C m (nth_error_In _ _ NM)) as [E LE]. cbn in S0. injection S0 as <-. cbn [fl_mem fl_pub] in A, B.
  assert (SN : m_since m = length (fl_pub s1) - length (fl_queue s1)).
  { assert (X : nth_error (map m_since (fl_mem s)) (length (fl_mem s1)) = Some (m_since m)) by now rewrite nth_error_map, NM.
    rewrite A, map_app, <- app_assoc, nth_error_app2, map_length, Nat.sub_diag in X by (rewrite map_length; lia). cbn in X. congruence. }
  exists b. split; [exact B|]. rewrite E, SN, B. destruct (fl_mem s1) as [|m0 ms].
  - rewrite (QE eq_refl), Nat.sub_diag. reflexivity.
  - rewrite (QN) by discriminate. cbn [length]. rewrite Nat.sub_0_r, skipn_app, skipn_all, Nat.sub_diag. reflexivity.
Qed.
(** And what waits for a worker it can receive, unless it is down, is stopped, or has yet to pass on the command before. *)
Theorem C59_ready : forall tr s w m k b, f_run Copies tr = Some s -> nth_error (fl_mem s) w = Some m -> m_up m = true -> m_box m = k :: b -> w_lis (m_w m) = LisIdle ->
  (forall x, w_main (m_w m) <> WpStop x) -> exists s' m', f_step Copies s (FCommand w) = Some s' /\ nth_error (fl_mem s') w = Some m' /\ received m' = received m ++ [k] /\ m_box m' = b.
Proof.
  intros tr s w m k b R W U B L NS. assert (E : exists ws, w_step (m_w m) (WCommand k) = Some ws).
  { unfold w_step. rewrite L. destruct (mark (log (m_w m) (ACommand k)) k) as [s1 fresh]. destruct (w_main (m_w m)); try (eexists; reflexivity). exfalso. exact (NS _ eq_refl). }
  destruct E as (ws & E). cbn [f_step]. rewrite W, U, B, E. cbn [option_map]. eexists _, _. split; [reflexivity|]. cbn [fl_mem]. rewrite upd_nth_same by (apply nth_error_Some; congruence).
  split; [reflexivity|]. split; [|reflexivity]. unfold received. cbn [m_w]. exact (command_step _ _ _ E).
Qed.
(** On AMQP every command goes to one worker at most: those published are those waiting and those received by the workers, together. *)
Theorem C59_amqp : forall tr s, f_run Shared tr = Some s -> Permutation (fl_pub s) (fl_queue s ++ flat_map received (fl_mem s)).
Proof.
  intros tr s H. pose proof (hinv_run _ _ H) as P. unfold hinv, all_received in P. rewrite map_map in P.
  assert (G : forall l, flat_map commands (map (fun x => w_log (m_w x)) l) = flat_map received l) by (intros l; induction l as [|x l IH]; [reflexivity|]; cbn; now rewrite IH).
  now rewrite G in P.
Qed.
(** So a command that the leader publishes once reaches only one of two workers, whatever they do. *)
Theorem C59_amqp_refuted : exists tr s m0 m1, f_run Shared tr = Some s /\ fl_mem s = [m0; m1] /\ m_up m0 = true /\ m_up m1 = true /\ fl_pub s = [7] /\
  forall tr' s' n0 n1, run_from (f_step Shared) s tr' = Some s' -> nth_error (fl_mem s') 0 = Some n0 -> nth_error (fl_mem s') 1 = Some n1 -> fl_pub s' = [7] ->
  ~ (In 7 (received n0) /\ In 7 (received n1)).
Proof.
  exists [FStart 101; FStart 102; FLeader 7]. eexists _, _, _. split; [vm_compute; reflexivity|]. split; [reflexivity|]. split; [reflexivity|]. split; [reflexivity|]. split; [reflexivity|].
  intros tr' s' n0 n1 H N0 N1 P [I0 I1].
  assert (R : f_run Shared ([FStart 101; FStart 102; FLeader 7] ++ tr') = Some s') by (apply run_from_app; eexists; split; [vm_compute; reflexivity | exact H]).
  pose proof (C59_amqp _ _ R) as Q. rewrite P in Q. clear - Q N0 N1 I0 I1. destruct (fl_mem s') as [|x [|y l]]; try discriminate. cbn in N0, N1. injection N0 as ->. injection N1 as ->.
  apply Permutation_length in Q. cbn [flat_map] in Q. rewrite !app_length in Q. cbn [length] in Q.
  destruct (received n0); [destruct I0|]. destruct (received n1); [destruct I1|]. cbn [length] in Q. lia.
Qed.
Print Assumptions C59_in_memory.
Print Assumptions C59_ready.
Print Assumptions C59_amqp.
Print Assumptions C59_amqp_refuted.
(** Two workers, an Abort of job 7 and one of job 8, and a third worker between: in memory the third misses the first. *)
Example C59_example : option_map (fun s => map (fun m => (received m, m_box m)) (fl_mem s)) (f_run Copies
    [FStart 101; FStart 102; FLeader 7; FCommand 0; FStart 103; FWork 0 WSend; FLeader 8; FCommand 0; FCommand 1; FCommand 2]) =
  Some [([7; 8], []); ([7], [8]); ([8], [])].
Proof. reflexivity. Qed.
Example C59_amqp_example : option_map (fun s => (fl_queue s, map received (fl_mem s))) (f_run Shared
    [FStart 101; FStart 102; FLeader 7; FCommand 0; FWork 0 WSend; FLeader 8; FLeader 9; FCommand 0]) = Some ([9], [[7; 8]; []]).
Proof. reflexivity. Qed.

(** * C60 *)
(** Full statement: after a task of one job fails, the tasks of other jobs are still executed. False: in memory the worker where it failed tells all workers,
    itself included, to stop. Here two workers; a task of job 1 fails, and then both take a task of job 2. The tasks are nacked, that is, dropped (C39), both workers are
    gone, and no task is ever answered again without a new worker. *)
Definition fails (w key : nat) : list f_event := map (FWork w) [WTake (mkT key 1); WFlag; WCheck; WPoll true (Some (OcErr FsTerminate 3)); WDeclare true; WEffect SAck; WEffect SAbort;
  WEffect SResult; WReturn SAbort true; WReturn SResult true; WReturn SAck true; WClose true; WJoin].
Definition hears (w : nat) : list f_event := [FCommand w; FWork w WSend].
Definition cut_off (w key : nat) : list f_event := map (FWork w) [WTake (mkT key 2); WFlag; WCheck; WPoll true None; WEffect SAck; WReturn SAck true; WTick 10000; WWake].
Theorem C60_refuted : exists tr s, f_run Copies tr = Some s /\
  leader_sends abort_all tr = 0 /\ map announced (fl_mem s) = [1; 0] /\ (forall m, In m (fl_mem s) -> m_up m = true) /\
  (forall m, In m (fl_mem s) -> exists tm i, In (tm, ATake i (mkT 2 2)) (w_log (m_w m)) /\ In (tm, ANack i) (w_log (m_w m))) /\
  forall tr' s', forallb no_start tr' = true -> run_from (f_step Copies) s tr' = Some s' -> forall m, In m (fl_mem s') -> ~ answered 2 m.
Proof.
  exists ([FStart 101; FStart 102] ++ fails 0 1 ++ hears 0 ++ hears 1 ++ cut_off 0 2 ++ cut_off 1 2). eexists. split; [vm_compute; reflexivity|].
  split; [reflexivity|]. split; [reflexivity|]. split; [|split].
  - intros m [<-|[<-|[]]]; reflexivity.
  - intros m [<-|[<-|[]]]; eexists _, _; (split; [|left; reflexivity]); cbn; eauto 20.
  - intros tr' s' F H m I (tm & i & y & A). 
    match type of H with run_from _ ?x _ = _ => assert (ST : stopped x) by (intros ws [<-|[<-|[]]]; eexists; reflexivity) end.
    pose proof (stopped_run Copies tr' _ s' ST F H) as L. assert (J : In (w_log (m_w m)) (map w_log (map m_w (fl_mem s')))) by (apply in_map, in_map, I). rewrite L in J. clear - J A. cbn in J.
    destruct J as [J|[J|[]]]; rewrite <- J in A; clear J; cbn in A; destruct A as [A|A]; repeat (destruct A as [A|A]; [discriminate|]); exact A.
Qed.
(** In memory this is so for every worker that started before the failure, unless an Abort of some job comes between (C37): once it has received and passed on all
    commands, which are all abort-all, each poll of an execution ends it; the worker stops, unless the execution was finished when first looked at. *)
Theorem C60_in_memory : forall tr s w m t sn st sf r, f_run Copies tr = Some s -> nth_error (fl_mem s) w = Some m -> m_up m = true ->
  (forall k, In k (fl_pub s) -> k = abort_all) -> m_since m < length (fl_pub s) -> m_box m = [] -> (forall k, w_lis (m_w m) <> LisSend k) ->
  (forall tm i t, In (tm, ATake i t) (w_log (m_w m)) -> t_key t <> abort_all) -> w_main (m_w m) = WpRun t sn st ->
  exists s' m', f_step Copies s (FWork w (WPoll sf r)) = Some s' /\ nth_error (fl_mem s') w = Some m' /\
    if sf then w_main (m_w m') = WpTerm t IoOpen
    else match r with None => w_main (m_w m') = WpTerm t IoOpen | Some o => w_main (m_w m') = finished t o end.
Proof.
  intros tr s w m t sn st sf r R W U ALL SN BX LI IN M. destruct (cinv_run _ _ R) as (C & _). destruct (C m (nth_error_In _ _ W)) as [E _]. rewrite BX, app_nil_r in E.
  destruct (all_reach_run _ _ _ R (m_w m)) as (ident & wtr & RW); [apply in_map; eapply nth_error_In; eauto|].
  assert (AB : forall k, In k (commands (w_log (m_w m))) -> k = abort_all).
  { intros k I. apply ALL. unfold received in E. rewrite E in I. rewrite <- (firstn_skipn (m_since m) (fl_pub s)). apply in_or_app. now right. }
  assert (NE : commands (w_log (m_w m)) <> []). { unfold received in E. rewrite E. intros Z. apply (f_equal (@length _)) in Z. rewrite skipn_length in Z. cbn in Z. lia. }
  destruct (watch_abort _ _ _ RW IN AB NE LI) as [V A]. destruct (C37_partial _ _ _ t sn st sf r RW M V A) as (ws & S & Q).
  cbn [f_step]. rewrite W, U, S.
  assert (X : exists m', nth_error (map m_w (fl_mem (publish_n Copies (mkFl (upd w (set_w m ws) (fl_mem s)) (fl_queue s) (fl_pub s)) (aborts (new_acts (m_w m) ws)) abort_all))) w = Some m' /\ m' = ws).
  { exists ws. split; [|reflexivity]. rewrite publish_n_ws. cbn [fl_mem]. rewrite map_upd. apply upd_nth_same. rewrite map_length. apply nth_error_Some. congruence. }
  destruct X as (m' & X & ->). rewrite nth_error_map in X. destruct (nth_error _ w) as [m'|] eqn:NM in X; [|discriminate]. cbn in X. injection X as X.
  eexists _, m'. split; [reflexivity|]. split; [exact NM|]. rewrite X. destruct sf; [exact (proj1 Q)|]. destruct r; [exact Q | exact (proj1 Q)].
Qed.
Print Assumptions C60_refuted.
Print Assumptions C60_in_memory.
(** Worker 1 is in the middle of a task of job 2 when worker 0 fails one of job 1. *)
Example C60_example : exists s m, f_run Copies ([FStart 101; FStart 102] ++ map (FWork 1) [WTake (mkT 2 2); WFlag; WCheck; WPoll true None] ++ fails 0 1 ++ hears 1) = Some s /\
  nth_error (fl_mem s) 1 = Some m /\ m_up m = true /\ fl_pub s = [abort_all] /\ m_since m = 0 /\ m_box m = [] /\ w_lis (m_w m) = LisIdle /\
  w_main (m_w m) = WpRun (mkT 2 2) 0 true /\ forall tm i t, In (tm, ATake i t) (w_log (m_w m)) -> t_key t <> abort_all.
Proof.
  eexists _, _. split; [vm_compute; reflexivity|]. split; [reflexivity|]. do 6 (split; [reflexivity|]). intros tm i t I. cbn in I.
  repeat (destruct I as [I|I]; [try discriminate I; injection I as _ _ <-; discriminate|]). destruct I.
Qed.

(** * C61 *)
(** On AMQP no more workers are stopped by abort-all than executions failed fatally, plus the leader's own. *)
Theorem C61_amqp : forall tr s, f_run Shared tr = Some s -> cnt signalled (fl_mem s) <= list_sum (map announced (fl_mem s)) + leader_sends abort_all tr.
Proof.
  intros tr s H. pose proof (source _ _ _ _ H) as S. cbn [fl_init fl_mem fl_pub] in S. change (total ann fl_init) with 0 in S. change (cnt (Nat.eqb abort_all) []) with 0 in S.
  assert (T : total ann s = list_sum (map announced (fl_mem s))) by (unfold total, wsum; rewrite map_map; reflexivity).
  assert (B : cnt (Nat.eqb abort_all) (flat_map received (fl_mem s)) <= cnt (Nat.eqb abort_all) (fl_pub s)).
  { rewrite (perm_cnt _ _ _ _ (C59_amqp _ _ H)). rewrite cnt_app. lia. }
  cut (cnt signalled (fl_mem s) <= cnt (Nat.eqb abort_all) (flat_map received (fl_mem s))); [lia|].
  pose proof (all_reach_run _ _ _ H) as R. unfold all_reach in R. clear - R. induction (fl_mem s) as [|m l IH]; [apply Nat.le_refl|].
  cbn [flat_map]. rewrite cnt_app, cnt_cons. specialize (IH (fun ws I => R ws (or_intror I))).
  destruct (signalled m) eqn:SG; cbn [b2n]; [|lia]. destruct (R (m_w m) (or_introl eq_refl)) as (ident & tr & RW). pose proof (signalled_received _ _ _ RW SG) as I.
  cut (0 < cnt (Nat.eqb abort_all) (received m)); [lia|]. destruct (cnt (Nat.eqb abort_all) (received m)) eqn:Z; [|lia]. exfalso. pose proof (proj1 (cnt_zero _ _ _) Z _ I) as Q. now rewrite Nat.eqb_refl in Q.
Qed.
(** So if there are more workers than that, one is left. *)
Theorem C61_left : forall tr s, f_run Shared tr = Some s -> list_sum (map announced (fl_mem s)) + leader_sends abort_all tr < length (fl_mem s) -> exists m, In m (fl_mem s) /\ signalled m = false.
Proof.
  intros tr s H LT. pose proof (C61_amqp _ _ H) as B. assert (C : cnt signalled (fl_mem s) < length (fl_mem s)) by lia. clear - C.
  induction (fl_mem s) as [|m l IH]; [unfold cnt in C; cbn in C; lia|]. rewrite cnt_cons in C. cbn [length] in C. destruct (signalled m) eqn:S; [|exists m; split; [now left | exact S]].
  cbn [b2n] in C. destruct IH as (m' & I & F); [lia|]. exists m'. split; [now right | exact F].
Qed.
(** In memory there is no such bound: one failure stops every worker. *)
Theorem C61_in_memory_unbounded : exists tr s, f_run Copies tr = Some s /\ list_sum (map announced (fl_mem s)) = 1 /\ leader_sends abort_all tr = 0 /\ cnt signalled (fl_mem s) = 3.
Proof.
  exists ([FStart 101; FStart 102; FStart 103] ++ fails 0 1 ++ hears 0 ++ hears 1 ++ hears 2 ++ cut_off 0 2 ++ cut_off 1 2 ++ cut_off 2 3). eexists. split; [vm_compute; reflexivity|].
  split; [reflexivity|]. split; reflexivity.
Qed.
Print Assumptions C61_amqp.
Print Assumptions C61_left.
Print Assumptions C61_in_memory_unbounded.
(** The bound is met: one failure, and the abort-all stops the worker that did not fail. *)
Example C61_example : option_map (fun s => (map signalled (fl_mem s), map announced (fl_mem s))) (f_run Shared ([FStart 101; FStart 102] ++ fails 0 1 ++ hears 1 ++ cut_off 1 2)) =
  Some ([false; true], [1; 0]).
Proof. reflexivity. Qed.

(** * C62 *)
(** Full statement: a worker is not stopped by an abort-all from before it started. False on AMQP: a worker fails a task of job 1 and its process ends before it receives its own abort-all. The
    queue keeps it for the worker that is started in its place, hours later, which stops at its first task. *)
Theorem C62_amqp_refuted : exists tr1 ident tr2 s1 s m, f_run Shared tr1 = Some s1 /\ (forall m, In m (fl_mem s1) -> m_up m = false) /\
  run_from (f_step Shared) s1 (FStart ident :: tr2) = Some s /\ fl_pub s = fl_pub s1 /\ nth_error (fl_mem s) (length (fl_mem s1)) = Some m /\ signalled m = true /\ announced m = 0 /\
  w_main (m_w m) = WpStop EndOk.
Proof.
  exists ([FStart 101] ++ fails 0 1 ++ [FCrash 0]), 102, ([FWork 1 (WTick 7200000)] ++ hears 1 ++ cut_off 1 2). eexists _, _, _. split; [vm_compute; reflexivity|]. split; [intros m [<-|[]]; reflexivity|].
  split; [vm_compute; reflexivity|]. split; [reflexivity|]. split; [reflexivity|]. split; [reflexivity|]. split; reflexivity.
Qed.
(** In memory it is false of the first worker only. *)
Theorem C62_first_refuted : exists tr s m, f_run Copies (FLeader abort_all :: FStart 101 :: tr) = Some s /\ fl_pub s = [abort_all] /\ fl_mem s = [m] /\ signalled m = true.
Proof. exists (hears 0 ++ cut_off 0 2). eexists _, _. split; [vm_compute; reflexivity|]. split; [reflexivity|]. split; reflexivity. Qed.
(** A worker that is not the first is stopped only by an abort-all published after it started. *)
Theorem C62_partial : forall tr1 s1 ident tr2 s m, f_run Copies tr1 = Some s1 -> fl_mem s1 <> [] -> run_from (f_step Copies) s1 (FStart ident :: tr2) = Some s ->
  nth_error (fl_mem s) (length (fl_mem s1)) = Some m -> signalled m = true -> exists later, fl_pub s = fl_pub s1 ++ later /\ In abort_all later.
Proof.
  intros tr1 s1 ident tr2 s m H1 NE H2 NM SG. destruct (C59_in_memory _ _ _ _ _ _ H1 H2 NM) as (b & B & E). exists b. split; [exact B|].
  destruct (fl_mem s1) as [|m0 ms] eqn:M1; [contradiction|]. cbn [app] in E. rewrite <- E. apply in_or_app. left.
  assert (R : f_run Copies (tr1 ++ FStart ident :: tr2) = Some s) by (apply run_from_app; exists s1; auto).
  destruct (all_reach_run _ _ _ R (m_w m)) as (id' & wtr & RW); [apply in_map; eapply nth_error_In; eauto|]. exact (signalled_received _ _ _ RW SG).
Qed.
Print Assumptions C62_amqp_refuted.
Print Assumptions C62_first_refuted.
Print Assumptions C62_partial.
(** Worker 0 fails a task and stops; worker 1, started after, works on, until it fails a task itself. *)
Example C62_example : exists s1 s m, f_run Copies ([FStart 101] ++ fails 0 1) = Some s1 /\ fl_mem s1 <> [] /\
  run_from (f_step Copies) s1 (FStart 102 :: hears 0 ++ cut_off 0 2 ++ fails 1 3 ++ hears 1 ++ cut_off 1 4) = Some s /\ nth_error (fl_mem s) 1 = Some m /\ signalled m = true /\ fl_pub s = [abort_all; abort_all].
Proof. eexists _, _, _. split; [vm_compute; reflexivity|]. split; [discriminate|]. split; [vm_compute; reflexivity|]. split; [reflexivity|]. split; reflexivity. Qed.
