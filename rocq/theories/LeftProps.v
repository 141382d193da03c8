(** C91 and C92: what goes on when the worker's loop is over. *)
From Coq Require Import List Arith NArith Bool Lia.
From Verif Require Import Base BaseFacts RetryModel WorkerModel SystemModel FleetModel FleetSpec FleetProps LeftModel.
Import ListNotations.
Open Scope nat_scope.

Definition p_run (ident : nat) (evs : list p_event) : option proc := run_from p_step (p_init ident) evs.
(** * Spec *)
(** Sooner or later the reaper sweeps once more. *)
Definition sweeps (p : proc) : Prop := exists d p1 p2, p_step p (PTick d) = Some p1 /\ p_step p1 (PTask WReap) = Some p2.
(** The listener takes the next command. *)
Definition listens (p : proc) : Prop := forall k, exists p', p_step p (PTask (WCommand k)) = Some p'.
(** No call fails, nothing panics, the command stream does not end and nobody drops the loop. *)
Definition smooth (e : p_event) : Prop :=
  match e with
  | PBegin ok | PSubscribe ok => ok = true
  | PDrop => False
  | PLoop (WReturn _ ok) | PLoop (WDeclare ok) | PLoop (WClose ok) => ok = true
  | PLoop (WPoll _ (Some OcPanic)) => False
  | PLoop WHangUp => False
  | _ => True
  end.

(** * C91 *)
(** Full statement: when the loop is over, none of its tasks goes on. *)
Definition all_gone : Prop := forall ident evs p, p_run ident evs = Some p -> over p = true -> ~ sweeps p /\ ~ listens p.

Lemma tick_reap : forall p, reaper_there p = true -> (over p = true \/ p_stage p = SgCommands) -> sweeps p.
Proof.
  intros p R O. exists (w_reap (p_w p))%N. eexists _, _. split; [reflexivity|]. cbn [option_map]. unfold p_step.
  assert (RT : reaper_there (with_w p (mkW (w_now (p_w p) + w_reap (p_w p)) (w_jobs (p_w p)) (w_reap (p_w p)) (w_lis (p_w p)) (w_ver (p_w p)) (w_val (p_w p)) (w_flag (p_w p)) (w_main (p_w p)) (w_taken (p_w p)) (w_log (p_w p)))) = true) by exact R.
  cbn [w_step]. rewrite RT. assert (C : (over p || match p_stage p with SgCommands => true | _ => false end)%bool = true) by (destruct O as [-> | ->]; [reflexivity|now rewrite orb_true_r]).
  change (over (with_w p _)) with (over p). change (p_stage (with_w p _)) with (p_stage p). cbn [andb]. rewrite C. unfold task_step. cbn.
  destruct (N.leb_spec (w_reap (p_w p)) (w_now (p_w p) + w_reap (p_w p))); [reflexivity|lia].
Qed.
Lemma task_reap : forall p p', p_step p (PTask WReap) = Some p' -> reaper_there p = true.
Proof. intros p p' H. unfold p_step in H. destruct (reaper_there p); [reflexivity|discriminate]. Qed.
Lemma tick_same : forall p d p1, p_step p (PTick d) = Some p1 -> reaper_there p1 = reaper_there p /\ over p1 = over p.
Proof. intros p d p1 H. cbn in H. injection H as <-. now split. Qed.
Lemma sweeps_iff : forall p, over p = true -> (sweeps p <-> reaper_there p = true).
Proof.
  intros p O. split.
  - intros (d & p1 & p2 & T & H). apply task_reap in H. now rewrite (proj1 (tick_same _ _ _ T)) in H.
  - intros R. apply tick_reap; [exact R|now left].
Qed.
Lemma listens_iff : forall p, over p = true -> (listens p <-> listener_there p = true /\ w_lis (p_w p) = LisIdle).
Proof.
  intros p O. split.
  - intros H. destruct (H 0) as (p' & E). unfold p_step in E. destruct (listener_there p); [|discriminate]. rewrite O in E. cbn in E. split; [reflexivity|].
    unfold task_step in E. cbn in E. destruct (w_lis (p_w p)); [reflexivity|discriminate|discriminate].
  - intros [L I] k. unfold p_step. rewrite L, O. cbn [andb]. unfold task_step. cbn [w_step set_main w_main w_lis]. rewrite I.
    destruct (mark _ k) as [s1 fresh]. eexists. reflexivity.
Qed.
(** As far as it holds, and exactly there: the reaper is gone if the loop came to its last lines or never spawned it, the listener likewise or if its stream ended. *)
Theorem C91_iff_partial : forall ident evs p, p_run ident evs = Some p -> over p = true ->
  (sweeps p <-> p_stage p = SgCommands \/ p_stage p = SgFailed true \/ (p_stage p = SgLoop /\ w_main (p_w p) <> WpStop EndOk)) /\
  (listens p <-> p_stage p = SgLoop /\ w_main (p_w p) <> WpStop EndOk /\ w_lis (p_w p) = LisIdle).
Proof.
  intros ident evs p _ O. rewrite (sweeps_iff p O), (listens_iff p O). unfold reaper_there, listener_there, aborted. split.
  - destruct (p_stage p) as [| | |[]]; cbn; split; try (intuition congruence).
    + intros H. right. right. split; [reflexivity|]. intros X. rewrite X in H. discriminate.
    + intros [X|[X|[_ X]]]; try discriminate. destruct (w_main (p_w p)) as [| | | | | | | | |[]]; try reflexivity. congruence.
  - destruct (p_stage p) as [| | |r]; split; try (intros [X Y]; discriminate).
    + intros [X Y]. split; [reflexivity|]. split; [|exact Y]. intros Z. rewrite Z in X. discriminate.
    + intros (_ & X & Y). split; [|exact Y]. destruct (w_main (p_w p)) as [| | | | | | | | |[]]; try reflexivity. congruence.
Qed.
Lemma task_main : forall s e s', task_step s e = Some s' -> w_main s' = w_main s.
Proof. intros s e s' H. unfold task_step in H. destruct (w_step (set_main s WpWait) e); [|discriminate]. injection H as <-. reflexivity. Qed.
Lemma over_step : forall p e p', p_step p e = Some p' -> over p = true -> over p' = true /\ reaper_there p' = reaper_there p /\ listener_there p' = listener_there p /\ p_stage p' = p_stage p.
Proof.
  intros p e p' H O.
  assert (T : forall x s', task_step (p_w p) x = Some s' -> over (with_w p s') = true /\ reaper_there (with_w p s') = reaper_there p /\ listener_there (with_w p s') = listener_there p /\ p_stage (with_w p s') = p_stage p).
  { intros x s' X. apply task_main in X. unfold over, reaper_there, listener_there, stopped, aborted, with_w in *. cbn. rewrite X. now repeat split. }
  destruct e as [d|ok|ok|e| |e]; unfold p_step in H; rewrite ?O in H.
  - cbn in H. injection H as <-. now repeat split.
  - destruct (p_stage p); discriminate.
  - destruct (p_stage p); discriminate.
  - destruct e; try discriminate; destruct (p_stage p); discriminate.
  - discriminate.
  - destruct e; try discriminate;
      (match type of H with (if ?c then _ else _) = _ => destruct c; [|discriminate] end);
      (match type of H with option_map _ ?x = _ => destruct x as [s'|] eqn:X; [|discriminate] end); injection H as <-; exact (T _ _ X).
Qed.
(** What is left behind stays for ever. *)
Theorem C91_for_ever : forall ident evs p, p_run ident evs = Some p -> over p = true -> sweeps p -> forall evs' p', run_from p_step p evs' = Some p' -> over p' = true /\ sweeps p'.
Proof.
  intros ident evs p _ O S evs' p' R. rewrite (sweeps_iff p O) in S.
  assert (K : over p' = true /\ reaper_there p' = true).
  { eapply (run_from_inv _ _ p_step (fun q => over q = true /\ reaper_there q = true)); [|split; [exact O|exact S]|exact R].
    intros q e q' [Q1 Q2] H. destruct (over_step _ _ _ H Q1) as (A & B & _). split; congruence. }
  destruct K as [A B]. split; [exact A|]. now apply sweeps_iff.
Qed.

(** The listener that is left behind takes any commands, one after the other. *)
Definition given_to (evs : list p_event) : list nat := flat_map (fun e => match e with PTask (WCommand k) => [k] | _ => [] end) evs.
Theorem C91_takes_all : forall ident evs p, p_run ident evs = Some p -> over p = true -> listens p -> forall ks, exists evs' p', run_from p_step p evs' = Some p' /\ given_to evs' = ks /\ over p' = true /\ listens p'.
Proof.
  intros ident evs p _ O L ks. revert p O L. induction ks as [|k ks IH]; intros p O L; [exists [], p; repeat split; auto|]. destruct (L k) as (p1 & S1). destruct (over_step _ _ _ S1 O) as (O1 & _ & LT & _).
  pose proof (proj1 (listens_iff p O) L) as [L0 I0]. rewrite L0 in LT.
  assert (K : listens p1 \/ exists p2, p_step p1 (PTask WSend) = Some p2 /\ over p2 = true /\ listens p2).
  { destruct (w_lis (p_w p1)) as [|j|] eqn:LI; [left; apply listens_iff; auto| |exfalso].
    - right. assert (S2 : exists p2, p_step p1 (PTask WSend) = Some p2 /\ w_lis (p_w p2) = LisIdle).
      { unfold p_step. rewrite LT, O1. cbn [andb]. unfold task_step. cbn [w_step set_main w_main w_lis]. rewrite LI. eexists. split; reflexivity. }
      destruct S2 as (p2 & S2 & I2). destruct (over_step _ _ _ S2 O1) as (O2 & _ & LT2 & _). exists p2. split; [exact S2|]. split; [exact O2|]. apply listens_iff; [exact O2|]. split; [congruence|exact I2].
    - unfold p_step in S1. rewrite L0, O in S1. cbn [andb] in S1. unfold task_step in S1. cbn [w_step set_main w_main w_lis] in S1. rewrite I0 in S1. unfold mark in S1. destruct (marked _ _); injection S1 as <-; cbn in LI; congruence. }
  destruct K as [L1|(p2 & S2 & O2 & L2)].
  - destruct (IH _ O1 L1) as (evs' & p' & R & C & O' & L'). exists (PTask (WCommand k) :: evs'), p'. cbn [run_from]. rewrite S1. split; [exact R|]. split; [exact (f_equal (cons k) C)|auto].
  - destruct (IH _ O2 L2) as (evs' & p' & R & C & O' & L'). exists (PTask (WCommand k) :: PTask WSend :: evs'), p'. cbn [run_from]. rewrite S1, S2. split; [exact R|]. split; [exact (f_equal (cons k) C)|auto].
Qed.

(** Where nothing goes wrong nothing is left. *)
Definition calm (p : proc) : Prop :=
  p_dropped p = false /\ match p_stage p with SgFailed _ => False | _ => True end /\ w_main (p_w p) <> WpStop EndErr /\ w_main (p_w p) <> WpStop EndPanic /\ w_lis (p_w p) <> LisGone.
Definition wcalm (s : wstate) : Prop := w_main s <> WpStop EndErr /\ w_main s <> WpStop EndPanic /\ w_lis s <> LisGone.
Lemma signal_calm : forall s t sn st, wcalm s -> wcalm (poll_signal s t sn st).
Proof.
  intros s t sn st (A & B & C). unfold poll_signal. destruct (_ && _); [repeat split; cbn; congruence|]. destruct (w_lis s) eqn:L; [| |congruence]; repeat split; cbn; congruence.
Qed.
Lemma mark_calm : forall s k, wcalm s -> wcalm (fst (mark s k)).
Proof. intros s k (A & B & C). unfold mark. destruct (marked k (w_jobs s)); repeat split; cbn; congruence. Qed.
Lemma mark_lis : forall s k, w_lis (fst (mark s k)) = w_lis s /\ w_main (fst (mark s k)) = w_main s.
Proof. intros s k. unfold mark. now destruct (marked k (w_jobs s)). Qed.
Lemma exec_calm : forall s t sn st r, wcalm s -> r <> Some OcPanic -> wcalm (poll_exec s t sn st r).
Proof.
  intros s t sn st r (A & B & C) R. assert (S : wcalm (start s t sn st)) by (unfold start; destruct st; repeat split; cbn; congruence).
  unfold poll_exec. destruct r as [o|]; [|exact S]. destruct S as (S1 & S2 & S3). unfold finish. destruct o as [y|fs msg|]; [| |congruence].
  - repeat split; cbn; congruence.
  - destruct (mark_lis (log (start s t sn st) (AFinish (cur (start s t sn st)) (OcErr fs msg))) (t_key t)) as [E _].
    repeat split; cbn [set_main w_main w_lis]; try discriminate. rewrite E. exact S3.
Qed.
Lemma calm_w : forall s e s', smooth (PLoop e) -> wcalm s -> w_step s e = Some s' -> wcalm s'.
Proof.
  intros s e s' SM (A & B & C) H. unfold wcalm in *. destruct e as [d| |k| | |t| | | |sf r|sl|sl ok|ok|ok| |].
  - injection H as <-. now cbn.
  - cbn in H. destruct (w_main s) eqn:M; try discriminate; (destruct (w_reap s <=? w_now s)%N; [|discriminate]); injection H as <-; cbn; rewrite ?M; repeat split; congruence.
  - cbn in H. destruct (mark_lis (log s (ACommand k)) k) as [E1 E2]. destruct (mark (log s (ACommand k)) k) as [s1 fresh]. cbn in E1, E2.
    destruct (w_main s) eqn:M; try discriminate; (destruct (w_lis s); try discriminate); injection H as <-; destruct fresh; cbn; repeat split; try congruence.
  - cbn in H. destruct (w_main s) eqn:M; try discriminate; (destruct (w_lis s); try discriminate); injection H as <-; cbn; rewrite ?M; repeat split; congruence.
  - destruct SM.
  - cbn in H. destruct (w_main s) eqn:M; try discriminate; injection H as <-; cbn; repeat split; congruence.
  - cbn in H. destruct (w_main s) eqn:M; try discriminate; injection H as <-; cbn; repeat split; congruence.
  - cbn in H. destruct (w_main s) eqn:M; try discriminate; injection H as <-; cbn; destruct (w_flag s); repeat split; congruence.
  - cbn in H. destruct (w_main s) eqn:M; try discriminate; injection H as <-; destruct (marked _ _); cbn; repeat split; congruence.
  - cbn in H. destruct (w_main s) as [| | | |t sn st| | | | |] eqn:M; try discriminate. injection H as <-. assert (R : r <> Some OcPanic) by (intros ->; exact SM).
    assert (W : wcalm s) by (repeat split; congruence). unfold poll_select. destruct sf.
    + pose proof (signal_calm s t sn st W) as W1. destruct (w_main (poll_signal s t sn st)) as [| | | |t1 sn1 st1| | | | |] eqn:M1; try exact W1. now apply exec_calm.
    + pose proof (exec_calm s t sn st r W R) as W1. destruct (w_main (poll_exec s t sn st r)) as [| | | |t1 sn1 st1| | | | |] eqn:M1; try exact W1. now apply signal_calm.
  - cbn in H. destruct sl; destruct (w_main s) as [| | |t a|t sn st|t y a d|t fs msg a d|t a|t u|x] eqn:M; try discriminate; try (destruct d; try discriminate);
      (match type of H with option_map _ ?x = _ => destruct x; [|discriminate] end); injection H as <-; cbn; repeat split; congruence.
  - cbn in SM. subst ok. cbn in H. destruct sl; destruct (w_main s) as [| | |t a|t sn st|t y a d|t fs msg a d|t a|t u|x] eqn:M; try discriminate; try (destruct d; try discriminate); try (destruct a; try discriminate); try (destruct ab; try discriminate);
      try (destruct er; try discriminate); try (destruct p; try discriminate); cbn in H; try discriminate; try (injection H as <-; cbn; repeat split; congruence).
  - cbn in SM. subst ok. cbn in H. destruct (w_main s) as [| | |t a|t sn st|t y a d|t fs msg a d|t a|t u|x] eqn:M; try discriminate; (destruct d; try discriminate); injection H as <-; cbn; repeat split; congruence.
  - cbn in SM. subst ok. cbn in H. destruct (w_main s) as [| | |t a|t sn st|t y a d|t fs msg a d|t a|t u|x] eqn:M; try discriminate; (destruct d; try discriminate); injection H as <-; cbn; repeat split; congruence.
  - cbn in H. destruct (w_main s) as [| | |t a|t sn st|t y a d|t fs msg a d|t a|t u|x] eqn:M; try discriminate; (destruct a; try discriminate); (destruct d; try discriminate); injection H as <-; cbn; repeat split; congruence.
  - cbn in H. destruct (w_main s) eqn:M; try discriminate. destruct (_ <=? _)%N; [|discriminate]. injection H as <-; cbn; repeat split; congruence.
Qed.
Lemma calm_step : forall p e p', smooth e -> calm p -> p_step p e = Some p' -> calm p'.
Proof.
  intros p e p' SM (A & B & C & D & F) H.
  assert (OV : over p = true -> p_stage p = SgLoop /\ aborted (p_w p) = true).
  { unfold over, stopped, aborted. rewrite A. cbn. destruct (p_stage p); try discriminate; [|destruct B]. intros X. split; [reflexivity|]. destruct (w_main (p_w p)) as [| | | | | | | | |[]]; try discriminate; congruence. }
  assert (NL : (listener_there p && over p)%bool = false).
  { destruct (over p) eqn:O; [|now rewrite andb_false_r]. destruct (OV eq_refl) as [E1 E2]. unfold listener_there. now rewrite E1, E2. }
  destruct e as [d|ok|ok|e| |e]; unfold p_step in H.
  - cbn in H. injection H as <-. unfold calm. cbn. repeat split; assumption.
  - cbn in SM. subst ok. destruct (p_stage p) eqn:G; try discriminate. destruct (over p); [discriminate|]. injection H as <-. unfold calm. cbn. repeat split; assumption.
  - cbn in SM. subst ok. destruct (p_stage p) eqn:G; try discriminate. destruct (over p); [discriminate|]. injection H as <-. unfold calm. cbn. repeat split; assumption.
  - assert (X : exists s', w_step (p_w p) e = Some s' /\ p' = with_w p s').
    { destruct e; try discriminate; destruct (p_stage p) eqn:G; try discriminate; (destruct (over p); [discriminate|]); (match type of H with option_map _ ?x = _ => destruct x as [s'|]; [|discriminate] end); injection H as <-; exists s'; now split. }
    destruct X as (s' & X & ->). destruct (calm_w _ _ _ SM (conj C (conj D F)) X) as (U & V & W). unfold calm. cbn. repeat split; assumption.
  - destruct SM.
  - destruct e; try discriminate; rewrite ?NL in H; try discriminate.
    destruct (_ && _)%bool; [|discriminate]. unfold task_step in H. cbn in H. destruct (w_reap (p_w p) <=? w_now (p_w p))%N; [|discriminate]. injection H as <-. unfold calm. cbn. repeat split; assumption.
Qed.
Theorem C91_smooth_partial : forall ident evs p, Forall smooth evs -> p_run ident evs = Some p -> over p = true -> ~ sweeps p /\ ~ listens p.
Proof.
  intros ident evs p SM R O. assert (K : calm p).
  { unfold p_run in R. assert (G : forall evs q p, Forall smooth evs -> calm q -> run_from p_step q evs = Some p -> calm p).
    { clear. induction evs as [|e evs IH]; intros q p SM C R; [injection R as <-; exact C|]. inversion SM; subst. cbn in R. destruct (p_step q e) as [q'|] eqn:E; [|discriminate].
      apply (IH q' p); [assumption| |exact R]. eapply calm_step; eassumption. }
    apply (G evs (p_init ident)); [exact SM| |exact R]. unfold calm. cbn. repeat split; discriminate. }
  destruct K as (A & B & C & D & F). destruct (C91_iff_partial ident evs p R O) as [S L]. rewrite S, L. clear S L.
  unfold over in O. rewrite A in O. cbn in O. destruct (p_stage p) eqn:G; try discriminate; [|destruct B].
  assert (M : w_main (p_w p) = WpStop EndOk) by (unfold stopped in O; destruct (w_main (p_w p)) as [| | | | | | | | |[]]; try discriminate; congruence). split.
  - intros [X|[X|[_ X]]]; congruence.
  - intros (_ & X & _). congruence.
Qed.
(** It is false when the broker fails to take an answer: both tasks go on, and the listener still takes commands. *)
Definition failed_run : list p_event :=
  [PBegin true; PTask WReap; PSubscribe true; PLoop (WCommand 5); PLoop WSend; PLoop (WTake (mkT 5 1)); PLoop WFlag; PLoop WCheck; PLoop (WReturn SAck false)].
Definition p_after (ident : nat) (evs : list p_event) : proc := match p_run ident evs with Some p => p | None => p_init ident end.
Theorem C91_refuted : exists ident evs p, p_run ident evs = Some p /\ over p = true /\ p_dropped p = false /\ sweeps p /\ listens p.
Proof.
  exists 101, failed_run, (p_after 101 failed_run). assert (R : p_run 101 failed_run = Some (p_after 101 failed_run)) by (vm_compute; reflexivity).
  split; [exact R|]. assert (O : over (p_after 101 failed_run) = true) by (vm_compute; reflexivity). split; [exact O|]. split; [vm_compute; reflexivity|].
  split; [apply (sweeps_iff _ O); vm_compute; reflexivity|apply (listens_iff _ O); split; vm_compute; reflexivity].
Qed.
(** And it is false whenever a runtime with emulated workers is dropped: whatever they are doing, once they listen for commands they go on listening. *)
Theorem C91_emulator : forall ident evs p, p_run ident evs = Some p -> over p = false -> p_stage p = SgLoop -> w_lis (p_w p) = LisIdle ->
  exists p', p_step p PDrop = Some p' /\ over p' = true /\ sweeps p' /\ listens p'.
Proof.
  intros ident evs p R O G L. unfold p_step. rewrite O. eexists. split; [reflexivity|]. set (p' := mkP (p_stage p) (p_w p) true).
  assert (O' : over p' = true) by reflexivity. split; [exact O'|].
  assert (NA : aborted (p_w p) = false).
  { unfold over in O. apply orb_false_iff in O. destruct O as [_ O]. rewrite G in O. unfold stopped in O. unfold aborted. destruct (w_main (p_w p)); try reflexivity. discriminate. }
  split; [apply (sweeps_iff _ O')|apply (listens_iff _ O')]; unfold reaper_there, listener_there, p'; cbn; rewrite G, NA; [reflexivity|now split].
Qed.
Example C91_ex_emulator : exists p, p_run 101 (firstn 7 failed_run) = Some p /\ over p = false /\ p_stage p = SgLoop /\ w_lis (p_w p) = LisIdle.
Proof. exists (p_after 101 (firstn 7 failed_run)). vm_compute. repeat split. Qed.
(** A smooth run to the end: an abort of everything arrives during an execution. *)
Definition smooth_run : list p_event :=
  [PBegin true; PTask WReap; PSubscribe true; PLoop (WTake (mkT 5 1)); PLoop WFlag; PLoop WCheck; PLoop (WPoll false None); PLoop (WCommand abort_all); PLoop WSend;
   PLoop (WPoll true None); PLoop (WEffect SAck); PLoop (WReturn SAck true); PTick 10000; PLoop WWake].
Example C91_ex_smooth : Forall smooth smooth_run /\ exists p, p_run 101 smooth_run = Some p /\ over p = true /\ reaper_there p = false /\ listener_there p = false.
Proof. split; [repeat constructor|]. exists (p_after 101 smooth_run). vm_compute. repeat split. Qed.

(** * C92 *)
(** Full statement: on AMQP a command that is published while a worker is waiting for tasks is received by a worker whose loop is not over. *)
Definition x_run (tr : list x_event) : option fleet := run_from x_step fl_init tr.
(** The commands that were taken by listeners left behind. *)
Definition wasted (tr : list x_event) : nat := cnt (fun e => match e with XLeft _ => true | _ => false end) tr.
(** False: worker 0 failed; its listener takes the abort that was meant for worker 1, who will never hear of it. *)
Definition x_fails (w : nat) : list x_event :=
  map (fun e => XFleet (FWork w e)) [WTake (mkT 5 1); WFlag; WCheck; WPoll false (Some (OcOk 3)); WDeclare true; WEffect SAck; WReturn SAck true; WEffect SResult; WReturn SResult false].
Definition stolen_run : list x_event := [XFleet (FStart 101); XFleet (FStart 102)] ++ x_fails 0 ++ [XFleet (FLeader abort_all); XLeft 0].
Definition deaf (s : wstate) : Prop :=
  w_ver s = 0 /\ (forall k, w_lis s <> LisSend k) /\ (forall t sn st, w_main s = WpRun t sn st -> sn = 0) /\ (forall p, In p (w_log s) -> match snd p with ASignal _ | ACommand _ => False | _ => True end).
Lemma signal_deaf : forall s t st, deaf s -> deaf (poll_signal s t 0 st).
Proof.
  intros s t st (A & B & C & D). unfold poll_signal. rewrite A. cbn. destruct (w_lis s) eqn:L; (split; [exact A|]); cbn; rewrite ?L; (split; [congruence|]); (split; [|exact D]); intros t0 sn0 st0 X; inversion X; congruence.
Qed.
Lemma exec_deaf : forall s t st r, deaf s -> deaf (poll_exec s t 0 st r).
Proof.
  intros s t st r DF. assert (S : deaf (start s t 0 st)).
  { destruct DF as (A & B & C & D). unfold start. destruct st; [now repeat split|]. split; [exact A|]. split; [exact B|]. split; cbn.
    - intros t0 sn0 st0 X. now inversion X.
    - intros p [<- | I]; [exact Logic.I|now apply D]. }
  unfold poll_exec. destruct r as [o|]; [|exact S]. destruct S as (A & B & C & D). unfold finish. set (s1 := log (start s t 0 st) (AFinish (cur (start s t 0 st)) o)).
  assert (D1 : forall p, In p (w_log s1) -> match snd p with ASignal _ | ACommand _ => False | _ => True end) by (intros p [<- | I]; [exact Logic.I|now apply D]).
  destruct o as [y|fs msg|]; (split; [|split; [|split]]); cbn; try exact A; try exact B; try exact D1; try (intros; discriminate).
  - unfold mark. destruct (marked (t_key t) (w_jobs s1)); exact A.
  - unfold mark. destruct (marked (t_key t) (w_jobs s1)); exact B.
  - unfold mark. destruct (marked (t_key t) (w_jobs s1)); [exact D1|]. cbn. intros p [<- | I]; [exact Logic.I|now apply D1].
Qed.
Lemma deaf_step : forall s e s', (forall k, e <> WCommand k) -> deaf s -> w_step s e = Some s' -> deaf s'.
Proof.
  intros s e s' NC DF H. pose proof DF as (A & B & C & D).
  assert (K : forall x p, (forall t sn st, p = WpRun t sn st -> sn = 0) -> match x with ASignal _ | ACommand _ => False | _ => True end -> deaf (set_main (log s x) p)).
  { intros x p P X. split; [exact A|]. split; [exact B|]. split; [exact P|]. cbn. intros q [<- | I]; [exact X|now apply D]. }
  assert (K0 : forall p, (forall t sn st, p = WpRun t sn st -> sn = 0) -> deaf (set_main s p)) by (intros p P; split; [exact A|]; split; [exact B|]; split; [exact P|exact D]).
  assert (NR : forall p, match p with WpRun _ _ _ => False | _ => True end -> forall t sn st, p = WpRun t sn st -> sn = 0) by (intros p P t sn st ->; destruct P).
  destruct e as [d| |k| | |t| | | |sf r|sl|sl ok|ok|ok| |]; try (destruct (NC k eq_refl)); cbn in H.
  - injection H as <-. now repeat split.
  - assert (X : exists q js, s' = mkW (w_now s) js q (w_lis s) (w_ver s) (w_val s) (w_flag s) (w_main s) (w_taken s) (w_log s)).
    { destruct (w_main s) eqn:M; try discriminate; (destruct (w_reap s <=? w_now s)%N; [|discriminate]); injection H as <-; eexists _, _; reflexivity. }
    destruct X as (q & js & ->). now repeat split.
  - destruct (w_main s); try discriminate; destruct (w_lis s) eqn:L; try discriminate; destruct (B k eq_refl).
  - assert (X : s' = mkW (w_now s) (w_jobs s) (w_reap s) LisGone (w_ver s) (w_val s) (w_flag s) (w_main s) (w_taken s) (w_log s)).
    { destruct (w_main s) eqn:M; try discriminate; (destruct (w_lis s); try discriminate); injection H as <-; reflexivity. }
    subst s'. split; [exact A|]. split; [discriminate|]. split; [exact C|exact D].
  - destruct (w_main s) eqn:M; try discriminate; injection H as <-. split; [exact A|]. split; [exact B|]. cbn. split; [intros; discriminate|]. intros p [<- | I]; [exact Logic.I|now apply D].
  - destruct (w_main s) eqn:M; try discriminate; injection H as <-. now apply K0, NR.
  - destruct (w_main s) eqn:M; try discriminate; injection H as <-. apply K0. destruct (w_flag s); now apply NR.
  - destruct (w_main s) eqn:M; try discriminate; injection H as <-. destruct (marked _ _); [apply K; [now apply NR|exact Logic.I]|apply K0]. intros t0 sn st X. now inversion X.
  - destruct (w_main s) as [| | | |t sn st| | | | |] eqn:M; try discriminate. injection H as <-. pose proof (C _ _ _ eq_refl) as ->. unfold poll_select. destruct sf.
    + pose proof (signal_deaf s t st DF) as W1. destruct (w_main (poll_signal s t 0 st)) as [| | | |t1 sn1 st1| | | | |] eqn:M1; try exact W1.
      pose proof (proj1 (proj2 (proj2 W1)) _ _ _ M1) as ->. now apply exec_deaf.
    + pose proof (exec_deaf s t st r DF) as W1. destruct (w_main (poll_exec s t 0 st r)) as [| | | |t1 sn1 st1| | | | |] eqn:M1; try exact W1.
      pose proof (proj1 (proj2 (proj2 W1)) _ _ _ M1) as ->. now apply signal_deaf.
  - destruct sl; destruct (w_main s) as [| | |t a|t sn st|t y a d|t fs msg a d|t a|t u|x] eqn:M; try discriminate; try (destruct d; try discriminate);
      (match type of H with option_map _ ?x = _ => destruct x; [|discriminate] end); injection H as <-; (apply K; [now apply NR|exact Logic.I]).
  - destruct sl; destruct (w_main s) as [| | |t a|t sn st|t y a d|t fs msg a d|t a|t u|x] eqn:M; try discriminate; try (destruct d; try discriminate); try (destruct a; try discriminate); try (destruct ab; try discriminate);
      try (destruct er; try discriminate); try (destruct p; try discriminate); destruct ok; cbn in H; try discriminate; injection H as <-; now apply K0, NR.
  - destruct (w_main s) as [| | |t a|t sn st|t y a d|t fs msg a d|t a|t u|x] eqn:M; try discriminate; (destruct d; try discriminate); injection H as <-; destruct ok; now apply K0, NR.
  - destruct (w_main s) as [| | |t a|t sn st|t y a d|t fs msg a d|t a|t u|x] eqn:M; try discriminate; (destruct d; try discriminate); injection H as <-; destruct ok; now apply K0, NR.
  - destruct (w_main s) as [| | |t a|t sn st|t y a d|t fs msg a d|t a|t u|x] eqn:M; try discriminate; (destruct a; try discriminate); (destruct d; try discriminate); injection H as <-; now apply K0, NR.
  - destruct (w_main s) eqn:M; try discriminate. destruct (_ <=? _)%N; [|discriminate]. injection H as <-; now apply K0, NR.
Qed.
Lemma publish_n_shared : forall n s k, fl_mem (publish_n Shared s n k) = fl_mem s /\ fl_queue (publish_n Shared s n k) = fl_queue s ++ repeat k n /\ fl_pub (publish_n Shared s n k) = fl_pub s ++ repeat k n.
Proof.
  induction n as [|n IH]; intros s k; [now rewrite !app_nil_r|]. cbn [publish_n repeat]. destruct (IH (publish Shared s k) k) as (A & B & C). rewrite A, B, C. unfold publish. cbn.
  rewrite <- !app_assoc. destruct (fl_mem s); now repeat split.
Qed.
(** What a step of a fleet on AMQP does. *)
Lemma x_cases : forall s e s', x_step s e = Some s' ->
  (exists ident, e = XFleet (FStart ident) /\ fl_mem s' = fl_mem s ++ [mkMem (w_init ident) true (length (fl_pub s)) []] /\ fl_queue s' = fl_queue s /\ fl_pub s' = fl_pub s) \/
  (exists w m we ws n, e = XFleet (FWork w we) /\ (forall k, we <> WCommand k) /\ nth_error (fl_mem s) w = Some m /\ w_step (m_w m) we = Some ws /\
     fl_mem s' = upd w (set_w m ws) (fl_mem s) /\ fl_queue s' = fl_queue s ++ repeat abort_all n /\ fl_pub s' = fl_pub s ++ repeat abort_all n) \/
  (exists w m k ws, e = XFleet (FCommand w) /\ nth_error (fl_mem s) w = Some m /\ w_step (m_w m) (WCommand k) = Some ws /\ fl_mem s' = upd w (set_w m ws) (fl_mem s) /\ fl_queue s = k :: fl_queue s' /\ fl_pub s' = fl_pub s) \/
  (exists k, e = XFleet (FLeader k) /\ fl_mem s' = fl_mem s /\ fl_queue s' = fl_queue s ++ [k] /\ fl_pub s' = fl_pub s ++ [k]) \/
  (exists w m, e = XFleet (FCrash w) /\ nth_error (fl_mem s) w = Some m /\ fl_mem s' = upd w (mkMem (m_w m) false (m_since m) (m_box m)) (fl_mem s) /\ fl_queue s' = fl_queue s /\ fl_pub s' = fl_pub s) \/
  (exists w m k ws, e = XLeft w /\ nth_error (fl_mem s) w = Some m /\ left_behind (m_w m) = true /\ task_step (m_w m) (WCommand k) = Some ws /\ fl_mem s' = upd w (set_w m ws) (fl_mem s) /\ fl_queue s = k :: fl_queue s' /\ fl_pub s' = fl_pub s) \/
  (exists w m ws, e = XLeftSend w /\ nth_error (fl_mem s) w = Some m /\ left_behind (m_w m) = true /\ task_step (m_w m) WSend = Some ws /\ fl_mem s' = upd w (set_w m ws) (fl_mem s) /\ fl_queue s' = fl_queue s /\ fl_pub s' = fl_pub s).
Proof.
  intros s e s' H. destruct e as [[ident|w we|w|k|w]|w|w]; cbn [x_step f_step] in H.
  - left. injection H as <-. exists ident. now repeat split.
  - right. left.
    assert (X : (forall k, we <> WCommand k) /\ exists m ws, nth_error (fl_mem s) w = Some m /\ w_step (m_w m) we = Some ws /\
      s' = publish_n Shared (mkFl (upd w (set_w m ws) (fl_mem s)) (fl_queue s) (fl_pub s)) (aborts (new_acts (m_w m) ws)) abort_all).
    { destruct (nth_error (fl_mem s) w) as [m|] eqn:W; [|destruct we; discriminate].
      assert (NC : forall k, we <> WCommand k) by (intros k ->; discriminate). split; [exact NC|].
      destruct (m_up m) eqn:U; [|destruct we; discriminate]. destruct (w_step (m_w m) we) as [ws|] eqn:S; [|destruct we; discriminate].
      exists m, ws. split; [reflexivity|]. split; [exact S|]. destruct we; try (injection H as <-; reflexivity). destruct (NC k eq_refl). }
    destruct X as (NC & m & ws & W & S & ->). destruct (publish_n_shared (aborts (new_acts (m_w m) ws)) (mkFl (upd w (set_w m ws) (fl_mem s)) (fl_queue s) (fl_pub s)) abort_all) as (A & B & C).
    exists w, m, we, ws, (aborts (new_acts (m_w m) ws)). repeat split; assumption.
  - do 2 right. left. destruct (nth_error (fl_mem s) w) as [m|] eqn:W; [|discriminate]. destruct (m_up m); [|discriminate]. destruct (fl_queue s) as [|k q] eqn:Q; [discriminate|].
    destruct (w_step (m_w m) (WCommand k)) as [ws|] eqn:S; [|discriminate]. injection H as <-. exists w, m, k, ws. now repeat split.
  - do 3 right. left. injection H as <-. exists k. unfold publish. destruct (fl_mem s); now repeat split.
  - do 4 right. left. destruct (nth_error (fl_mem s) w) as [m|] eqn:W; [|discriminate]. injection H as <-. exists w, m. now repeat split.
  - do 5 right. left. destruct (nth_error (fl_mem s) w) as [m|] eqn:W; [|discriminate]. destruct (fl_queue s) as [|k q] eqn:Q; [discriminate|]. destruct (m_up m); [|discriminate].
    destruct (left_behind (m_w m)) eqn:L; [|discriminate]. cbn [andb] in H. destruct (task_step (m_w m) (WCommand k)) as [ws|] eqn:S; [|discriminate]. injection H as <-. exists w, m, k, ws. now repeat split.
  - do 6 right. destruct (nth_error (fl_mem s) w) as [m|] eqn:W; [|discriminate]. destruct (m_up m); [|discriminate].
    destruct (left_behind (m_w m)) eqn:L; [|discriminate]. cbn [andb] in H. destruct (task_step (m_w m) WSend) as [ws|] eqn:S; [|discriminate]. injection H as <-. exists w, m, ws. now repeat split.
Qed.
Definition x_after (tr : list x_event) : fleet := match x_run tr with Some s => s | None => fl_init end.
Theorem C92_refuted : exists tr s m, x_run tr = Some s /\ fl_pub s = [abort_all] /\ nth_error (fl_mem s) 1 = Some m /\ m_up m = true /\ w_main (m_w m) = WpWait /\ w_lis (m_w m) = LisIdle /\
  forall tr' s' m', run_from x_step s tr' = Some s' -> fl_pub s' = [abort_all] -> nth_error (fl_mem s') 1 = Some m' -> received m' = [] /\ signalled m' = false.
Proof.
  assert (R : exists s, x_run stolen_run = Some s /\ fl_pub s = [abort_all] /\ fl_queue s = [] /\ exists m, nth_error (fl_mem s) 1 = Some m /\ m_w m = w_init 102 /\ m_up m = true).
  { exists (x_after stolen_run). split; [vm_compute; reflexivity|]. split; [vm_compute; reflexivity|]. split; [vm_compute; reflexivity|].
    destruct (nth_error (fl_mem (x_after stolen_run)) 1) as [m|] eqn:E; [|vm_compute in E; discriminate]. exists m. split; [reflexivity|].
    assert (X : option_map m_w (nth_error (fl_mem (x_after stolen_run)) 1) = Some (w_init 102)) by (vm_compute; reflexivity).
    assert (Y : option_map m_up (nth_error (fl_mem (x_after stolen_run)) 1) = Some true) by (vm_compute; reflexivity).
    rewrite E in X, Y. cbn [option_map] in X, Y. split; congruence. }
  destruct R as (s & R & P & Q & m & M & W & U). exists stolen_run, s, m. split; [exact R|]. split; [exact P|]. split; [exact M|]. split; [exact U|]. rewrite W. split; [reflexivity|]. split; [reflexivity|].
  set (J := fun x => fl_pub x <> [] /\ (fl_pub x = [abort_all] -> fl_queue x = [] /\ exists n, nth_error (fl_mem x) 1 = Some n /\ deaf (m_w n))).
  assert (J0 : J s).
  { split; [congruence|]. intros _. split; [exact Q|]. exists m. split; [exact M|]. rewrite W. split; [reflexivity|]. split; [discriminate|]. split; [discriminate|intros p []]. }
  assert (JS : forall x e y, J x -> x_step x e = Some y -> J y).
  { intros x e y [NP JX] H. apply x_cases in H.
    assert (ONE : forall l k, fl_pub x ++ k :: l = [abort_all] -> False) by (intros l k X; destruct (fl_pub x) as [|a [|b r]]; [congruence|discriminate X|discriminate X]).
    assert (SAME : forall w n ws l, nth_error (fl_mem x) w = Some n -> (deaf (m_w n) -> deaf ws) -> (exists n0, nth_error (fl_mem x) 1 = Some n0 /\ deaf (m_w n0)) ->
              forall n', m_w n' = ws -> l = upd w n' (fl_mem x) -> exists n0, nth_error l 1 = Some n0 /\ deaf (m_w n0)).
    { intros w n ws l NW DD (n0 & N0 & D0) n' E ->. destruct (Nat.eq_dec w 1) as [-> | NE].
      - exists n'. split; [apply upd_nth_same; apply nth_error_Some; congruence|]. rewrite E. apply DD. congruence.
      - exists n0. split; [|exact D0]. now rewrite upd_nth_other. }
    destruct H as [(ident & -> & F1 & F2 & F3)|[(w & n & we & ws & c & -> & NC & F0 & S & F1 & F2 & F3)|[(w & n & k & ws & -> & F0 & S & F1 & F2 & F3)|[(k & -> & F1 & F2 & F3)|[(w & n & -> & F0 & F1 & F2 & F3)|
      [(w & n & k & ws & -> & F0 & L & S & F1 & F2 & F3)|(w & n & ws & -> & F0 & L & S & F1 & F2 & F3)]]]]]]; (split; [rewrite F3; try exact NP; destruct (fl_pub x); cbn; congruence|]); rewrite F3; intros PX.
    - destruct (JX PX) as (A & n0 & B & C). rewrite F2. split; [exact A|]. exists n0. split; [|exact C]. rewrite F1. rewrite nth_error_app1; [exact B|]. apply nth_error_Some. congruence.
    - destruct c as [|c]; [|cbn in PX; destruct (ONE _ _ PX)]. cbn in PX, F2. rewrite app_nil_r in PX, F2. destruct (JX PX) as [A B]. rewrite F2. split; [exact A|].
      apply (SAME w n ws _ F0 (fun d => deaf_step _ _ _ NC d S) B (set_w n ws) eq_refl F1).
    - destruct (JX PX) as [A _]. congruence.
    - destruct (ONE _ _ PX).
    - destruct (JX PX) as [A B]. rewrite F2. split; [exact A|]. apply (SAME w n (m_w n) _ F0 (fun d => d) B (mkMem (m_w n) false (m_since n) (m_box n)) eq_refl F1).
    - destruct (JX PX) as [A _]. congruence.
    - destruct (JX PX) as [A B]. rewrite F2. split; [exact A|]. apply (SAME w n ws _ F0) with (n' := set_w n ws); [|exact B|reflexivity|exact F1].
      intros (D1 & D2 & _). exfalso. unfold task_step in S. cbn in S. destruct (w_lis (m_w n)) as [|k|] eqn:LL; [discriminate S|destruct (D2 k eq_refl)|discriminate S]. }
  intros tr' s' m' R' P' M'. assert (J1 : J s') by (eapply (run_from_inv _ _ x_step J); [exact JS|exact J0|exact R']).
  destruct J1 as [_ J1]. destruct (J1 P') as (_ & n & N & (_ & _ & _ & D)). rewrite N in M'. injection M' as ->. split.
  - unfold received. assert (X : forall k, ~ In k (commands (w_log (m_w m')))).
    { intros k I. unfold commands in I. apply in_flat_map in I. destruct I as ([tm a] & I & X). apply in_rev in I. specialize (D _ I). cbn in D, X. destruct a; first [exact X|exact D]. }
    destruct (commands (w_log (m_w m'))) as [|k r]; [reflexivity|]. destruct (X k). now left.
  - unfold signalled. apply not_true_iff_false. intros X. apply existsb_exists in X. destruct X as ([tm a] & I & X). specialize (D _ I). cbn in D, X. destruct a; first [exact D|discriminate X].
Qed.
(** Every command is taken once: by a loop that runs or by one that was left behind. *)
Definition heard (tr : list x_event) : nat := cnt (fun e => match e with XFleet (FCommand _) => true | _ => false end) tr.
Theorem C92_account_partial : forall tr s, x_run tr = Some s -> length (fl_pub s) = length (fl_queue s) + heard tr + wasted tr.
Proof.
  intros tr. induction tr as [|e tr IH] using rev_ind; intros s R; [injection R as <-; reflexivity|]. apply run_from_app in R. destruct R as (m & R1 & R2).
  cbn in R2. destruct (x_step m e) as [s'|] eqn:E; [|discriminate]. injection R2 as <-. specialize (IH m R1). unfold heard, wasted in *. rewrite !cnt_app. apply x_cases in E.
  destruct E as [(ident & -> & F1 & F2 & F3)|[(w & n & we & ws & c & -> & NC & F0 & S & F1 & F2 & F3)|[(w & n & k & ws & -> & F0 & S & F1 & F2 & F3)|[(k & -> & F1 & F2 & F3)|[(w & n & -> & F0 & F1 & F2 & F3)|
      [(w & n & k & ws & -> & F0 & L & S & F1 & F2 & F3)|(w & n & ws & -> & F0 & L & S & F1 & F2 & F3)]]]]]]; rewrite F3; cbn [cnt filter length] in *; rewrite ?F2, ?app_length in *; cbn [length] in *; unfold cnt in *; cbn; lia.
Qed.
(** Without failures no command is wasted. *)
Definition smooth_x (e : x_event) : Prop := match e with XFleet (FWork _ we) => smooth (PLoop we) | _ => True end.
Theorem C92_smooth_partial : forall tr s, Forall smooth_x tr -> x_run tr = Some s -> wasted tr = 0.
Proof.
  intros tr. assert (G : forall s, Forall smooth_x tr -> x_run tr = Some s -> wasted tr = 0 /\ forall m, In m (fl_mem s) -> wcalm (m_w m)).
  { induction tr as [|e tr IH] using rev_ind; intros s SM R; [injection R as <-; split; [reflexivity|intros m []]|]. apply run_from_app in R. destruct R as (x & R1 & R2).
    cbn in R2. destruct (x_step x e) as [s'|] eqn:E; [|discriminate]. injection R2 as <-. apply Forall_app in SM. destruct SM as [S1 S2]. inversion S2 as [|? ? SE _]; subst.
    destruct (IH x S1 R1) as [W C]. unfold wasted in *. rewrite cnt_app, W. apply x_cases in E.
    assert (LB : forall w n, nth_error (fl_mem x) w = Some n -> left_behind (m_w n) = true -> False).
    { intros w n N L. destruct (C n (nth_error_In _ _ N)) as (A & B & _). unfold left_behind, stopped, aborted in L. destruct (w_main (m_w n)) as [| | | | | | | | |[]]; try discriminate; congruence. }
    destruct E as [(ident & -> & F1 & F2 & F3)|[(w & n & we & ws & c & -> & NC & F0 & S & F1 & F2 & F3)|[(w & n & k & ws & -> & F0 & S & F1 & F2 & F3)|[(k & -> & F1 & F2 & F3)|[(w & n & -> & F0 & F1 & F2 & F3)|
      [(w & n & k & ws & -> & F0 & L & S & F1 & F2 & F3)|(w & n & ws & -> & F0 & L & S & F1 & F2 & F3)]]]]]]; try (destruct (LB _ _ F0 L)); (split; [reflexivity|]); rewrite F1; intros m I.
    - apply in_app_or in I. destruct I as [I|[<- |[]]]; [now apply C|]. repeat split; discriminate.
    - apply nth_In_upd in I. destruct I as [-> | I]; [|now apply C]. exact (calm_w _ _ _ SE (C n (nth_error_In _ _ F0)) S).
    - apply nth_In_upd in I. destruct I as [-> | I]; [|now apply C]. assert (SC : smooth (PLoop (WCommand k))) by exact Logic.I. exact (calm_w _ _ _ SC (C n (nth_error_In _ _ F0)) S).
    - now apply C.
    - apply nth_In_upd in I. destruct I as [-> | I]; [|now apply C]. exact (C n (nth_error_In _ _ F0)). }
  intros s SM R. exact (proj1 (G s SM R)).
Qed.
Definition heard_run : list x_event := [XFleet (FStart 101); XFleet (FStart 102); XFleet (FLeader abort_all); XFleet (FWork 1 (WTake (mkT 5 1))); XFleet (FCommand 1)].
Example C92_ex : Forall smooth_x heard_run /\ exists s, x_run heard_run = Some s /\ heard heard_run = 1 /\ fl_queue s = [] /\ map received (fl_mem s) = [[]; [abort_all]].
Proof. split; [repeat constructor|]. eexists. split; [vm_compute; reflexivity|]. now vm_compute. Qed.
Example C92_ex_wasted : wasted stolen_run = 1 /\ heard stolen_run = 0. Proof. now vm_compute. Qed.

Print Assumptions C91_refuted.
Print Assumptions C91_emulator.
Print Assumptions C91_iff_partial.
Print Assumptions C91_for_ever.
Print Assumptions C91_takes_all.
Print Assumptions C91_smooth_partial.
Print Assumptions C92_refuted.
Print Assumptions C92_account_partial.
Print Assumptions C92_smooth_partial.
