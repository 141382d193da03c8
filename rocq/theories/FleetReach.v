(** C60, continued: which of the workers that still work one failure can stop. *)
From Coq Require Import List Arith NArith Lia Bool.
From Verif Require Import Base BaseFacts RetryModel WorkerModel WorkerSpec WorkerProofs WorkerFacts WorkerInv WorkerProps SystemModel SystemProofs FleetModel FleetSpec FleetProofs FleetProps FleetStart.
Import ListNotations.
Open Scope nat_scope.

(** On AMQP no worker has a queue of its own. *)
Definition no_box (s : fleet) : Prop := forall m, In m (fl_mem s) -> m_box m = [].
Lemma no_box_upd : forall s w m m' q p, no_box s -> nth_error (fl_mem s) w = Some m -> m_box m' = m_box m -> no_box (mkFl (upd w m' (fl_mem s)) q p).
Proof. intros s w m m' q p B N E x I. apply In_nth_error in I. destruct I as (j & I). cbn [fl_mem] in I. apply upd_nth in I. destruct I as [[_ ->]|[_ I]]; [rewrite E|]; apply B; eapply nth_error_In; eauto. Qed.
Lemma no_box_publish_n : forall n s k, no_box s -> no_box (publish_n Shared s n k).
Proof. intros n. induction n as [|n IH]; intros s k B; [exact B|]. cbn [publish_n]. apply IH. intros m I. apply B, I. Qed.
Lemma no_box_step : forall s e s', no_box s -> f_step Shared s e = Some s' -> no_box s'.
Proof.
  intros s e s' B H. destruct e as [ident|w we|w|k|w]; cbn [f_step] in H.
  - injection H as <-. intros m I. cbn [fl_mem] in I. apply in_app_iff in I. destruct I as [I|[<-|[]]]; [apply B, I|reflexivity].
  - destruct we; try discriminate H; (destruct (nth_error (fl_mem s) w) as [m|] eqn:N; [|discriminate H]); (destruct (m_up m); [|discriminate H]); match type of H with context [w_step ?a ?b] => destruct (w_step a b) as [ws|]; [|discriminate H] end; injection H as <-; apply no_box_publish_n; apply (no_box_upd s w m); auto.
  - destruct (nth_error (fl_mem s) w) as [m|] eqn:N; [|discriminate H]. destruct (m_up m); [|discriminate H]. destruct (fl_queue s) as [|k q]; [destruct (m_box m); discriminate H|]. destruct (w_step (m_w m) (WCommand k)) as [ws|]; [|discriminate H]. injection H as <-. apply (no_box_upd s w m); auto.
  - injection H as <-. intros m I. apply B, I.
  - destruct (nth_error (fl_mem s) w) as [m|] eqn:N; [|discriminate H]. injection H as <-. apply (no_box_upd s w m); auto.
Qed.
Lemma no_box_run : forall tr s, f_run Shared tr = Some s -> no_box s.
Proof. intros tr s R. refine (run_from_inv _ _ (f_step Shared) no_box no_box_step tr fl_init s _ R). intros m []. Qed.

(** A worker that waits for a task and has not heard of an abort-all can be stopped, with nothing published meanwhile, exactly if one is waiting for it. *)
Theorem C60_iff_partial : forall kind tr1 s1 w m1, f_run kind tr1 = Some s1 -> nth_error (fl_mem s1) w = Some m1 -> m_up m1 = true ->
  w_lis (m_w m1) = LisIdle -> w_main (m_w m1) = WpWait -> w_flag (m_w m1) = false -> marked abort_all (w_jobs (m_w m1)) = false -> ~ In abort_all (received m1) ->
  ((exists tr2 s m, run_from (f_step kind) s1 tr2 = Some s /\ fl_pub s = fl_pub s1 /\ nth_error (fl_mem s) w = Some m /\ signalled m = true)
   <-> match kind with Shared => In abort_all (fl_queue s1) | Copies => In abort_all (skipn (m_since m1) (fl_pub s1)) end).
Proof.
  intros kind tr1 s1 w m1 H1 N U L M F B NR.
  assert (E : match kind with Shared => In abort_all (fl_queue s1) | Copies => In abort_all (skipn (m_since m1) (fl_pub s1)) end <-> In abort_all (src kind s1 m1)).
  { destruct kind; [reflexivity|]. destruct (cinv_run _ _ H1) as (C & _). destruct (C m1 (nth_error_In _ _ N)) as [<- _]. rewrite in_app_iff. cbn [src]. tauto. }
  rewrite E. clear E. split.
  - intros (tr2 & s & m & H2 & P & NM & SG).
    assert (RR : f_run kind (tr1 ++ tr2) = Some s) by (apply run_from_app; exists s1; auto).
    destruct (all_reach_run _ _ _ RR (m_w m)) as (id' & wtr & RW); [apply in_map; eapply nth_error_In; eauto|]. pose proof (signalled_received _ _ _ RW SG) as I.
    assert (Q : places s1 w abort_all) by (apply (run_places kind tr2 s1 s _ _ H2); [apply nth_error_Some; congruence|exact P|right; exists m; auto]).
    destruct Q as [Q|(u & N' & Q)].
    + destruct kind; [exact Q|]. destruct (cinv_run _ _ H1) as (_ & _ & C). rewrite C in Q; [destruct Q|]. intros Z. rewrite Z in N. destruct w; discriminate N.
    + rewrite N in N'. injection N' as <-. destruct Q as [Q|Q]; [contradiction|]. destruct kind; [|exact Q]. rewrite (no_box_run _ _ H1 m1 (nth_error_In _ _ N)) in Q. destruct Q.
  - intros I. destruct (first_in _ _ I) as (pre & q & E & NI). destruct (hear_all kind pre q s1 w m1 N U) as (tr2 & s & m & R & N' & P & G); [repeat split; auto|exact E|exact NI|]. exists tr2, s, m. auto.
Qed.
Print Assumptions C60_iff_partial.
(** One failure is enough for each of the two others, in memory; on AMQP worker 1 is safe once worker 2 has taken the command. *)
Example C60_iff_case : exists s m1 m2, f_run Copies ([FStart 101; FStart 102; FStart 103] ++ fails 0 1) = Some s /\ nth_error (fl_mem s) 1 = Some m1 /\ nth_error (fl_mem s) 2 = Some m2 /\
  forall m, In m [m1; m2] -> m_up m = true /\ w_lis (m_w m) = LisIdle /\ w_main (m_w m) = WpWait /\ w_flag (m_w m) = false /\ marked abort_all (w_jobs (m_w m)) = false /\ ~ In abort_all (received m) /\ In abort_all (skipn (m_since m) (fl_pub s)).
Proof. eexists _, _, _. split; [vm_compute; reflexivity|]. split; [reflexivity|]. split; [reflexivity|]. intros m [<-|[<-|[]]]; (do 5 (split; [reflexivity|]); split; [intros []|cbn; auto]). Qed.
Example C60_iff_safe : exists s m, f_run Shared ([FStart 101; FStart 102; FStart 103] ++ fails 0 1 ++ [FCommand 2]) = Some s /\ nth_error (fl_mem s) 1 = Some m /\
  m_up m = true /\ w_lis (m_w m) = LisIdle /\ w_main (m_w m) = WpWait /\ w_flag (m_w m) = false /\ marked abort_all (w_jobs (m_w m)) = false /\ ~ In abort_all (received m) /\ fl_pub s = [abort_all] /\ ~ In abort_all (fl_queue s).
Proof. eexists _, _. split; [vm_compute; reflexivity|]. split; [reflexivity|]. do 5 (split; [reflexivity|]). split; [intros []|]. split; [reflexivity|intros []]. Qed.
