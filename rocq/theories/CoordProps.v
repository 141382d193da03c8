(** C16 to C20: the coordinated channel. *)
From Coq Require Import List Arith NArith Bool Lia.
From Verif Require Import Base BaseFacts CoordModel CoordSpec CoordProofs.
Import ListNotations.
Open Scope nat_scope.

(** The state after a run, for the concrete cases. *)
Definition after (s : chan) (tr : list chan_event) : chan := match run_from chan_step s tr with Some s' => s' | None => s end.
Ltac vmr := vm_compute; reflexivity.
Ltac nodup := repeat constructor; discriminate.

(** The full statement of C16: whenever a poll returns None the channel is closed and everything accepted by the broker
    has been received and acknowledged. *)
Definition C16_full : Prop := forall tr s s',
  no_dup tr -> inner_never_ends tr -> short tr ->
  chan_run tr = Some s -> chan_step s EvPollStep = Some s' -> ends s' = S (ends s) ->
  ch_closed s' = true /\ everything_acked s' /\ ok_publishes s' <= ch_sent s'.

(** One poll loads the counter (0), then a publish and a close run to completion, then the poll loads [closed]. *)
Definition race : list chan_event :=
  [EvPoll; EvPollInner RPending; EvPollStep;                                            (* counter read as 0 *)
   EvPublish; EvPubStep 0 true; EvPubStep 0 true; EvPubStep 0 true; EvPubStep 0 true;   (* publish returns Ok *)
   EvClose; EvCloseStep 0 true; EvCloseStep 0 true; EvCloseStep 0 true].                (* close returns Ok *)

Theorem C16_no_early_end_refuted : exists tr s s',
  no_dup tr /\ inner_never_ends tr /\ short tr /\
  chan_run tr = Some s /\ chan_step s EvPollStep = Some s' /\ ends s' = S (ends s) /\
  ok_publishes s' = 1 /\ length (ch_ackers s') = 0 /\ ~ everything_acked s'.
Proof.
  exists race, (after chan_init race), (after chan_init (race ++ [EvPollStep])).
  split; [nodup|]. split; [nodup|]. split; [vmr|]. split; [vmr|]. split; [vmr|]. split; [vmr|].
  split; [vmr|]. split; [vmr|]. intros [X _]. vm_compute in X. discriminate.
Qed.
Print Assumptions C16_no_early_end_refuted.

(** Without the hypothesis that results are delivered once, even a sequential use ends early. *)
Definition dup_run : list chan_event :=
  [EvPublish; EvPubStep 0 true; EvPubStep 0 true; EvPubStep 0 true; EvPubStep 0 true;
   EvPublish; EvPubStep 1 true; EvPubStep 1 true; EvPubStep 1 true; EvPubStep 1 true;
   EvClose; EvCloseStep 0 true; EvCloseStep 0 true; EvCloseStep 0 true;
   EvResult; EvDupResult;
   EvPoll; EvPollInner RItem; EvAck 0; EvAckStep 0; EvAckStep 0;
   EvPoll; EvPollInner RItem; EvAck 1; EvAckStep 1; EvAckStep 1;
   EvPoll; EvPollInner RPending; EvPollStep; EvPollStep].

Theorem C16_duplicate_result_refuted : exists tr s,
  inner_never_ends tr /\ short tr /\ chan_run tr = Some s /\ ends s = 1 /\ ok_publishes s = 2 /\ ch_inflight s = 1.
Proof.
  exists dup_run, (after chan_init dup_run). split; [nodup|]. repeat (split; [vmr|]); vmr.
Qed.
Print Assumptions C16_duplicate_result_refuted.

(** What does hold: a poll that begins once the sender is closed and no publish is between its check and its return never
    ends the stream too early. [t1] is the history up to that point, [t2] anything after it, including further calls.
    Missing from the full statement: polls that overlap with the closing publish, see the refutation. *)
Theorem C16_no_early_end_partial : forall t1 t2 s0 s,
  no_dup (t1 ++ t2) -> short (t1 ++ t2) ->
  chan_run t1 = Some s0 -> ch_closed s0 = true -> no_publish_in_progress s0 -> ch_poll s0 = PollIdle ->
  run_from chan_step s0 t2 = Some s -> ends s0 < ends s ->
  ch_closed s = true /\ everything_acked s /\ ok_publishes s <= ch_sent s.
Proof.
  intros t1 t2 s0 s F B R C N P H L.
  destruct (calm_ends t2 t1 s0 s R F B (conj C N) (ends s0) (or_introl eq_refl)) as [[C1 N1] K]; [congruence|exact H|].
  destruct K as [K|K]; [lia|].
  assert (RR : chan_run (t1 ++ t2) = Some s) by (apply run_from_app; eauto).
  pose proof (counts_run _ _ _ F counts_init RR) as CC.
  pose proof (ackers_run _ _ _ ackers_init RR) as AA.
  split; [exact C1|]. split; [now apply npend_zero_acked|].
  rewrite (c_sent_pubs s CC). unfold ok_publishes. change (cnt (fun p => match p with PubDone PubOk => true | _ => false end) (ch_pubs s) <= cnt is_sent (ch_pubs s)).
  clear. induction (ch_pubs s) as [|p l IH]; [reflexivity|]. rewrite !cnt_cons. destruct p as [| | | | [| |[]]]; cbn; lia.
Qed.
Print Assumptions C16_no_early_end_partial.

(** Every item comes with a new acker, and no poll ends or yields an item besides. *)
Theorem C16_items : forall tr s, chan_run tr = Some s -> cnt (fun r => match r with RItem => true | _ => false end) (ch_log s) = length (ch_ackers s).
Proof.
  intros tr s R. eapply (run_from_inv _ _ chan_step (fun s => cnt (fun r => match r with RItem => true | _ => false end) (ch_log s) = length (ch_ackers s))); [| |exact R]; [|reflexivity].
  intros s1 e s2 I E. destruct e; cbn [chan_step] in E; step_cases E; cbn [ch_log ch_ackers set_pub set_closes set_env set_poll set_acks] in *; rewrite ?cnt_cons, ?app_length, ?upd_length; cbn [length]; try exact I; try (rewrite I; lia);
    rewrite I; unfold b2n; [lia|destruct (ch_closed s1 && _); reflexivity|destruct (ch_pending s1 =? 0)%N; reflexivity].
Qed.
Print Assumptions C16_items.

(** The same without assuming anything about the start: whoever polls in any state never sees an end before the channel was closed,
    as long as the inner stream does not end by itself. *)
Theorem C16_end_means_closed : forall tr s s',
  chan_run tr = Some s -> inner_never_ends tr -> chan_step s EvPollStep = Some s' -> ends s' = S (ends s) -> ch_closed s' = true.
Proof.
  intros tr s s' R F E H.
  assert (I : ch_poll s <> PollEnded).
  { eapply (run_from_inv_where _ _ chan_step (fun e => e <> EvPollInner RNone) (fun s => ch_poll s <> PollEnded)); [|exact F| |exact R].
    - intros s1 e s2 NE I1 E1. destruct e; cbn [chan_step] in E1; step_cases E1; cbn; congruence.
    - discriminate. }
  destruct (ends_step _ _ _ E) as [X | (_ & _ & _ & [[_ C]|[P _]] & _)]; [lia| |congruence].
  eapply closed_step; eauto.
Qed.
Print Assumptions C16_end_means_closed.

(** A run of the whole protocol that meets the hypotheses of the partial theorem. *)
Definition good_history : list chan_event :=
  [EvPublish; EvPubStep 0 true; EvPubStep 0 true; EvPubStep 0 true; EvPubStep 0 true;
   EvPublish; EvPubStep 1 true; EvPubStep 1 true; EvPubStep 1 true; EvPubStep 1 true;
   EvPoll; EvPollInner RPending; EvPollStep; EvPollStep;
   EvClose; EvCloseStep 0 true; EvCloseStep 0 true; EvCloseStep 0 true].
Definition good_rest : list chan_event :=
  [EvPublish; EvPubStep 2 true;                                                 (* a late publish is refused *)
   EvResult; EvPoll; EvPollInner RItem; EvPoll; EvPollInner RPending; EvPollStep; EvPollStep;
   EvAck 0; EvAckStep 0; EvAck 0; EvAckStep 1; EvAckStep 0;                     (* acked twice, interleaved *)
   EvResult; EvPoll; EvPollInner RItem; EvAck 1; EvAckStep 2; EvAckStep 2;
   EvPoll; EvPollInner RPending; EvPollStep; EvPollStep].
Example C16_case : exists s0 s,
  no_dup (good_history ++ good_rest) /\ short (good_history ++ good_rest) /\
  chan_run good_history = Some s0 /\ ch_closed s0 = true /\ no_publish_in_progress s0 /\ ch_poll s0 = PollIdle /\
  run_from chan_step s0 good_rest = Some s /\ ends s0 < ends s /\
  ch_log s = [RNone; RItem; RPending; RItem; RPending] /\ ch_subs s = [1; 0].
Proof.
  exists (after chan_init good_history), (after chan_init (good_history ++ good_rest)).
  split; [nodup|]. split; [vmr|]. split; [vmr|].
  split; [vmr|]. split; [vm_compute; intros p [<-|[<-|[]]]; reflexivity|]. split; [vmr|]. split; [vmr|].
  split; [vm_compute; lia|]. split; vmr.
Qed.

(** C17: closed, nothing failed, everything received and acknowledged, then the next poll returns None, whether the inner
    stream answers pending or ends; it cannot answer with an item. *)
Theorem C17_ends_when_done : forall tr s,
  no_dup tr -> short tr -> chan_run tr = Some s ->
  ch_closed s = true -> no_publish_in_progress s -> failed_publishes s = 0 -> everything_acked s -> ch_poll s = PollIdle ->
  (exists s', run_from chan_step s [EvPoll; EvPollInner RPending; EvPollStep; EvPollStep] = Some s' /\ ch_log s' = RNone :: ch_log s) /\
  (exists s', run_from chan_step s [EvPoll; EvPollInner RNone; EvPollStep] = Some s' /\ ch_log s' = RNone :: ch_log s) /\
  run_from chan_step s [EvPoll; EvPollInner RItem] = None.
Proof.
  intros tr s F B R C N FP EA P.
  pose proof (counts_run _ _ _ F counts_init R) as CC. pose proof (ackers_run _ _ _ ackers_init R) as AA.
  pose proof (acked_npend_zero s CC AA EA N FP) as Z. pose proof (pending_exact tr s F B R) as PX. rewrite Z in PX.
  assert (AV : ch_avail s = 0) by (unfold npend in Z; lia).
  split; [|split].
  - cbn. rewrite P. cbn. eexists. split; [reflexivity|]. cbn. now rewrite C, PX.
  - cbn. rewrite P. cbn. eexists. split; [reflexivity|]. cbn. now rewrite PX.
  - cbn. rewrite P. cbn. now rewrite AV.
Qed.
Print Assumptions C17_ends_when_done.

(** Dropping the sender closes the channel just as well: the steps of Drop always end with [closed] set. *)
Theorem C17_drop_closes : forall s s1 i,
  chan_step s EvDrop = Some s1 -> i = length (ch_closes s) ->
  exists n s2, run_from chan_step s1 (repeat (EvCloseStep i true) n) = Some s2 /\ ch_closed s2 = true /\
               nth_error (ch_closes s2) i = Some (ClDone true).
Proof.
  intros s s1 i H ->. injection H as <-. set (i := length (ch_closes s)).
  assert (E0 : nth_error (ch_closes s ++ [ClLoad]) i = Some ClLoad) by (unfold i; rewrite nth_error_app2, Nat.sub_diag; auto).
  assert (L0 : i < length (ch_closes s ++ [ClLoad])) by (rewrite app_length; cbn; unfold i; lia).
  destruct (ch_closed s) eqn:C.
  - exists 1. eexists. cbn. rewrite E0. cbn. split; [reflexivity|]. cbn. split; [reflexivity|]. now apply upd_nth_same.
  - exists 2. eexists. cbn. rewrite E0. cbn. rewrite upd_nth_same by exact L0. cbn. split; [reflexivity|]. cbn. split; [reflexivity|].
    apply upd_nth_same. now rewrite upd_length.
Qed.
Print Assumptions C17_drop_closes.

(** A call of [close] whose inner close succeeds closes the channel too, whatever else is going on; one whose inner close fails
    reports that and leaves the channel as it was. *)
Theorem C17_close_closes : forall s s1 i,
  chan_step s EvClose = Some s1 -> i = length (ch_closes s) ->
  (exists n s2, run_from chan_step s1 (repeat (EvCloseStep i true) n) = Some s2 /\ ch_closed s2 = true /\
                nth_error (ch_closes s2) i = Some (ClDone true)) /\
  (exists s2, chan_step s1 (EvCloseStep i false) = Some s2 /\ ch_closed s2 = ch_closed s /\ nth_error (ch_closes s2) i = Some (ClDone false)).
Proof.
  intros s s1 i H ->. injection H as <-. set (i := length (ch_closes s)).
  assert (E0 : nth_error (ch_closes s ++ [ClInner]) i = Some ClInner) by (unfold i; rewrite nth_error_app2, Nat.sub_diag; auto).
  assert (L0 : i < length (ch_closes s ++ [ClInner])) by (rewrite app_length; cbn; unfold i; lia).
  split.
  - destruct (ch_closed s) eqn:C.
    + exists 2. cbn. rewrite E0. cbn. rewrite upd_nth_same by exact L0. cbn. eexists. split; [reflexivity|]. cbn. split; [reflexivity|].
      apply upd_nth_same. now rewrite upd_length.
    + exists 3. cbn. rewrite E0. cbn. rewrite upd_nth_same by exact L0. cbn.
      rewrite upd_nth_same by (now rewrite upd_length). cbn. eexists. split; [reflexivity|]. cbn. split; [reflexivity|].
      apply upd_nth_same. now rewrite !upd_length.
  - eexists. cbn. rewrite E0. split; [reflexivity|]. cbn. split; [reflexivity|]. now apply upd_nth_same.
Qed.
Print Assumptions C17_close_closes.

Definition drained : list chan_event := good_history ++ firstn 20 good_rest.
Example C17_case : exists s,
  no_dup drained /\ short drained /\ chan_run drained = Some s /\ ch_closed s = true /\ no_publish_in_progress s /\
  failed_publishes s = 0 /\ everything_acked s /\ ch_poll s = PollIdle /\ ch_sent s = 2.
Proof.
  exists (after chan_init drained). split; [nodup|]. split; [vmr|]. split; [vmr|].
  split; [vmr|]. split; [vm_compute; intros p [<-|[<-|[<-|[]]]]; reflexivity|]. split; [vmr|].
  split; [|split; vmr]. split; [vmr|]. vm_compute. intros [|[|a]] L; auto. lia.
Qed.

(** C18 is false: once a publish failed in the inner publisher without the message being accepted, no later poll ever returns
    None, whatever happens afterwards. *)
Theorem C18_failed_publish_hangs : forall t1 t2 s0 s,
  no_dup (t1 ++ t2) -> short (t1 ++ t2) -> chan_run t1 = Some s0 -> 0 < failed_publishes s0 -> ch_poll s0 = PollIdle ->
  run_from chan_step s0 t2 = Some s -> ends s = ends s0.
Proof.
  intros t1 t2 s0 s F B R L P H. apply (leak_no_end t2 t1 s0 s R F B L); [congruence|exact H].
Qed.
Print Assumptions C18_failed_publish_hangs.

Definition failed_history : list chan_event :=
  [EvPublish; EvPubStep 0 true; EvPubStep 0 true; EvPubStep 0 true; EvPubStep 0 true;
   EvPublish; EvPubStep 1 true; EvPubStep 1 true; EvPubStep 1 false;
   EvDrop; EvCloseStep 0 true; EvCloseStep 0 true;
   EvResult; EvPoll; EvPollInner RItem; EvAck 0; EvAckStep 0; EvAckStep 0].

Theorem C18_failed_publish_refuted : exists tr s,
  no_dup tr /\ chan_run tr = Some s /\ ch_closed s = true /\ everything_acked s /\ no_publish_in_progress s /\
  ok_publishes s = 1 /\ failed_publishes s = 1 /\
  forall t2 s2, no_dup t2 -> short (tr ++ t2) -> run_from chan_step s t2 = Some s2 -> ends s2 = 0.
Proof.
  assert (F : no_dup failed_history) by nodup.
  assert (R : chan_run failed_history = Some (after chan_init failed_history)) by vmr.
  exists failed_history, (after chan_init failed_history). split; [exact F|]. split; [exact R|].
  split; [vmr|]. split; [split; [vmr|]; vm_compute; intros [|a] L; auto; lia|].
  split; [vm_compute; intros p [<-|[<-|[]]]; reflexivity|]. split; [vmr|]. split; [vmr|].
  intros t2 s2 F2 B H.
  rewrite (C18_failed_publish_hangs failed_history t2 (after chan_init failed_history) s2);
    [vmr | apply no_dup_app; split; assumption | exact B | exact R | vm_compute; lia | vmr | exact H].
Qed.
Print Assumptions C18_failed_publish_refuted.

(** C19: whatever the interleaving of ack and nack calls, an acker decreases the counter at most once, ... *)
Theorem C19_at_most_once : forall tr s, chan_run tr = Some s -> NoDup (ch_subs s).
Proof. intros tr s R. apply (a_nodup s). now apply (ackers_run tr chan_init s ackers_init). Qed.
Print Assumptions C19_at_most_once.

(** ... exactly once as soon as one of its calls has returned and none is in the middle, and not at all before a call; *)
Theorem C19_exactly_once : forall tr s a, chan_run tr = Some s ->
  (exists i, nth_error (ch_acks s) i = Some (AckDone a)) -> ~ In (AckSub a) (ch_acks s) ->
  count_occ Nat.eq_dec (ch_subs s) a = 1.
Proof.
  intros tr s a R [i D] N. pose proof (ackers_run tr chan_init s ackers_init R) as A.
  apply (a_fin s A) in D. apply (a_true s A) in D. destruct D as [D|D]; [|tauto].
  pose proof (proj1 (NoDup_count_occ Nat.eq_dec _) (a_nodup s A) a). apply (count_occ_In Nat.eq_dec) in D. lia.
Qed.
Print Assumptions C19_exactly_once.

Theorem C19_not_before : forall tr s a, chan_run tr = Some s -> ~ In (EvAck a) tr -> ~ In a (ch_subs s).
Proof.
  intros tr s a R N.
  assert (I : ~ In a (ch_subs s) /\ ~ In (AckSwap a) (ch_acks s) /\ ~ In (AckSub a) (ch_acks s)).
  { eapply (run_from_inv_where _ _ chan_step (fun e => e <> EvAck a)
      (fun s => ~ In a (ch_subs s) /\ ~ In (AckSwap a) (ch_acks s) /\ ~ In (AckSub a) (ch_acks s))); [| | |exact R].
    - intros s1 e s2 NE (I1 & I2 & I3) E.
      destruct e as [| j ok | | | j ok | | | | | r | | b | j]; cbn [chan_step] in E; try (step_cases E; cbn; tauto).
      + destruct (b <? length (ch_ackers s1)); [|discriminate]. injection E as <-. cbn. rewrite !in_app_iff. cbn.
        repeat split; [tauto| |]; intros [X|[X|[]]]; try tauto; congruence.
      + destruct (nth_error (ch_acks s1) j) as [p|] eqn:J; [|discriminate]. apply nth_error_In in J.
        destruct p as [b|b|b]; cbn in E; try discriminate.
        * destruct (nth_error (ch_ackers s1) b) as [did|]; [|discriminate]. injection E as <-. cbn.
          split; [exact I1|]. split; intros X; apply nth_In_upd in X; destruct X as [X|X]; try tauto;
            destruct did; try discriminate; injection X as ->; tauto.
        * injection E as <-. cbn. split; [intros [->|X]; tauto|].
          split; intros X; apply nth_In_upd in X; destruct X as [X|X]; try tauto; discriminate.
    - apply Forall_forall. intros e He ->. tauto.
    - cbn. tauto. }
  tauto.
Qed.
Print Assumptions C19_not_before.

(** ... and when every message is delivered at most once the counter is exact, so decreasing it never passes below zero. *)
Theorem C19_no_underflow : forall tr s s' i a,
  no_dup tr -> short tr -> chan_run tr = Some s -> nth_error (ch_acks s) i = Some (AckSub a) ->
  chan_step s (EvAckStep i) = Some s' -> (ch_pending s = ch_pending s' + 1)%N.
Proof.
  intros tr s s' i a F B R P E. pose proof (pending_exact tr s F B R) as PX.
  cbn [chan_step] in E. rewrite P in E. cbn in E. injection E as <-. cbn.
  assert (Z : exists k, npend s = S k).
  { pose proof (cnt_upd _ is_sub i _ _ (AckDone a) P) as U. cbn [b2n is_sub] in U. unfold npend.
    destruct (cnt is_sub (ch_acks s)); [lia|]. eexists. rewrite <- plus_n_Sm. reflexivity. }
  destruct Z as [k Z]. rewrite PX, Z, wpred_pos. lia.
Qed.
Print Assumptions C19_no_underflow.

Example C19_case : exists s, chan_run (good_history ++ good_rest) = Some s /\
  length (filter (fun e => match e with EvAck 0 => true | _ => false end) (good_history ++ good_rest)) = 2 /\
  nth_error (ch_acks s) 0 = Some (AckDone 0) /\ nth_error (ch_acks s) 1 = Some (AckDone 0) /\ ~ In (AckSub 0) (ch_acks s) /\
  count_occ Nat.eq_dec (ch_subs s) 0 = 1.
Proof.
  exists (after chan_init (good_history ++ good_rest)). split; [vmr|]. split; [vmr|]. split; [vmr|]. split; [vmr|].
  split; [|vmr]. vm_compute. intuition discriminate.
Qed.

(** C20: a publish call that starts after closing is refused; the inner publisher is not called for it, and it never takes
    the step that increments the counter (it is never beyond its first check). *)
Theorem C20_publish_after_close : forall t1 t2 s0 s,
  chan_run t1 = Some s0 -> ch_closed s0 = true -> run_from chan_step s0 t2 = Some s ->
  forall i, length (ch_pubs s0) <= i < length (ch_pubs s) ->
  (nth_error (ch_pubs s) i = Some PubStart \/ nth_error (ch_pubs s) i = Some (PubDone PubClosed)) /\ ~ In i (ch_calls s).
Proof.
  intros t1 t2 s0 s R C H i L.
  assert (G : forall t2 s0, (forall j, In j (ch_calls s0) -> j < length (ch_pubs s0)) -> ch_closed s0 = true ->
                 run_from chan_step s0 t2 = Some s -> length (ch_pubs s0) <= i < length (ch_pubs s) ->
                 (nth_error (ch_pubs s) i = Some PubStart \/ nth_error (ch_pubs s) i = Some (PubDone PubClosed)) /\ ~ In i (ch_calls s)).
  { clear. induction t2 as [|e t2 IH]; intros s0 CR C H L; cbn in H; [injection H as <-; lia|].
    destruct (chan_step s0 e) as [s1|] eqn:E; [|discriminate].
    pose proof (closed_step _ _ _ E C) as C1. pose proof (calls_range_step _ _ _ E CR) as CR1.
    destruct (le_lt_dec (length (ch_pubs s1)) i) as [G|G]; [apply (IH s1); auto; lia|].
    apply (late_call_run t2 s1 s i H C1).
    - left. destruct e; cbn [chan_step] in E; try (step_cases E; cbn in G; rewrite ?upd_length in G; lia).
      injection E as <-. cbn in *. rewrite app_length in G. cbn in G. assert (i = length (ch_pubs s0)) by lia. subst i.
      rewrite nth_error_app2, Nat.sub_diag; auto.
    - intros I. destruct e; cbn [chan_step] in E; try (step_cases E; cbn in G; rewrite ?upd_length in G; lia).
      injection E as <-. cbn in I. apply CR in I. lia. }
  apply (G t2 s0); auto. eapply calls_range; eauto.
Qed.
Print Assumptions C20_publish_after_close.

(** The first step of such a call answers with the error at once and changes nothing else. *)
Theorem C20_refused_at_once : forall s i ok s', ch_closed s = true -> nth_error (ch_pubs s) i = Some PubStart ->
  chan_step s (EvPubStep i ok) = Some s' ->
  nth_error (ch_pubs s') i = Some (PubDone PubClosed) /\ ch_pending s' = ch_pending s /\ ch_sent s' = ch_sent s /\ ch_calls s' = ch_calls s.
Proof.
  intros s i ok s' C P H. cbn [chan_step] in H. rewrite P in H. cbn in H. rewrite C in H. injection H as <-. cbn.
  repeat split. apply upd_nth_same. apply nth_error_Some. congruence.
Qed.
Print Assumptions C20_refused_at_once.

(** A call that checked before the close is not refused: after the stream has ended, its message is still sent, and lost. *)
Definition overtaken : list chan_event :=
  [EvPublish; EvPubStep 0 true;                                                (* sees the channel open *)
   EvDrop; EvCloseStep 0 true; EvCloseStep 0 true;                             (* another clone is dropped *)
   EvPoll; EvPollInner RPending; EvPollStep; EvPollStep;                       (* the stream ends *)
   EvPubStep 0 true; EvPubStep 0 true; EvPubStep 0 true].                      (* and the publish succeeds *)
Example C20_overtaken : exists s, chan_run overtaken = Some s /\ ends s = 1 /\ ok_publishes s = 1 /\ ch_inflight s = 1.
Proof. exists (after chan_init overtaken). repeat (split; [vmr|]); vmr. Qed.

Example C20_case : exists s0 s, chan_run good_history = Some s0 /\ ch_closed s0 = true /\
  run_from chan_step s0 good_rest = Some s /\ length (ch_pubs s0) = 2 /\ length (ch_pubs s) = 3 /\
  nth_error (ch_pubs s) 2 = Some (PubDone PubClosed) /\ ch_calls s = [1; 0].
Proof. exists (after chan_init good_history), (after chan_init (good_history ++ good_rest)). repeat (split; [vmr|]); vmr. Qed.
