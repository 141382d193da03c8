(** C94: a mapped stream uses its channel as the coordinated channel allows. *)
From Coq Require Import List Arith NArith Bool Lia.
From Verif Require Import Base BaseFacts CoordModel CoordSpec CoordProofs CoordProps PublishModel MapModel MapSpec MapProps MapCoord.
Import ListNotations.
Open Scope nat_scope.

(** The channel as the mapped stream sees it: its flag, its counter, the calls of [publish], what the broker took, the polls that ended
    the stream, the results received and the acknowledgements that took effect. Between two steps of the mapped stream no poll of the channel is under way. *)
Record agrees {A B E : Type} (s : mstate A B E) (c : chan) : Prop := {
  ag_closed : ch_closed c = m_closed s;
  ag_pending : ch_pending c = m_pending s;
  ag_calls : length (ch_pubs c) = length (pa_pulled (m_pa s));
  ag_sent : ch_sent c = length (pa_acc (m_pa s));
  ag_ends : ends c = if m_rdone s then 1 else 0;
  ag_received : length (ch_ackers c) = length (filter received (m_log s)) + match m_then s with Some _ => 1 | None => 0 end;
  ag_confirmed : length (ch_subs c) = length (filter confirmed (m_log s));
  ag_idle : ch_poll c = PollIdle;
  ag_quiet : pa_ret (m_pa s) = Some PaOk -> no_publish_in_progress c /\ failed_publishes c = 0
}.

Section C94.
Context {A B E O : Type}.
Variable exec : O -> A -> res E B.

Lemma rel_agrees : forall nd (s : mstate A B E) c, rel nd s c -> agrees s c.
Proof.
  intros nd s c [[[P1 P2 P3 P4 P5 P6 P7 P8 P9 P10] X2 X3 X4 X5 X6 X7 X8] R2 R3 R4 R5]. constructor; auto.
  intros RO. assert (F : pa_futs (m_pa s) = []) by (apply P7; congruence). split.
  - intros p I. apply In_nth_error in I as (n & I). destruct (in_progress p) eqn:G; [|reflexivity]. exfalso.
    destruct (P9 _ _ I G) as [(x & a & r & J)|(e & J & K)]; [rewrite F in J; destruct J|congruence].
  - apply (cnt_zero _ (fun p => match p with PubDone (PubInnerErr false) => true | _ => false end)). intros p I.
    apply In_nth_error in I as (n & I). destruct p as [| | | |[| |[|]]]; try reflexivity. exfalso.
    destruct (P10 _ _ I) as [(x & J)|(e & J & K)]; [rewrite F in J; destruct J|congruence].
Qed.

Lemma rel_init : forall arr late en, rel true (m_init (A := A) (B := B) (E := E) arr late en) chan_init.
Proof.
  intros arr late en. constructor; cbn; auto.
  - constructor; cbn; auto; try discriminate.
    + constructor; cbn; auto; try discriminate; try apply NoDup_nil.
      * intros ? ? ? [].
      * intros ? ? [].
      * intros [|n] q Q; discriminate Q.
      * intros [|n] b Q; discriminate Q.
    + intros Z. exfalso. now apply Z.
Qed.

Lemma few_nodup : forall k ctr, few k true ctr = true -> CoordSpec.no_dup ctr.
Proof.
  intros k ctr H. unfold few in H. apply andb_true_iff in H as [H _]. rewrite forallb_forall in H. apply Forall_forall. intros e I ->. now specialize (H _ I).
Qed.
Lemma few_never : forall k nd ctr, few k nd ctr = true -> inner_never_ends ctr.
Proof.
  intros k nd ctr H. unfold few in H. apply andb_true_iff in H as [H _]. rewrite forallb_forall in H. apply Forall_forall. intros e I ->. now specialize (H _ I).
Qed.
Lemma few_weak : forall k nd ctr, few k nd ctr = true -> few k false ctr = true.
Proof.
  intros k nd ctr H. unfold few in *. apply andb_true_iff in H as [H K]. rewrite K, andb_true_r. rewrite forallb_forall in *. intros e I. specialize (H e I).
  destruct e as [| | | | | | | | |[]| | |]; auto.
Qed.
Lemma rel_weak : forall nd (s : mstate A B E) c, rel nd s c -> rel false s c.
Proof. intros nd s c [[]]. constructor; auto. constructor; auto. discriminate. Qed.

(** The simulation of a whole execution. *)
Lemma map_sim : forall tr nd s c s', rel nd s c -> run_from (m_step exec) s tr = Some s' -> (nd = true -> MapSpec.no_dup tr) ->
  exists ctr c', run_from chan_step c ctr = Some c' /\ few (8 * length tr) nd ctr = true /\ rel nd s' c'.
Proof.
  induction tr as [|e tr IH]; intros nd s c s' RL H ND; cbn [run_from] in H.
  - injection H as <-. exists [], c. auto.
  - destruct (m_step exec s e) as [s1|] eqn:S; [|discriminate H].
    destruct (map_step_sim exec nd s c e s1 RL S) as (ct1 & c1 & R1 & F1 & L1).
    assert (few 8 nd ct1 = true /\ rel nd s1 c1) as [F2 L2].
    { destruct nd; cbn [andb] in F1, L1; [|auto]. rewrite (ND eq_refl e (or_introl eq_refl)) in F1, L1. auto. }
    destruct (IH nd s1 c1 s' L2 H) as (ct2 & c2 & R2 & F3 & L3); [intros D e' I; apply (ND D); now right|].
    exists (ct1 ++ ct2), c2. split; [eapply run_one; eauto|]. split; [|exact L3].
    eapply few_app; [exact F2|exact F3|]. cbn [length]. lia.
Qed.

(** Every execution of a mapped stream, cut anywhere, is an execution of the coordinated channel, cut at the corresponding point: same flag,
    same counter, same ends of the stream, same receipts and acknowledgements. The channel's inner stream never ends, and if nothing is
    delivered twice there is no duplicate in the channel either, and what is lost is the same. *)
Theorem C94_map : forall arr late en tr1 tr2 (s1 s2 : mstate A B E),
  run_from (m_step exec) (m_init arr late en) tr1 = Some s1 -> run_from (m_step exec) s1 tr2 = Some s2 ->
  exists ct1 ct2 c1 c2, chan_run ct1 = Some c1 /\ run_from chan_step c1 ct2 = Some c2 /\ agrees s1 c1 /\ agrees s2 c2 /\
    inner_never_ends (ct1 ++ ct2) /\ length (ct1 ++ ct2) <= 8 * length (tr1 ++ tr2) /\
    (MapSpec.no_dup (tr1 ++ tr2) -> CoordSpec.no_dup (ct1 ++ ct2) /\ ch_lost c2 = length (m_lost s2)).
Proof.
  intros arr late en tr1 tr2 s1 s2 R1 R2.
  assert (G : forall nd, (nd = true -> MapSpec.no_dup (tr1 ++ tr2)) -> exists ct1 ct2 c1 c2, chan_run ct1 = Some c1 /\ run_from chan_step c1 ct2 = Some c2 /\
     agrees s1 c1 /\ agrees s2 c2 /\ few (8 * length (tr1 ++ tr2)) nd (ct1 ++ ct2) = true /\ (nd = true -> ch_lost c2 = length (m_lost s2))).
  { intros nd ND.
    assert (I0 : rel nd (m_init (A := A) (B := B) (E := E) arr late en) chan_init) by (destruct nd; [apply rel_init|eapply rel_weak, rel_init]).
    destruct (map_sim tr1 nd _ _ _ I0 R1) as (ct1 & c1 & Q1 & F1 & L1); [intros D e I; apply (ND D), in_app_iff; now left|].
    destruct (map_sim tr2 nd _ _ _ L1 R2) as (ct2 & c2 & Q2 & F2 & L2); [intros D e I; apply (ND D), in_app_iff; now right|].
    exists ct1, ct2, c1, c2. split; [exact Q1|]. split; [exact Q2|]. split; [eapply rel_agrees; eauto|]. split; [eapply rel_agrees; eauto|].
    split; [eapply few_app; [exact F1|exact F2|]; rewrite app_length; lia|]. intros D. apply (rx_exact _ _ _ (r_x _ _ _ L2) D). }
  assert (W : forall nd ct, few (8 * length (tr1 ++ tr2)) nd ct = true -> inner_never_ends ct /\ length ct <= 8 * length (tr1 ++ tr2)).
  { intros nd ct F. split; [eapply few_never; eauto|]. unfold few in F. apply andb_true_iff in F as [_ F]. now apply Nat.leb_le in F. }
  destruct (existsb duplicates (tr1 ++ tr2)) eqn:D.
  - destruct (G false) as (ct1 & ct2 & c1 & c2 & Q1 & Q2 & A1 & A2 & F & _); [discriminate|]. destruct (W _ _ F) as [W1 W2].
    exists ct1, ct2, c1, c2. repeat (split; [assumption|]). intros ND. exfalso. apply existsb_exists in D as (e & I & De). rewrite (ND e I) in De. discriminate De.
  - assert (ND : MapSpec.no_dup (tr1 ++ tr2)).
    { intros e I. destruct (duplicates e) eqn:De; [|reflexivity]. rewrite <- D. symmetry. apply existsb_exists. eauto. }
    destruct (G true) as (ct1 & ct2 & c1 & c2 & Q1 & Q2 & A1 & A2 & F & LO); [auto|]. destruct (W _ _ F) as [W1 W2].
    exists ct1, ct2, c1, c2. repeat (split; [assumption|]). intros _. split; [eapply few_nodup; eauto|auto].
Qed.

(** What holds of the channel holds of the mapped stream. First, from C16: once [publish_all] has succeeded, the result side ends
    only when every message the broker took was received and acknowledged. *)
Theorem C94_no_early_end : forall arr late en tr1 tr2 (s1 s2 : mstate A B E),
  MapSpec.no_dup (tr1 ++ tr2) -> (N.of_nat (8 * length (tr1 ++ tr2)) < usize_max)%N ->
  run_from (m_step exec) (m_init arr late en) tr1 = Some s1 -> run_from (m_step exec) s1 tr2 = Some s2 ->
  pa_ret (m_pa s1) = Some PaOk -> m_closed s1 = true -> m_rdone s1 = false -> m_rdone s2 = true ->
  length (filter confirmed (m_log s2)) = length (pa_acc (m_pa s2)).
Proof.
  intros arr late en tr1 tr2 s1 s2 ND SH R1 R2 OK CL D1 D2.
  destruct (C94_map _ _ _ _ _ _ _ R1 R2) as (ct1 & ct2 & c1 & c2 & Q1 & Q2 & A1 & A2 & NE & LE & CD).
  destruct (CD ND) as [CD1 _]; clear CD; rename CD1 into CD.
  assert (S2 : short (ct1 ++ ct2)) by (unfold short; lia).
  destruct (C16_no_early_end_partial ct1 ct2 c1 c2 CD S2 Q1) as (C2 & (E1 & E2) & _); auto.
  - rewrite (ag_closed _ _ A1). exact CL.
  - apply (ag_quiet _ _ A1 OK).
  - apply (ag_idle _ _ A1).
  - rewrite (ag_ends _ _ A1), (ag_ends _ _ A2), D1, D2. lia.
  - rewrite <- (ag_confirmed _ _ A2), <- (ag_sent _ _ A2), <- E1.
    assert (RT : chan_run (ct1 ++ ct2) = Some c2) by (unfold chan_run; apply run_from_app; eauto).
    pose proof (C19_at_most_once _ _ RT) as NDS. pose proof (ackers_run _ chan_init c2 ackers_init RT) as AK.
    apply Nat.le_antisymm.
    + assert (IN : incl (ch_subs c2) (seq 0 (length (ch_ackers c2)))).
      { intros a I. apply in_seq. split; [lia|]. cbn. pose proof (a_done _ AK a I) as W. apply nth_error_Some. congruence. }
      pose proof (NoDup_incl_length NDS IN) as L. now rewrite seq_length in L.
    + assert (IN : incl (seq 0 (length (ch_ackers c2))) (ch_subs c2)).
      { intros a I. apply in_seq in I. apply E2. lia. }
      pose proof (NoDup_incl_length (seq_NoDup _ _) IN) as L. now rewrite seq_length in L.
Qed.

(** Second, from C17: once [publish_all] has succeeded and every message the broker took was received and acknowledged, the next poll of the
    result side that finds the queue empty ends it. *)
Theorem C94_ends_when_done : forall arr late en tr (s : mstate A B E),
  MapSpec.no_dup tr -> (N.of_nat (8 * length tr) < usize_max)%N ->
  run_from (m_step exec) (m_init arr late en) tr = Some s ->
  pa_ret (m_pa s) = Some PaOk -> m_closed s = true -> m_then s = None ->
  length (filter confirmed (m_log s)) = length (pa_acc (m_pa s)) -> length (filter received (m_log s)) = length (pa_acc (m_pa s)) ->
  m_pending s = 0%N /\ forall s', m_step exec s MEmpty = Some s' -> m_rdone s' = true.
Proof.
  intros arr late en tr s ND SH R OK CL TN CF RC.
  destruct (C94_map _ _ _ _ [] _ s R eq_refl) as (ct1 & ct2 & c1 & c2 & Q1 & Q2 & A1 & A2 & NE & LE & CD).
  rewrite !app_nil_r in *. destruct (CD ND) as [CD1 _]; clear CD; rename CD1 into CD.
  assert (RT : chan_run (ct1 ++ ct2) = Some c2) by (unfold chan_run; apply run_from_app; eauto).
  assert (S2 : short (ct1 ++ ct2)) by (unfold short; lia).
  destruct (ag_quiet _ _ A2 OK) as [G1 G2].
  assert (EA : everything_acked c2).
  { pose proof (ag_received _ _ A2) as Z1. pose proof (ag_confirmed _ _ A2) as Z2. pose proof (ag_sent _ _ A2) as Z3. rewrite TN in Z1.
    split; [lia|]. intros a L.
    pose proof (ackers_run _ chan_init c2 ackers_init RT) as AK.
    assert (IN : incl (ch_subs c2) (seq 0 (length (ch_ackers c2)))).
    { intros b I. apply in_seq. split; [lia|]. cbn. pose proof (a_done _ AK b I) as W. apply nth_error_Some. congruence. }
    apply (NoDup_length_incl (a_nodup _ AK)) in IN; [|rewrite seq_length; lia]. apply IN, in_seq. lia. }
  destruct (C17_ends_when_done _ _ CD S2 RT) as ((s' & W1 & W2) & _); auto; [rewrite (ag_closed _ _ A2); exact CL|exact (ag_idle _ _ A2)|].
  cbn [run_from chan_step] in W1. rewrite (ag_idle _ _ A2) in W1. cbn in W1. injection W1 as <-. cbn in W2. injection W2 as W2.
  assert (PZ : m_pending s = 0%N).
  { rewrite <- (ag_pending _ _ A2). destruct (N.eqb_spec (ch_pending c2) 0) as [Z|Z]; [exact Z|]. rewrite andb_false_r in W2. discriminate W2. }
  split; [exact PZ|]. intros s'. cbn [m_step]. destruct (m_poll s) as [|[|] k]; try discriminate. rewrite TN. destruct (m_results s); [|discriminate].
  rewrite CL, PZ. cbn [N.eqb andb]. intros W. injection W as <-. destruct k as [|[|]|]; reflexivity.
Qed.
End C94.
Print Assumptions C94_map.
Print Assumptions C94_no_early_end.
Print Assumptions C94_ends_when_done.

(** The example of C12, cut where the sending side has just ended: hypotheses and conclusions of the three theorems. *)
Definition cut_trace : list (m_event unit) := firstn 13 two_trace.
Definition rest_trace : list (m_event unit) := skipn 13 two_trace.
Example C94_example :
  option_map (fun s => (pa_ret (m_pa s), m_closed s, m_pending s, m_rdone s)) (run_from (m_step dbl) (m_init two_inputs [] true) cut_trace)
    = Some (Some PaOk, true, 2%N, false) /\
  option_map (fun s => (m_rdone s, length (filter confirmed (m_log s)), length (pa_acc (m_pa s)))) run_two = Some (true, 2, 2) /\
  MapSpec.no_dup (cut_trace ++ rest_trace).
Proof.
  split; [vm_compute; reflexivity|]. split; [vm_compute; reflexivity|]. intros e I. vm_compute in I. repeat destruct I as [<-|I]; try reflexivity. contradiction.
Qed.
(** A run of the channel that goes with it. *)
Example C94_example_channel :
  option_map (fun c => (ch_closed c, ch_pending c, ch_sent c, ends c, length (ch_ackers c), length (ch_subs c)))
    (chan_run [EvPublish; EvPublish; EvPubStep 0 true; EvPubStep 0 true; EvPubStep 0 true; EvPubStep 1 true; EvPubStep 1 true; EvPubStep 1 true;
       EvPubStep 0 true; EvPubStep 1 true; EvClose; EvCloseStep 0 true; EvCloseStep 0 true; EvCloseStep 0 true; EvDrop; EvCloseStep 1 true;
       EvPoll; EvPollInner RPending; EvPollStep; EvPollStep;
       EvResult; EvPoll; EvPollInner RItem; EvAck 0; EvAckStep 0; EvAckStep 0; EvResult; EvPoll; EvPollInner RItem; EvAck 1; EvAckStep 1; EvAckStep 1;
       EvPoll; EvPollInner RPending; EvPollStep; EvPollStep])
  = Some (true, 0%N, 2, 1, 2, 2) /\
  option_map (fun s => (m_closed s, m_pending s, length (pa_acc (m_pa s)), m_rdone s, length (filter received (m_log s)), length (filter confirmed (m_log s)))) run_two
  = Some (true, 0%N, 2, true, 2, 2).
Proof. split; vm_compute; reflexivity. Qed.
