(** C18: when exactly a closed channel can still end. *)
From Coq Require Import List Arith NArith Bool Lia.
From Verif Require Import Base BaseFacts CoordModel CoordSpec CoordProofs CoordProps CoordCount.
Import ListNotations.
Open Scope nat_scope.

Lemma cnt_pos : forall (A : Type) (p : A -> bool) l, 0 < cnt p l -> exists i x, nth_error l i = Some x /\ p x = true.
Proof.
  intros A p l. induction l as [|a l IH]; intros H; [unfold cnt in H; cbn in H; lia|]. rewrite cnt_cons in H. destruct (p a) eqn:P; [exists 0, a; auto|]. destruct (IH ltac:(cbn [b2n] in H; lia)) as (i & x & I & Q). exists (S i), x. auto.
Qed.
(** What is left to be done by the workers and the consumer. *)
Definition left_to_do (s : chan) : nat := 6 * ch_inflight s + 5 * ch_avail s + 3 * (length (ch_ackers s) - length (ch_subs s)).
Record kept (s s' : chan) : Prop := { k_closed : ch_closed s' = ch_closed s; k_pubs : ch_pubs s' = ch_pubs s; k_lost : ch_lost s' = ch_lost s; k_poll : ch_poll s' = PollIdle; k_ends : ends s' = ends s }.
Lemma kept_trans : forall a b c, kept a b -> kept b c -> kept a c.
Proof. intros a b c [] []. constructor; congruence. Qed.
(** One of these things is done. *)
Lemma one_done : forall s, counts s -> ackers_ok s -> ch_poll s = PollIdle -> 0 < left_to_do s ->
  exists t s', run_from chan_step s t = Some s' /\ no_dup t /\ kept s s' /\ 0 < length t /\ length t + left_to_do s' <= left_to_do s.
Proof.
  intros s CC AA P L. unfold left_to_do in *. destruct CC as [_ _ CA _].
  destruct (ch_inflight s) as [|n] eqn:FL; [|exists [EvResult]; eexists; split; [cbn; rewrite FL; reflexivity|]; split; [nodup|]; split; [constructor; auto|]; cbn; lia].
  destruct (ch_avail s) as [|n] eqn:AV; [|exists [EvPoll; EvPollInner RItem]; eexists; split; [cbn; rewrite P; cbn; rewrite AV; reflexivity|]; split; [nodup|]; split; [constructor; auto|]; cbn; rewrite app_length; cbn; lia].
  destruct (cnt is_sub (ch_acks s)) eqn:SU.
  - destruct (cnt_pos _ negb (ch_ackers s) ltac:(lia)) as (a & did & NA & ND). destruct did; [discriminate ND|]. assert (LA : a < length (ch_ackers s)) by (apply nth_error_Some; congruence).
    exists [EvAck a; EvAckStep (length (ch_acks s)); EvAckStep (length (ch_acks s))]. eexists. split.
    + cbn [run_from chan_step]. rewrite (proj2 (Nat.ltb_lt _ _) LA). cbn [run_from chan_step set_acks ch_acks]. rewrite nth_error_app2, Nat.sub_diag by lia. cbn [nth_error ack_step]. change (ch_ackers (set_acks s (ch_acks s ++ [AckSwap a]))) with (ch_ackers s). rewrite NA. cbn [run_from chan_step ch_acks].
      change (ch_acks (set_acks s (ch_acks s ++ [AckSwap a]))) with (ch_acks s ++ [AckSwap a]). rewrite upd_nth_same by (rewrite app_length; cbn; lia). cbn [ack_step]. reflexivity.
    + split; [nodup|]. split; [constructor; auto|]. cbn. rewrite upd_length. lia.
  - destruct (cnt_pos _ is_sub (ch_acks s) ltac:(lia)) as (i & p & NI & Q). destruct p as [a|a|a]; try discriminate Q. exists [EvAckStep i]. eexists. split; [cbn; rewrite NI; reflexivity|]. split; [nodup|]. split; [constructor; auto|]. cbn. lia.
Qed.
Lemma all_settled : forall m s, left_to_do s <= m -> counts s -> ackers_ok s -> ch_poll s = PollIdle ->
  exists t s', run_from chan_step s t = Some s' /\ no_dup t /\ kept s s' /\ length t <= left_to_do s /\ left_to_do s' = 0.
Proof.
  intros m. induction m as [|m IH]; intros s L CC AA P.
  - exists [], s. split; [reflexivity|]. split; [constructor|]. split; [constructor; auto|]. cbn [length]. lia.
  - destruct (Nat.eq_dec (left_to_do s) 0) as [Z|NZ]; [exists [], s; split; [reflexivity|]; split; [constructor|]; split; [constructor; auto|]; cbn [length]; lia|].
    destruct (one_done s CC AA P ltac:(lia)) as (t & s1 & R & ND & K & PL & LE). destruct (IH s1 ltac:(lia) (counts_run _ _ _ ND CC R) (ackers_run _ _ _ AA R) (k_poll _ _ K)) as (t2 & s2 & R2 & ND2 & K2 & L2 & Z2).
    exists (t ++ t2), s2. split; [apply run_from_app; eauto|]. split; [apply no_dup_app; auto|]. split; [exact (kept_trans _ _ _ K K2)|]. rewrite app_length. lia.
Qed.
(** A closed channel without a publish under way can end exactly when no publish failed and no message was lost.
    Missing from the full statement of C18 is the stream with failed publishes: it never ends. The run has been at most 2^60 events long. *)
Theorem C18_iff_partial : forall tr s, no_dup tr -> (N.of_nat (16 * (length tr + 1)) < usize_max)%N -> chan_run tr = Some s -> ch_closed s = true -> no_publish_in_progress s -> ch_poll s = PollIdle ->
  ((exists t s', no_dup t /\ short (tr ++ t) /\ run_from chan_step s t = Some s' /\ ends s < ends s') <-> (failed_publishes s = 0 /\ losses tr = 0)).
Proof.
  intros tr s ND SH R C NP P. assert (SHT : short tr) by (unfold short; lia). pose proof (counts_run _ _ _ ND counts_init R) as CC. pose proof (ackers_run _ _ _ ackers_init R) as AA. destruct (C16_conserved tr s R) as [_ LO]. split.
  - intros (t & s' & ND2 & SH2 & R2 & E). assert (NA : no_dup (tr ++ t)) by (apply no_dup_app; auto). split.
    + destruct (failed_publishes s) eqn:F; [reflexivity|]. rewrite (C18_failed_publish_hangs tr t s s' NA SH2 R) in E; auto; lia.
    + destruct (C16_no_early_end_partial tr t s s' NA SH2 R C NP P R2 E) as (_ & [EA _] & _). assert (R3 : chan_run (tr ++ t) = Some s') by (apply run_from_app; eauto).
      pose proof (c_sent_split _ (counts_run _ _ _ NA counts_init R3)) as SP. destruct (C16_conserved _ _ R3) as [_ LO2]. unfold losses in *. rewrite filter_app, app_length in LO2. lia.
  - intros [F LZ]. destruct (all_settled (left_to_do s) s (le_n _) CC AA P) as (t & s1 & R1 & ND1 & K & LT & Z). assert (NA : no_dup (tr ++ t)) by (apply no_dup_app; auto). assert (R3 : chan_run (tr ++ t) = Some s1) by (apply run_from_app; eauto).
    pose proof (counts_run _ _ _ NA counts_init R3) as CC1. pose proof (ackers_run _ _ _ ackers_init R3) as AA1.
    assert (BD : left_to_do s <= 6 * length tr).
    { pose proof (c_sent_split _ CC). pose proof (c_sent_pubs _ CC). pose proof (three_kinds (ch_pubs s)). pose proof (pubs_run _ _ _ R). cbn [ch_pubs chan_init length] in *. unfold left_to_do. lia. }
    assert (SH1 : short (tr ++ t ++ [EvPoll; EvPollInner RPending; EvPollStep; EvPollStep])) by (unfold short; rewrite !app_length; cbn [length]; lia).
    assert (SH3 : short (tr ++ t)) by (unfold short in *; rewrite !app_length in *; cbn [length] in *; lia).
    assert (EA : everything_acked s1).
    { pose proof (c_sent_split _ CC1) as SP. pose proof (c_ackers _ CC1) as CA. unfold left_to_do in Z. rewrite (k_lost _ _ K), LO, LZ in SP. split; [lia|]. intros a L. assert (ZN : cnt negb (ch_ackers s1) = 0) by lia. assert (ZS : cnt is_sub (ch_acks s1) = 0) by lia.
      destruct (nth_error (ch_ackers s1) a) as [did|] eqn:NA1; [|apply nth_error_None in NA1; lia]. rewrite cnt_zero in ZN. specialize (ZN did (nth_error_In _ _ NA1)). destruct did; [|discriminate ZN].
      destruct (a_true _ AA1 _ NA1) as [I|I]; [exact I|]. rewrite cnt_zero in ZS. specialize (ZS _ I). discriminate ZS. }
    assert (NP1 : no_publish_in_progress s1) by (intros p I; rewrite (k_pubs _ _ K) in I; exact (NP p I)). assert (F1 : failed_publishes s1 = 0) by (unfold failed_publishes in *; now rewrite (k_pubs _ _ K)).
    assert (C1 : ch_closed s1 = true) by (rewrite (k_closed _ _ K); exact C).
    destruct (C17_ends_when_done (tr ++ t) s1 NA SH3 R3 C1 NP1 F1 EA (k_poll _ _ K)) as ((s2 & R2 & LG) & _).
    exists (t ++ [EvPoll; EvPollInner RPending; EvPollStep; EvPollStep]), s2. split; [apply no_dup_app; split; [exact ND1|nodup]|]. split; [exact SH1|]. split; [apply run_from_app; eauto|].
    rewrite <- (k_ends _ _ K). unfold ends. rewrite LG. cbn. lia.
Qed.
Print Assumptions C18_iff_partial.

(** Two publishes and a close, results still on their way: the hypotheses and the right side hold, so it can end. *)
Example C18_iff_ends : exists s, no_dup good_history /\ (N.of_nat (16 * (length good_history + 1)) < usize_max)%N /\ chan_run good_history = Some s /\ ch_closed s = true /\ no_publish_in_progress s /\ ch_poll s = PollIdle /\
  failed_publishes s = 0 /\ losses good_history = 0 /\ ch_inflight s = 2.
Proof. exists (after chan_init good_history). split; [nodup|]. split; [vmr|]. split; [vmr|]. split; [vmr|]. split; [vm_compute; intros p [<-|[<-|[]]]; reflexivity|]. repeat (split; [vmr|]); vmr. Qed.
(** One of the two messages is lost: the hypotheses hold, the right side does not. *)
Definition lossy_history : list chan_event := good_history ++ [EvLoseMsg].
Example C18_iff_lost : exists s, no_dup lossy_history /\ (N.of_nat (16 * (length lossy_history + 1)) < usize_max)%N /\ chan_run lossy_history = Some s /\ ch_closed s = true /\ no_publish_in_progress s /\ ch_poll s = PollIdle /\
  failed_publishes s = 0 /\ losses lossy_history = 1.
Proof. exists (after chan_init lossy_history). split; [nodup|]. split; [vmr|]. split; [vmr|]. split; [vmr|]. split; [vm_compute; intros p [<-|[<-|[]]]; reflexivity|]. repeat (split; [vmr|]); vmr. Qed.
(** A publish failed: likewise. *)
Example C18_iff_failed : exists s, no_dup failed_history /\ (N.of_nat (16 * (length failed_history + 1)) < usize_max)%N /\ chan_run failed_history = Some s /\ ch_closed s = true /\ no_publish_in_progress s /\ ch_poll s = PollIdle /\
  failed_publishes s = 1 /\ losses failed_history = 0.
Proof. exists (after chan_init failed_history). split; [nodup|]. split; [vmr|]. split; [vmr|]. split; [vmr|]. split; [vm_compute; intros p [<-|[<-|[]]]; reflexivity|]. repeat (split; [vmr|]); vmr. Qed.
