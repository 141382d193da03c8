(** C22, C23, C24: in-memory queues. *)
From Coq Require Import List Arith Bool Lia Permutation.
From Verif Require Import Base BaseFacts QueueModel QueueProofs.
Import ListNotations.
Open Scope nat_scope.

(** Runs of an exactly-once queue. *)
Definition eo_run {M : Type} (tr : list (q_event M)) : option (queue M) := run_from q_step (q_init []) tr.

(** What the consumers together received, in order. *)
Definition received {M : Type} (s : queue M) : list (nat * M) := map snd (q_taken s).
(** [x] comes before [y] in [l]. *)
Definition before {A : Type} (x y : A) (l : list A) : Prop := exists a b c, l = a ++ x :: b ++ y :: c.

(** C22: what was handed out followed by what is queued is what was pushed ... *)
Theorem C22_fifo : forall (M : Type) (tr : list (q_event M)) s, eo_run tr = Some s ->
  received s ++ q_msgs s = q_pushed s.
Proof. intros M tr s H. apply qinv_run in H. symmetry. exact (qi_fifo s H). Qed.
Print Assumptions C22_fifo.

(** ... and that is every publish call that got as far as pushing, exactly once, with its payload ... *)
Theorem C22_each_once : forall (M : Type) (tr : list (q_event M)) s, eo_run tr = Some s ->
  NoDup (map fst (received s ++ q_msgs s)) /\
  forall i m, In (i, m) (received s ++ q_msgs s) <-> exists p, nth_error (q_pubs s) i = Some (m, p) /\ p <> QPush.
Proof.
  intros M tr s H. rewrite (C22_fifo M tr s H). pose proof (pinv_run [] tr s H) as [PP ND _]. cbn in PP, ND. auto.
Qed.
Print Assumptions C22_each_once.

(** ... in the order of publication: a call that returned before another was made comes first. *)
Theorem C22_publication_order : forall (M : Type) (t1 t2 : list (q_event M)) s0 s i m j n,
  eo_run t1 = Some s0 -> run_from q_step s0 t2 = Some s ->
  nth_error (q_pubs s0) i = Some (m, QDone) -> length (q_pubs s0) <= j -> In (j, n) (received s ++ q_msgs s) ->
  before (i, m) (j, n) (received s ++ q_msgs s).
Proof.
  intros M t1 t2 s0 s i m j n H1 H2 D L IN.
  assert (H : eo_run (t1 ++ t2) = Some s) by (apply run_from_app; eauto).
  rewrite (C22_fifo M (t1 ++ t2) s H) in *.
  pose proof (pinv_run [] t1 s0 H1) as [PP _ _]. cbn in PP.
  destruct (pushed_grows t2 s0 s H2) as [l E]. rewrite E in *.
  assert (I1 : In (i, m) (q_pushed s0)) by (apply PP; exists QDone; split; [exact D|discriminate]).
  apply in_app_iff in IN. destruct IN as [IN|IN].
  { apply PP in IN. destruct IN as (p & X & _). apply nth_lt in X. lia. }
  apply in_split in I1. destruct I1 as (a & b & ->). apply in_split in IN. destruct IN as (c & d & ->).
  exists a, (b ++ c), d. rewrite <- !app_assoc. cbn. now rewrite <- ?app_assoc.
Qed.
Print Assumptions C22_publication_order.

(** Each message goes to one consumer: the same call is never handed out twice, to whomever. *)
Theorem C22_one_consumer : forall (M : Type) (tr : list (q_event M)) s k1 k2 c1 c2 i m1 m2, eo_run tr = Some s ->
  nth_error (q_taken s) k1 = Some (c1, (i, m1)) -> nth_error (q_taken s) k2 = Some (c2, (i, m2)) -> k1 = k2.
Proof.
  intros M tr s k1 k2 c1 c2 i m1 m2 H E1 E2. destruct (C22_each_once M tr s H) as [ND _].
  rewrite map_app in ND. apply NoDup_app_l in ND. rewrite NoDup_nth_error in ND. apply ND.
  - unfold received. rewrite !map_length. eapply nth_lt; eauto.
  - unfold received. rewrite !nth_error_map, E1, E2. reflexivity.
Qed.
Print Assumptions C22_one_consumer.

(** C23: the unreachable branch is not reached, for exactly-once queues and for the queue of a broadcast consumer, which starts
    with any drained history. *)
Theorem C23_no_panic : forall (M : Type) (ms : list (nat * M)) tr s,
  run_from q_step (q_init ms) tr = Some s -> q_panic s = false.
Proof. intros M ms tr s H. apply qinv_run in H. exact (qi_panic s H). Qed.
Print Assumptions C23_no_panic.

(** A consumer inside poll_next with a permit finds a message. *)
Theorem C23_message_found : forall (M : Type) (ms : list (nat * M)) tr s c,
  run_from q_step (q_init ms) tr = Some s -> nth_error (q_cons s) c = Some QHolding ->
  exists m rest s', q_msgs s = m :: rest /\ q_step s (EvQPop c) = Some s' /\ q_taken s' = q_taken s ++ [(c, m)].
Proof.
  intros M ms tr s c H E. apply qinv_run in H. pose proof (qi_count s H) as C.
  pose proof (cnt_upd _ is_granted c _ _ QIdle E) as U. cbn [is_granted b2n] in U.
  destruct (q_msgs s) as [|m rest] eqn:EM; [cbn in C; lia|].
  exists m, rest. eexists. split; [reflexivity|]. cbn. rewrite E, EM. split; reflexivity.
Qed.
Print Assumptions C23_message_found.

(** C24: when every publish call has returned (or not begun) and no consumer was granted a permit it has not used, nobody waits
    while a message is queued. *)
Theorem C24_no_lost_wakeup : forall (M : Type) (ms : list (nat * M)) tr s,
  run_from q_step (q_init ms) tr = Some s ->
  (forall m, ~ In (m, QPermit) (q_pubs s)) -> ~ In QGranted (q_cons s) -> ~ In QHolding (q_cons s) ->
  q_msgs s <> [] -> ~ In QWaiting (q_cons s).
Proof.
  intros M ms tr s H NP NG NH NE W. apply qinv_run in H. destruct H as [C F WA _ _ _].
  assert (Z1 : cnt is_granted (q_cons s) = 0).
  { apply cnt_zero. intros c I. destruct c; try reflexivity; tauto. }
  assert (Z2 : cnt is_permit (q_pubs s) = 0).
  { apply cnt_zero. intros [m p] I. destruct p; try reflexivity. now apply NP in I. }
  assert (P : q_permits s > 0) by (destruct (q_msgs s); [congruence|cbn in C; lia]).
  apply In_nth_error in W. destruct W as [c W]. apply WA in W. rewrite (F P) in W. exact W.
Qed.
Print Assumptions C24_no_lost_wakeup.

(** In such a state the next poll of any consumer that is not waiting receives the oldest message at once. *)
Theorem C24_next_poll_receives : forall (M : Type) (ms : list (nat * M)) tr s c m rest,
  run_from q_step (q_init ms) tr = Some s ->
  (forall m, ~ In (m, QPermit) (q_pubs s)) -> ~ In QGranted (q_cons s) -> ~ In QHolding (q_cons s) ->
  q_msgs s = m :: rest -> nth_error (q_cons s) c = Some QIdle ->
  exists s', run_from q_step s [EvQPoll c; EvQPop c] = Some s' /\ q_taken s' = q_taken s ++ [(c, m)] /\ q_msgs s' = rest.
Proof.
  intros M ms tr s c m rest H NP NG NH EM E. apply qinv_run in H. destruct H as [C F WA _ _ _].
  assert (Z1 : cnt is_granted (q_cons s) = 0).
  { apply cnt_zero. intros x I. destruct x; try reflexivity; tauto. }
  assert (Z2 : cnt is_permit (q_pubs s) = 0).
  { apply cnt_zero. intros [x p] I. destruct p; try reflexivity. now apply NP in I. }
  destruct (q_permits s) as [|p] eqn:EP; [rewrite EM in C; cbn in C; lia|].
  cbn. rewrite E, EP. cbn. rewrite upd_nth_same by (eapply nth_lt; eauto). rewrite EM. cbn.
  eexists. split; [reflexivity|]. split; reflexivity.
Qed.
Print Assumptions C24_next_poll_receives.

(** A waiting consumer is woken by the next publish if it is the first in line, even if consumers before it were dropped. *)
Theorem C24_publish_wakes_first : forall (M : Type) (ms : list (nat * M)) tr s c ws i m,
  run_from q_step (q_init ms) tr = Some s -> q_waiters s = c :: ws -> nth_error (q_pubs s) i = Some (m, QPermit) ->
  exists s', q_step s (EvQPubStep i) = Some s' /\ nth_error (q_cons s') c = Some QGranted.
Proof.
  intros M ms tr s c ws i m H W E. apply qinv_run in H. destruct H as [_ _ WA _ _ _].
  cbn. rewrite E. eexists. split; [reflexivity|]. unfold q_release. cbn. rewrite W. cbn. apply upd_nth_same.
  assert (X : nth_error (q_cons s) c = Some QWaiting) by (apply WA; rewrite W; now left). eapply nth_lt; eauto.
Qed.
Print Assumptions C24_publish_wakes_first.

(** Two publishers, three consumers; the first is granted a permit and dropped, the permit goes to the second. *)
Definition busy : list (q_event nat) :=
  [EvQConsumer; EvQConsumer; EvQConsumer; EvQPoll 0; EvQPoll 1; EvQPublish 10; EvQPublish 20;
   EvQPubStep 1; EvQPubStep 0; EvQPubStep 0; EvQDrop 0; EvQPoll 1; EvQPop 1; EvQPoll 2; EvQPubStep 1; EvQPoll 2; EvQPop 2;
   EvQPublish 30; EvQPubStep 2; EvQPubStep 2].
Definition q_after (tr : list (q_event nat)) : queue nat := match eo_run tr with Some s => s | None => q_init [] end.
Example C22_case : exists s, eo_run busy = Some s /\
  q_taken s = [(1, (1, 20)); (2, (0, 10))] /\ q_msgs s = [(2, 30)] /\ q_cons s = [QDropped; QIdle; QIdle].
Proof. exists (q_after busy). repeat (split; [vm_compute; reflexivity|]). vm_compute. reflexivity. Qed.
Example C24_case : exists s, eo_run busy = Some s /\
  (forall m, ~ In (m, QPermit) (q_pubs s)) /\ ~ In QGranted (q_cons s) /\ ~ In QHolding (q_cons s) /\ q_msgs s <> [].
Proof.
  exists (q_after busy). split; [vm_compute; reflexivity|]. vm_compute. repeat split; try discriminate.
  - intros m [X|[X|[X|[]]]]; discriminate.
  - intros [X|[X|[X|[]]]]; discriminate.
  - intros [X|[X|[X|[]]]]; discriminate.
Qed.
