(** C25 to C27: in-memory broadcast queues. *)
From Coq Require Import List Arith Bool Lia.
From Verif Require Import Base BaseFacts BroadcastModel BroadcastSpec BroadcastProofs.
Import ListNotations.
Open Scope nat_scope.

Section Props.
Variable shards : nat.
Variable shard : nat -> nat.
Hypothesis shard_ok : forall n, shard n < shards.

(** ** C25 *)
(** In every execution, every message is enqueued at most once for every consumer name. *)
Theorem C25_at_most_once : forall persistent tr s n id,
  b_run shards shard persistent tr = Some s -> times_enqueued s n id <= 1.
Proof using. intros p tr s n id H. eapply (fun B => proj2 (enq_times s n id B)). eapply binv_run; eauto. Qed.

(** A message whose publish was called after a declaration of [n] had returned, and has itself returned, was enqueued exactly
    once for [n], whatever else happened before, between and after. *)
Theorem C25_exactly_once : forall persistent t1 t2 s0 s n i id,
  b_run shards shard persistent t1 = Some s0 -> declared s0 n ->
  run_from (b_step shards shard) s0 t2 = Some s ->
  length (b_pubs s0) <= i -> published s i id ->
  times_enqueued s n id = 1.
Proof.
  intros p t1 t2 s0 s n i id H1 (f & D) H2 L P.
  assert (B0 : binv s0) by (eapply binv_run; eauto).
  assert (B : binv s) by (eapply (binv_run shards shard p (t1 ++ t2)); apply run_from_app; exists s0; auto).
  apply (enq_times s n id B). apply (not_missed_run shards shard n t2 s0 s i (shard_ok n) B0 (bi_done _ B0 _ _ D) L H2 _ P).
Qed.

(** ** C26 *)
(** A published message is kept, in the hands of a declaration in progress, or enqueued for a consumer. *)
Theorem C26_never_lost : forall tr s i id,
  b_run shards shard true tr = Some s -> published s i id ->
  kept s id \/ in_drain s id \/ exists n, times_enqueued s n id = 1.
Proof.
  intros tr s i id H P. pose proof (not_lost_run shards shard tr s i _ shard_ok H P) as G. cbn in G.
  destruct G as [K|[K|(n & K)]]; auto. right; right. exists n.
  assert (B : binv s) by (eapply binv_run; eauto). apply (enq_times s n id B). exact K.
Qed.

(** When the next fresh declaration has returned the message has left the history: it was enqueued, or another declaration in
    progress holds it. *)
Theorem C26_next_declaration : forall t1 t2 s0 s i id j n,
  b_run shards shard true t1 = Some s0 -> published s0 i id ->
  run_from (b_step shards shard) s0 t2 = Some s ->
  length (b_decls s0) <= j -> nth_error (b_decls s) j = Some (DDone n true) ->
  ~ kept s id /\ (in_drain s id \/ exists m, times_enqueued s m id = 1).
Proof.
  intros t1 t2 s0 s i id j n H1 P H2 L D.
  assert (B0 : binv s0) by (eapply binv_run; eauto).
  assert (PE : b_persistent s0 = true).
  { eapply (run_from_inv _ _ (b_step shards shard) (fun s => b_persistent s = true)); [| |exact H1]; [|reflexivity].
    intros s1 e s2 E X. now rewrite (persistent_step shards shard _ _ _ X). }
  assert (NK : ~ kept s id) by (eapply drained_run; eauto).
  split; [exact NK|].
  assert (H : b_run shards shard true (t1 ++ t2) = Some s) by (apply run_from_app; exists s0; auto).
  assert (P' : published s i id) by exact (published_run shards shard t2 s0 s i id H2 P).
  destruct (C26_never_lost _ _ _ _ H P') as [K|K]; [tauto|exact K].
Qed.

(** ** C27 *)
(** What holds: when no consumer was ever declared before the message was published, the first consumer gets it.
    Missing: the case in which there were consumers and all were dropped, where the property is false, see below. *)
Theorem C27_first_consumer_partial : forall t1 t2 s0 s i id n,
  b_run shards shard true t1 = Some s0 -> published s0 i id -> b_decls s0 = [] ->
  run_from (b_step shards shard) s0 t2 = Some s -> b_decls s = [DDone n true] ->
  times_enqueued s n id = 1.
Proof.
  intros t1 t2 s0 s i id n H1 P D0 H2 D.
  assert (H : b_run shards shard true (t1 ++ t2) = Some s) by (apply run_from_app; exists s0; auto).
  destruct (C26_next_declaration t1 t2 s0 s i id 0 n H1 P H2) as [_ [(m & got & _ & X)|(m & E)]].
  - rewrite D0. cbn. lia.
  - rewrite D. reflexivity.
  - rewrite D in X. cbn in X. destruct X as [[X|[]]|[X|[]]]; discriminate.
  - assert (B : binv s) by (eapply binv_run; eauto).
    apply (enq_times s m id B) in E. destruct E as (c & I & EN & X).
    assert (IN : In (DDone m true) (b_decls s)).
    { eapply names_from_run; [exact H|]. rewrite <- EN. now apply in_map. }
    rewrite D in IN. destruct IN as [IN|[]]. injection IN as <-. apply (enq_times s n id B). exists c. auto.
Qed.
End Props.

(** One shard is enough for the witness: consumer 1 is declared and dropped, a message is published with no consumer alive, and
    consumer 2, declared next, does not get it. The map still holds consumer 1, so the message went to that one. *)
Definition c27_before : list b_event := [EvBDeclare 1; EvBDeclStep 0; EvBDeclStep 0; EvBDeclStep 0; EvBDrop 1].
Definition c27_publish : list b_event :=
  [EvBPublish; EvBPubStep 0; EvBPubStep 0; EvBPubStep 0; EvBPubStep 0; EvBVisit 0 1; EvBPubStep 0].
Definition c27_after : list b_event := [EvBDeclare 2; EvBDeclStep 1; EvBDeclStep 1; EvBDeclStep 1].

Theorem C27_refuted : exists s0 s1 s2 id,
  b_run 1 (fun _ => 0) true c27_before = Some s0 /\ b_live s0 = [] /\
  run_from (b_step 1 (fun _ => 0)) s0 c27_publish = Some s1 /\ published s1 0 id /\ b_live s1 = [] /\
  run_from (b_step 1 (fun _ => 0)) s1 c27_after = Some s2 /\ nth_error (b_decls s2) 1 = Some (DDone 2 true) /\
  times_enqueued s2 2 id = 0 /\ ~ kept s2 id /\ ~ in_drain s2 id.
Proof.
  exists (mkB true [mkBC 1 [] []] [] 0 [] [DDone 1 true] []).
  exists (mkB true [mkBC 1 [0] [0]] [] 1 [BDone 0] [DDone 1 true] []).
  exists (mkB true [mkBC 1 [0] [0]; mkBC 2 [] []] [] 1 [BDone 0] [DDone 1 true; DDone 2 true] [2]).
  exists 0. do 8 (split; [reflexivity|]). split; [intros []|].
  intros (n & got & _ & [[X|[X|[]]]|[X|[X|[]]]]); discriminate.
Qed.

(** ** Examples *)
(** Two shards; a publish runs while a second consumer is being declared. *)
Definition ex_sh (n : nat) : nat := n mod 2.
Definition ex_first : list b_event := [EvBDeclare 1; EvBDeclStep 0; EvBDeclStep 0; EvBDeclStep 0].
Definition ex_second : list b_event :=
  [EvBPublish; EvBPubStep 0; EvBDeclare 2; EvBPubStep 0; EvBDeclStep 1; EvBDeclStep 1; EvBDeclStep 1; EvBPubStep 0; EvBPubStep 0;
   EvBPubStep 0; EvBVisit 0 2; EvBPubStep 0; EvBVisit 0 1; EvBPubStep 0].
Definition b_after (sh : nat) (f : nat -> nat) (p : bool) (tr : list b_event) : bq :=
  match b_run sh f p tr with Some s => s | None => b_init p end.

Example C25_ex :
  b_run 2 ex_sh true (ex_first ++ ex_second) = Some (b_after 2 ex_sh true (ex_first ++ ex_second)) /\
  declared (b_after 2 ex_sh true ex_first) 1 /\ length (b_pubs (b_after 2 ex_sh true ex_first)) <= 0 /\
  published (b_after 2 ex_sh true (ex_first ++ ex_second)) 0 0 /\
  times_enqueued (b_after 2 ex_sh true (ex_first ++ ex_second)) 1 0 = 1 /\
  times_enqueued (b_after 2 ex_sh true (ex_first ++ ex_second)) 2 0 = 1.
Proof.
  split; [vm_compute; reflexivity|]. split; [exists true; now left|]. split; [vm_compute; lia|].
  repeat (split; [vm_compute; reflexivity|]). vm_compute; reflexivity.
Qed.

(** The race of C26: both find the map empty; the message goes to the history, and the consumer declared meanwhile drains it. *)
Definition ex_race : list b_event :=
  [EvBPublish; EvBPubStep 0; EvBPubStep 0; EvBPubStep 0; EvBDeclare 1; EvBPubStep 0; EvBDeclStep 0; EvBPubStep 0; EvBPubStep 0; EvBPubStep 0].
Example C26_ex_race_blocked : b_run 2 ex_sh true ex_race = None. (* the loop waits for the shard the declaration has locked *)
Proof. vm_compute; reflexivity. Qed.
Definition ex_kept : list b_event :=
  [EvBPublish; EvBPubStep 0; EvBPubStep 0; EvBPubStep 0; EvBPubStep 0; EvBPubStep 0; EvBPubStep 0; EvBPubStep 0; EvBPubStep 0].
Definition ex_next : list b_event :=
  [EvBDeclare 1; EvBDeclStep 0; EvBDeclStep 0; EvBDeclStep 0; EvBDeclStep 0; EvBDeclStep 0].
Example C26_ex :
  published (b_after 2 ex_sh true ex_kept) 0 0 /\ kept (b_after 2 ex_sh true ex_kept) 0 /\ b_decls (b_after 2 ex_sh true ex_kept) = [] /\
  b_run 2 ex_sh true (ex_kept ++ ex_next) = Some (b_after 2 ex_sh true (ex_kept ++ ex_next)) /\
  b_decls (b_after 2 ex_sh true (ex_kept ++ ex_next)) = [DDone 1 true] /\
  times_enqueued (b_after 2 ex_sh true (ex_kept ++ ex_next)) 1 0 = 1.
Proof.
  split; [vm_compute; reflexivity|]. split; [vm_compute; auto|].
  repeat (split; [vm_compute; reflexivity|]). vm_compute; reflexivity.
Qed.

Print Assumptions C25_at_most_once.
Print Assumptions C25_exactly_once.
Print Assumptions C26_never_lost.
Print Assumptions C26_next_declaration.
Print Assumptions C27_first_consumer_partial.
Print Assumptions C27_refuted.
