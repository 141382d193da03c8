(** C28, continued: the queues behind in-memory handles are those of QueueModel and BroadcastModel. Whatever C22 to C27 state about a
    run of such a queue then holds of the queue of every handle of a connection, the steps being those made with handles for it. *)
From Coq Require Import List Arith NArith Bool Lia.
From Verif Require Import Base BaseFacts QueueModel BroadcastModel BroadcastSpec ConnModel ConnSpec ConnProps LeaseProps QueueProps BroadcastProps.
Import ListNotations.
Open Scope nat_scope.

Section Handles.
Variable M : Type.
Variable shards : nat.
Variable shard : nat -> nat.
Notation hstep := (c_step (h_new M) (h_do M shards shard)).

Fixpoint onces (l : list (mevent M)) : option (list (q_event M)) :=
  match l with
  | [] => Some []
  | MvOnce e :: r => option_map (cons e) (onces r)
  | MvCast _ :: _ => None
  end.
Fixpoint casts (l : list (mevent M)) : option (list b_event) :=
  match l with
  | [] => Some []
  | MvCast e :: r => option_map (cons e) (casts r)
  | MvOnce _ :: _ => None
  end.

Lemma do_once : forall l (q q' : mhandle M), o_synd (h_opts q) = ExactlyOnce -> run_from (h_do M shards shard) q l = Some q' ->
  h_opts q' = h_opts q /\ h_cast q' = h_cast q /\ exists qs, onces l = Some qs /\ run_from (q_step (M := M)) (h_once q) qs = Some (h_once q').
Proof.
  induction l as [|e l IH]; intros q q' O H; cbn [run_from] in H.
  - injection H as <-. split; [reflexivity|]. split; [reflexivity|]. exists []. split; reflexivity.
  - destruct (h_do M shards shard q e) as [q1|] eqn:D; [|discriminate]. unfold h_do in D. rewrite O in D. destruct e as [e|e]; [|discriminate].
    destruct (q_step (h_once q) e) as [x|] eqn:S1; [|discriminate]. injection D as <-. destruct (IH (mkH (h_opts q) x (h_cast q)) q' O H) as (I1 & I2 & qs & I3 & I4).
    split; [exact I1|]. split; [exact I2|]. exists (e :: qs). split; [cbn; now rewrite I3|]. cbn [run_from]. now rewrite S1.
Qed.
Lemma do_cast : forall l (q q' : mhandle M), o_synd (h_opts q) = Broadcast -> run_from (h_do M shards shard) q l = Some q' ->
  h_opts q' = h_opts q /\ h_once q' = h_once q /\ exists bs, casts l = Some bs /\ run_from (b_step shards shard) (h_cast q) bs = Some (h_cast q').
Proof.
  induction l as [|e l IH]; intros q q' O H; cbn [run_from] in H.
  - injection H as <-. split; [reflexivity|]. split; [reflexivity|]. exists []. split; reflexivity.
  - destruct (h_do M shards shard q e) as [q1|] eqn:D; [|discriminate]. unfold h_do in D. rewrite O in D. destruct e as [e|e]; [discriminate|].
    destruct (b_step shards shard (h_cast q) e) as [x|] eqn:S1; [|discriminate]. injection D as <-. destruct (IH (mkH (h_opts q) (h_once q) x) q' O H) as (I1 & I2 & qs & I3 & I4).
    split; [exact I1|]. split; [exact I2|]. exists (e :: qs). split; [cbn; now rewrite I3|]. cbn [run_from]. now rewrite S1.
Qed.

(** The queue of a handle has the options of the declaration that created it. Every step made with the handle is of the kind that they
    name, and the queue of that kind is in the state after exactly these steps, from the initial one. *)
Theorem C28_real_queues : forall tr s h q, run_from hstep c_init tr = Some s -> nth_error (c_heap s) h = Some q ->
  exists n o, In (HDecl n o h) (c_log s) /\ h_opts q = o /\
    match o_synd o with
    | ExactlyOnce => exists qs, uses h (c_log s) = map MvOnce qs /\ eo_run qs = Some (h_once q)
    | Broadcast => exists bs, uses h (c_log s) = map MvCast bs /\ b_run shards shard (o_persistent o) bs = Some (h_cast q)
    end.
Proof.
  intros tr s h q H K. destruct (C28_contents _ _ _ _ _ _ H K) as (n & o & I & R). exists n, o. split; [exact I|].
  assert (X : forall l qs, onces l = Some qs -> l = map MvOnce qs).
  { induction l as [|[e|e] l IH]; intros qs E; cbn in E; try discriminate; [now injection E as <-|]. destruct (onces l) as [r|]; [|discriminate]. injection E as <-. cbn. f_equal. now apply IH. }
  assert (Y : forall l bs, casts l = Some bs -> l = map MvCast bs).
  { induction l as [|[e|e] l IH]; intros bs E; cbn in E; try discriminate; [now injection E as <-|]. destruct (casts l) as [r|]; [|discriminate]. injection E as <-. cbn. f_equal. now apply IH. }
  destruct (o_synd o) eqn:O.
  - destruct (do_once _ (h_new M o) q O R) as (R1 & _ & qs & R2 & R3). split; [exact R1|]. exists qs. split; [now apply X|exact R3].
  - destruct (do_cast _ (h_new M o) q O R) as (R1 & _ & bs & R2 & R3). split; [exact R1|]. exists bs. split; [now apply Y|exact R3].
Qed.
End Handles.
Print Assumptions C28_real_queues.

(** Handle 1 is a broadcast queue: a consumer is declared and a message published while handle 0, an exactly-once queue, is used too. *)
Example C28_real_example : exists s, run_from dstep c_init
    ([CDeclare 7 once; CDeclare 8 cast] ++ map (fun e => CUse 1 (MvCast e)) ex_first ++ map (CUse 0) (put 5) ++ map (fun e => CUse 1 (MvCast e)) ex_second) = Some s /\
  map (fun h => (q_msgs (h_once h), map (fun c => (bc_name c, bc_enq c)) (b_cons (h_cast h)))) (c_heap s) = [([(0, 5)], []); ([], [(1, [0]); (2, [0])])].
Proof. eexists. split; [vm_compute; reflexivity|]. reflexivity. Qed.

(** C26 for channels: their broadcast queues in memory are persistent, so that nothing is lost on the way to the first consumer. *)
Theorem C26_channels : forall (M : Type) shards shard, (forall n, shard n < shards) -> forall t tr s i id,
  run_from (b_step shards shard) (h_cast (h_new M (of_channel_type t))) tr = Some s -> published s i id ->
  kept s id \/ in_drain s id \/ exists n, times_enqueued s n id = 1.
Proof. intros M shards shard OK t tr s i id R P. exact (C26_never_lost shards shard OK tr s i id R P). Qed.
Print Assumptions C26_channels.
