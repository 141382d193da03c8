(** C33: the result of a task is the operation's own output under the task's own metadata. *)
From Coq Require Import List NArith Bool Lia Arith.
From Verif Require Import Base Schema PostcardModel PostcardProps CborModel CborProps RetryModel RetrySpec RetryProps ExecModel ExecProps TaskModel.
Import ListNotations.
Open Scope nat_scope.

Section Props.
Variables widen16 widen32 narrow16 narrow32 : N -> N.
Notation to_bytes := (to_bytes widen16 widen32 narrow16 narrow32).
Notation from_bytes := (from_bytes widen16 widen32 narrow32).
Notation typed_op := (typed_op widen16 widen32 narrow16 narrow32).
Notation as_any_task := (as_any_task widen16 widen32 narrow16 narrow32).
Notation task_output := (task_output widen16 widen32 narrow32).

(** The types for which a serializer is faithful (C45, C46). *)
Definition faithful (s : serializer) (t : ty) : Prop :=
  match s with SPostcard => wf t | SCbor => csafe t /\ depth t <= 256 end.

Lemma faithful_round : forall s t v, faithful s t -> ok t v -> from_bytes s t (to_bytes s t v) = Some v.
Proof. intros [] t v F O; [now apply C45_round_trip|]. destruct F. now apply C46_round_trip_partial. Qed.

(** An Ok from the retries is the outcome of one of the calls. *)
Lemma retry_ok_from : forall (Err A : Type) fuel (e : op_error Err) (f : nat -> res (op_error Err) A) pauses tracer a l,
  retry_internal fuel e f pauses tracer = Some (ROk a, l) -> exists k, f k = ROk a.
Proof.
  intros Err A fuel e f pauses tracer a l H. destruct e as [x r s|x s]; [|discriminate]. cbn in H.
  destruct (retry_with_strategy fuel f r pauses tracer) as [[[b|e2] l2]|] eqn:R; try discriminate. injection H as -> ->.
  assert (S : forall fuel max d num k x l, retry_loop fuel f max d tracer num k x = Some (ROk a, l) -> x = f k -> exists k, f k = ROk a).
  { clear. induction fuel as [|n IH]; intros max d num k x l H E; cbn in H; (destruct x as [b|e]; [injection H as -> _; eauto|]);
      destruct (max <=? num)%N; try discriminate.
    destruct (retry_loop n f max d tracer _ (S k) (f (S k))) as [[r l0]|] eqn:X; [|discriminate]. injection H as -> _. eapply IH; eauto. }
  assert (T : forall fuel k l, retry_notify fuel f pauses tracer k = Some (ROk a, l) -> exists k, f k = ROk a).
  { clear. induction fuel as [|n IH]; intros k l H; [discriminate|]. cbn in H. destruct (f k) as [b|e] eqn:F; [injection H as -> _; eauto|].
    destruct (pauses k); [|discriminate]. destruct (retry_notify n f pauses tracer (S k)) as [[r l0]|] eqn:X; [|discriminate].
    injection H as -> _. eauto. }
  destruct r as [m|m d|p q]; cbn in R; unfold retry_simple in R; eauto;
    (destruct (retry_loop fuel f m _ tracer 0 0 (f 0)) as [[r0 l0]|] eqn:X; [|discriminate]); injection R as -> _; eauto.
Qed.

(** ** C33 *)
(** For types the chosen serializer is faithful on: if the worker executes the task and gets an output, the leader decodes the
    task's own metadata and a value that the operation returned when executed on the task's own operation value and input.
    Missing: the types on which CBOR is not faithful, for which it is false, see below. *)
Theorem C33_own_output_partial : forall s op_ty in_ty out_ty meta_ty body operations key id meta op input fuel pauses out n,
  faithful s op_ty -> faithful s in_ty -> faithful s out_ty -> faithful s meta_ty ->
  ok op_ty op -> ok in_ty input -> ok meta_ty meta ->
  (forall k o i v, body k o i = BOk v -> ok out_ty v) ->
  nth_error operations id = Some (typed_op op_ty in_ty out_ty body) ->
  remote_execute operations fuel pauses (as_any_task s op_ty in_ty meta_ty key id meta op input) = Some (XOut out, n) ->
  exists k v, body k op input = BOk v /\ task_output meta_ty out_ty out = Some (meta, v).
Proof.
  intros s op_ty in_ty out_ty meta_ty body operations key id meta op input fuel pauses out n F1 F2 F3 F4 O1 O2 O4 BO R H.
  set (t := as_any_task s op_ty in_ty meta_ty key id meta op input) in *.
  assert (D1 : dec_op (typed_op op_ty in_ty out_ty body) (t_ser t) (t_op t) = BOk op) by (cbn; rewrite faithful_round; auto).
  assert (D2 : dec_input (typed_op op_ty in_ty out_ty body) (t_ser t) (t_input t) = BOk input) by (cbn; rewrite faithful_round; auto).
  assert (G : forall k b f, get_result (typed_op op_ty in_ty out_ty body) t k = Some (ROk b, f) -> exists v, body k op input = BOk v /\ b = to_bytes s out_ty v).
  { intros k b f X. unfold get_result in X. rewrite D1, D2 in X. cbn in X. destruct (body k op input) as [v|e|]; try discriminate.
    injection X as <- _. eauto. }
  assert (FIN : forall k v, body k op input = BOk v -> task_output meta_ty out_ty (mkOut (t_meta t) (to_bytes s out_ty v) (t_ser t)) = Some (meta, v)).
  { intros k v X. unfold TaskModel.task_output. cbn. rewrite faithful_round by auto. rewrite faithful_round by eauto. reflexivity. }
  unfold remote_execute in H. change (t_id t) with id in H. rewrite R in H. unfold executor in H.
  destruct (get_result (typed_op op_ty in_ty out_ty body) t 0) as [[[b|e] f]|] eqn:G0; [| |discriminate].
  - injection H as <- <-. destruct (G _ _ _ G0) as (v & X & ->). exists 0, v. eauto.
  - destruct (retry_internal fuel e _ pauses true) as [[[b|e'] l]|] eqn:X; try discriminate. injection H as <- <-.
    destruct (retry_ok_from _ _ _ _ _ _ _ _ _ X) as [k K]. unfold outcome in K.
    destruct (get_result (typed_op op_ty in_ty out_ty body) t (S k)) as [[r f']|] eqn:GK; [|discriminate]. subst r.
    destruct (G _ _ _ GK) as (v & Y & ->). exists (S k), v. eauto.
Qed.

(** With postcard that is every type. *)
Theorem C33_postcard : forall op_ty in_ty out_ty meta_ty body operations key id meta op input fuel pauses out n,
  wf op_ty -> wf in_ty -> wf out_ty -> wf meta_ty -> ok op_ty op -> ok in_ty input -> ok meta_ty meta ->
  (forall k o i v, body k o i = BOk v -> ok out_ty v) ->
  nth_error operations id = Some (typed_op op_ty in_ty out_ty body) ->
  remote_execute operations fuel pauses (as_any_task SPostcard op_ty in_ty meta_ty key id meta op input) = Some (XOut out, n) ->
  exists k v, body k op input = BOk v /\ task_output meta_ty out_ty out = Some (meta, v).
Proof. intros. eapply (C33_own_output_partial SPostcard); eauto. Qed.

(** And a task whose first execution succeeds does give an output. *)
Theorem C33_success : forall s op_ty in_ty out_ty meta_ty body operations key id meta op input fuel pauses v,
  faithful s op_ty -> faithful s in_ty -> faithful s out_ty -> faithful s meta_ty ->
  ok op_ty op -> ok in_ty input -> ok meta_ty meta -> ok out_ty v ->
  nth_error operations id = Some (typed_op op_ty in_ty out_ty body) -> body 0 op input = BOk v ->
  exists out, remote_execute operations fuel pauses (as_any_task s op_ty in_ty meta_ty key id meta op input) = Some (XOut out, 1) /\
    task_output meta_ty out_ty out = Some (meta, v).
Proof.
  intros s op_ty in_ty out_ty meta_ty body operations key id meta op input fuel pauses v F1 F2 F3 F4 O1 O2 O4 O3 R E.
  unfold remote_execute. cbn [t_id TaskModel.as_any_task]. rewrite R. unfold executor, get_result. cbn.
  rewrite (faithful_round s op_ty) by auto. cbn. rewrite (faithful_round s in_ty) by auto. cbn. rewrite E.
  eexists. split; [reflexivity|]. unfold TaskModel.task_output. cbn. rewrite !faithful_round by auto. reflexivity.
Qed.

(** With CBOR and an input type [Option<Option<bool>>] the operation is executed on another input than the task's: here one that
    answers whether its input is [None] says so for [Some(None)]. *)
Definition is_none : nat -> den TUnit -> den (TOpt (TOpt TBool)) -> beh oerr (den TBool) :=
  fun _ _ i => BOk (match i with None => true | Some _ => false end).
Theorem C33_cbor_refuted : exists out,
  remote_execute [typed_op TUnit (TOpt (TOpt TBool)) TBool is_none] 0 (fun _ => None)
    (as_any_task SCbor TUnit (TOpt (TOpt TBool)) (TUint W64) 0 0 7%N tt (Some None)) = Some (XOut out, 1) /\
  task_output (TUint W64) TBool out = Some (7%N, true) /\
  forall k, is_none k tt (Some None) = BOk false.
Proof. eexists. split; [reflexivity|]. split; reflexivity. Qed.
End Props.

(** ** Example: metadata (an index), an operation with a field, a string input, retried once. *)
Definition ex_body (k : nat) (op : den (TUint W8)) (i : den TStr) : beh oerr (den (TUint W64)) :=
  if k =? 0 then BErr (Transient (XUser 1) default_retry FsTerminate) else BOk (op * N.of_nat (length i))%N.
Example C33_ex : let id := fun n : N => n in exists out,
  remote_execute [typed_op id id id id (TUint W8) TStr (TUint W64) ex_body] 3 (fun _ => None)
    (as_any_task id id id id SPostcard (TUint W8) TStr (TUint W64) 0 0 300%N 5%N [72; 105]%N) = Some (XOut out, 2) /\
  o_meta out = [172; 2]%N /\ o_output out = [10]%N /\ task_output id id id (TUint W64) (TUint W64) out = Some (300%N, 10%N).
Proof. eexists. split; [vm_compute; reflexivity|]. split; [|split]; vm_compute; reflexivity. Qed.
Example C33_ex_faithful : faithful SCbor (TUint W8) /\ faithful SCbor TStr /\ faithful SPostcard (TOpt (TOpt TBool)) /\ ~ faithful SCbor (TOpt (TOpt TBool)).
Proof. cbn. repeat split; auto; try lia; intros [[X _] _]; discriminate. Qed.

Print Assumptions C33_own_output_partial.
Print Assumptions C33_postcard.
Print Assumptions C33_success.
Print Assumptions C33_cbor_refuted.
