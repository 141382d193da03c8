(** C93: from bytes to bytes. *)
From Coq Require Import List Arith NArith Lia Bool.
From Verif Require Import Base BaseFacts Utf8 Schema PostcardModel PostcardProps CborModel CborProps RetryModel RetrySpec RetryProps ExecModel TaskModel TaskProps
  WorkerModel SystemModel SystemSpec SystemProps WireBytes WireModel.
Import ListNotations.
Open Scope nat_scope.

Section Props.
Variables widen16 widen32 narrow16 narrow32 : N -> N.
Notation to_bytes := (to_bytes widen16 widen32 narrow16 narrow32).
Notation from_bytes := (from_bytes widen16 widen32 narrow32).
Notation typed_op := (typed_op widen16 widen32 narrow16 narrow32).
Notation as_any_task := (as_any_task widen16 widen32 narrow16 narrow32).
Notation write_task := (write_task widen16 widen32 narrow16 narrow32).
Notation read_task := (read_task widen16 widen32 narrow32).
Notation write_ok := (write_ok widen16 widen32 narrow16 narrow32).
Notation write_err := (write_err widen16 widen32 narrow16 narrow32).
Notation read_result := (read_result widen16 widen32 narrow32).
Notation work := (work widen16 widen32 narrow16 narrow32).

Lemma faithful_bytes : forall s t v, faithful s t -> ok t v -> bytes (to_bytes s t v).
Proof.
  intros [] t v F O; [now apply (proj1 penc_all_bytes)|]. destruct F as [F _]. apply (proj1 (cenc_all_bytes widen16 widen32 narrow16 narrow32)); [|exact O].
  exact (proj1 (proj1 (without_f32 (fun _ => True)) t F)).
Qed.
Lemma message_round : forall q t v, In t message_types -> ok t v -> from_bytes q t (to_bytes q t v) = Some v.
Proof. intros [] t v I O; now apply C46_messages_partial. Qed.

(** The bytes fit: they are bytes and there are less than 2^64 of them. *)
Definition fits (b : list N) : Prop := bytes b /\ len_ok b.
Lemma ser_round : forall s, ser_of (ser_value s) = s. Proof. now intros []. Qed.

(** A worker reads the task that was written, whatever serializer the queue has. *)
Theorem C93_task : forall q key t, str_ok key -> fits (t_meta t) -> fits (t_op t) -> fits (t_input t) -> t_id t < 256 ->
  read_task q (write_task q key t) = Some (key, mkTask 0 (t_meta t) (t_op t) (t_id t) (t_input t) (t_ser t)).
Proof.
  intros q key [k m o i inp s] K M O P L. cbn [t_meta t_op t_id t_input t_ser] in *. unfold WireModel.read_task, WireModel.write_task.
  rewrite message_round; [|now left|].
  - cbn. rewrite Nat2N.id, ser_round. reflexivity.
  - cbn. repeat (split; [assumption || (cbn; lia)|]). split; [|exact Logic.I]. now destruct s.
Qed.
(** A leader reads the output or the text that was written. *)
Theorem C93_result : forall q meta_ty out_ty o, fits (o_meta o) -> fits (o_output o) ->
  read_result q meta_ty out_ty (write_ok q o) = Some (match task_output widen16 widen32 narrow32 meta_ty out_ty o with Some v => ROk v | None => RErr None end).
Proof.
  intros q mt ot [m o s] M O. cbn [o_meta o_output] in *. unfold WireModel.read_result, WireModel.write_ok. rewrite message_round; [|right; now left|].
  - cbn [output_value o_meta o_output o_ser]. now rewrite ser_round.
  - cbn. repeat (split; [assumption|]). split; [|exact Logic.I]. now destruct s.
Qed.
Theorem C93_text : forall q meta_ty out_ty text, str_ok text -> read_result q meta_ty out_ty (write_err q text) = Some (RErr (Some text)).
Proof.
  intros q mt ot text T. unfold WireModel.read_result, WireModel.write_err. rewrite message_round; [reflexivity|right; now left|exact T].
Qed.

(** What the executor makes of a task does not depend on its routing key. *)
Lemma execute_key : forall (ops : list (operation serializer (list N))) fuel pauses k k' m o i inp s,
  remote_execute ops fuel pauses (mkTask k m o i inp s) = remote_execute ops fuel pauses (mkTask k' m o i inp s).
Proof. reflexivity. Qed.

Lemma retry_err_from : forall (Err A : Type) fuel (e : op_error Err) (f : nat -> Base.res (op_error Err) A) pauses tracer e' l,
  retry_internal fuel e f pauses tracer = Some (RErr e', l) -> e' = e \/ exists k x, f k = RErr x /\ into_err x = into_err e'.
Proof.
  intros Err A fuel e f pauses tracer e' l H. destruct e as [x r s|x s]; [|injection H as <- _; now left]. cbn in H.
  destruct (retry_with_strategy fuel f r pauses tracer) as [[[b|e2] l2]|] eqn:R; try discriminate. injection H as <- _. right.
  enough (exists k, f k = RErr e2) as [k K] by (exists k, e2; now split).
  assert (S : forall fuel max d num k x l, retry_loop fuel f max d tracer num k x = Some (RErr e2, l) -> x = f k -> exists k, f k = RErr e2).
  { clear. induction fuel as [|n IH]; intros max d num k x l H E; cbn in H; (destruct x as [b|e]; [discriminate|]);
      (destruct (max <=? num)%N; [injection H as <- _; eauto|]); try discriminate.
    destruct (retry_loop n f max d tracer _ (S k) (f (S k))) as [[r l0]|] eqn:X; [|discriminate]. injection H as -> _. eapply IH; eauto. }
  assert (T : forall fuel k l, retry_notify fuel f pauses tracer k = Some (RErr e2, l) -> exists k, f k = RErr e2).
  { clear. induction fuel as [|n IH]; intros k l H; [discriminate|]. cbn in H. destruct (f k) as [b|e] eqn:F; [discriminate|].
    destruct (pauses k); [|injection H as <- _; eauto]. destruct (retry_notify n f pauses tracer (S k)) as [[r l0]|] eqn:X; [|discriminate].
    injection H as -> _. eauto. }
  destruct r as [m|m d|p q]; cbn in R; unfold retry_simple in R; eauto;
    (destruct (retry_loop fuel f m _ tracer 0 0 (f 0)) as [[r0 l0]|] eqn:X; [|discriminate]); injection R as -> _; eauto.
Qed.

(** Everything the directive's tasks have in common, and the behaviour [body w] of the operation, which may be another one at each execution of a task. *)
Section Typed.
Variables (q s : serializer) (op_ty in_ty out_ty meta_ty : ty) (W : Type).
Variable body : W -> nat -> den op_ty -> den in_ty -> beh oerr (den out_ty).
Variable ops : W -> list (operation serializer (list N)).
Variable err_text : oerr -> list N.
Variables (key : list N) (id : nat) (op : den op_ty).
Hypothesis F1 : faithful s op_ty.
Hypothesis F2 : faithful s in_ty.
Hypothesis F3 : faithful s out_ty.
Hypothesis F4 : faithful s meta_ty.
Hypothesis K : str_ok key.
Hypothesis ID : id < 256.
Hypothesis O1 : ok op_ty op.
Hypothesis L1 : len_ok (to_bytes s op_ty op).
Hypothesis REG : forall w, nth_error (ops w) id = Some (typed_op op_ty in_ty out_ty (body w)).
Hypothesis BO : forall w k o i v, body w k o i = BOk v -> ok out_ty v /\ len_ok (to_bytes s out_ty v).
Hypothesis ET : forall e, str_ok (err_text e).

(** The values of a task that can be sent. *)
Definition sendable (meta : den meta_ty) (input : den in_ty) : Prop :=
  ok meta_ty meta /\ len_ok (to_bytes s meta_ty meta) /\ ok in_ty input /\ len_ok (to_bytes s in_ty input).
Definition task_bytes (meta : den meta_ty) (input : den in_ty) : list N := write_task q key (as_any_task s op_ty in_ty meta_ty 0 id meta op input).

Lemma task_read : forall meta input, sendable meta input ->
  read_task q (task_bytes meta input) = Some (key, as_any_task s op_ty in_ty meta_ty 0 id meta op input).
Proof.
  intros meta input (M & LM & P & LP). unfold task_bytes. rewrite C93_task; [reflexivity|assumption| | | |exact ID]; cbn; split; auto; now apply faithful_bytes.
Qed.
(** What executing a task can come to. *)
Lemma exec_cases : forall w fuel pauses meta input r n, ok in_ty input ->
  remote_execute (ops w) fuel pauses (as_any_task s op_ty in_ty meta_ty 0 id meta op input) = Some (r, n) ->
  exists k, match r with
            | XOut o => exists v, body w k op input = BOk v /\ o = mkOut (to_bytes s meta_ty meta) (to_bytes s out_ty v) s
            | XFail e => (exists e', body w k op input = BErr e' /\ into_err e' = into_err e) \/ (body w k op input = BPanic /\ into_err e = XPanicked)
            | XPanics => False
            end.
Proof.
  intros w fuel pauses meta input r n P H. set (t := as_any_task s op_ty in_ty meta_ty 0 id meta op input) in *. set (o := typed_op op_ty in_ty out_ty (body w)).
  assert (D1 : dec_op o (t_ser t) (t_op t) = BOk op) by (cbn; rewrite faithful_round; auto).
  assert (D2 : dec_input o (t_ser t) (t_input t) = BOk input) by (cbn; rewrite faithful_round; auto).
  assert (G : forall k, exists x f, get_result o t k = Some (x, f) /\
    match x with
    | ROk b => exists v, body w k op input = BOk v /\ b = to_bytes s out_ty v
    | RErr e => body w k op input = BErr e \/ (body w k op input = BPanic /\ e = Fatal XPanicked FsTerminate)
    end).
  { intros k. unfold get_result. rewrite D1, D2. cbn. destruct (body w k op input) as [v|e|]; do 2 eexists; (split; [reflexivity|]); cbn; eauto. }
  unfold remote_execute in H. change (t_id t) with id in H. rewrite REG in H. fold o in H. unfold executor in H.
  destruct (G 0) as (x & f & G0 & X). rewrite G0 in H. destruct x as [b|e].
  - injection H as <- <-. destruct X as (v & X & ->). exists 0, v. now split.
  - destruct (retry_internal fuel e _ pauses true) as [[[b|e'] l]|] eqn:Y; try discriminate; injection H as <- <-.
    + destruct (retry_ok_from _ _ _ _ _ _ _ _ _ Y) as [k Z]. unfold ExecModel.outcome in Z. destruct (G (S k)) as (x & f' & GK & XK). rewrite GK in Z. subst x.
      destruct XK as (v & XK & ->). exists (S k), v. now split.
    + destruct (retry_err_from _ _ _ _ _ _ _ _ _ Y) as [->|(k & z & Z & IE)].
      * exists 0. destruct X as [X|[X ->]]; [left; eauto|right; now split].
      * unfold ExecModel.outcome in Z. destruct (G (S k)) as (x & f' & GK & XK). rewrite GK in Z. subst x. exists (S k). rewrite <- IE.
        destruct XK as [XK|[XK ->]]; [left; eauto|right; now split].
Qed.

Lemma work_ok : forall w fuel pauses meta input b, sendable meta input -> work q err_text (ops w) fuel pauses (task_bytes meta input) = Some (RpOutput b) ->
  exists k v, body w k op input = BOk v /\ read_result q meta_ty out_ty b = Some (ROk (meta, v)).
Proof.
  intros w fuel pauses meta input b SD H. unfold WireModel.work in H. rewrite task_read in H by exact SD. destruct SD as (M & LM & P & LP).
  destruct (remote_execute (ops w) fuel pauses _) as [[[o|e|] n]|] eqn:X; try discriminate. injection H as <-.
  destruct (exec_cases _ _ _ _ _ _ _ P X) as (k & v & B & ->). exists k, v. split; [exact B|]. destruct (BO _ _ _ _ _ B) as [OV LV].
  rewrite C93_result; [|split; [now apply faithful_bytes|assumption]..].
  unfold TaskModel.task_output. cbn [o_ser o_meta o_output]. now rewrite !faithful_round.
Qed.
Lemma work_err : forall w fuel pauses meta input fs b, sendable meta input -> work q err_text (ops w) fuel pauses (task_bytes meta input) = Some (RpFailure fs b) ->
  exists k e, ((exists e', body w k op input = BErr e' /\ into_err e' = into_err e) \/ (body w k op input = BPanic /\ into_err e = XPanicked)) /\
    fs = fatal_strategy_of e /\ read_result q meta_ty out_ty b = Some (RErr (Some (err_text e))).
Proof.
  intros w fuel pauses meta input fs b SD H. unfold WireModel.work in H. rewrite task_read in H by exact SD. destruct SD as (M & LM & P & LP).
  destruct (remote_execute (ops w) fuel pauses _) as [[[o|e|] n]|] eqn:X; try discriminate. injection H as <- <-.
  destruct (exec_cases _ _ _ _ _ _ _ P X) as (k & B). exists k, e. split; [exact B|]. split; [reflexivity|]. apply C93_text, ET.
Qed.

(** Several directives and workers on one runtime (SystemModel), where payloads and results are names of messages: [msg x] is the bytes of message [x]. *)
Variable may : nat -> outcome -> bool.
Variable msg : nat -> list N.
(** Every execution that takes place is an execution of the task in the message, by some behaviour of the operations. *)
Hypothesis PERFORMS : forall x o, may x o = true -> exists w fuel pauses,
  work q err_text (ops w) fuel pauses (msg x) =
  Some (match o with OcOk y => RpOutput (msg y) | OcErr fs m => RpFailure fs (msg m) | OcPanic => RpPanic end).
(** The directive [d] dispatches tasks of this kind. *)
Definition dispatches (st : sys) (d : nat) : Prop := forall n x, dispatched st n d x -> exists meta input, sendable meta input /\ msg x = task_bytes meta input.

(** What a directive reads when the bytes of an output arrive: the metadata of a task it sent, and a value its operation returned for that task's input. *)
Theorem C93_output_partial : forall tr st d dd r y, sys_reaches may tr st -> dispatches st d -> nth_error (y_dirs st) d = Some dd -> In r (d_got dd) -> r_out r = inl y ->
  exists n x meta input w k v, dispatched st n d x /\ msg x = task_bytes meta input /\ body w k op input = BOk v /\
    read_result q meta_ty out_ty (msg y) = Some (ROk (meta, v)).
Proof.
  intros tr st d dd r y R DI D I Y. destruct (C40_own _ _ _ _ _ _ R D I) as (n & x & _ & _ & _ & o & DS & _ & _ & _ & MY & RO).
  destruct (DI _ _ DS) as (meta & input & SD & E). destruct (PERFORMS _ _ MY) as (w & fuel & pauses & X). rewrite E in X.
  rewrite Y in RO. destruct o as [y'|[] m|]; try discriminate. injection RO as ->. destruct (work_ok _ _ _ _ _ _ SD X) as (k & v & B & RR).
  exists n, x, meta, input, w, k, v. now repeat split.
Qed.
(** And when the bytes of an error arrive: the text of an error that its operation returned for a task it sent, or that it panicked. *)
Theorem C93_error_partial : forall tr st d dd r y, sys_reaches may tr st -> dispatches st d -> nth_error (y_dirs st) d = Some dd -> In r (d_got dd) -> r_out r = inr y ->
  exists n x meta input w k e, dispatched st n d x /\ msg x = task_bytes meta input /\
    ((exists e', body w k op input = BErr e' /\ into_err e' = into_err e) \/ (body w k op input = BPanic /\ into_err e = XPanicked)) /\
    fatal_strategy_of e = FsTerminate /\ read_result q meta_ty out_ty (msg y) = Some (RErr (Some (err_text e))).
Proof.
  intros tr st d dd r y R DI D I Y. destruct (C40_own _ _ _ _ _ _ R D I) as (n & x & _ & _ & _ & o & DS & _ & _ & _ & MY & RO).
  destruct (DI _ _ DS) as (meta & input & SD & E). destruct (PERFORMS _ _ MY) as (w & fuel & pauses & X). rewrite E in X.
  rewrite Y in RO. destruct o as [y'|[] m|]; try discriminate. injection RO as ->. destruct (work_err _ _ _ _ _ _ _ SD X) as (k & e & B & FS & RR).
  exists n, x, meta, input, w, k, e. now repeat split.
Qed.
(** With an operation that computes a function, the output is that function of the task's input. *)
Theorem C93_function_partial : forall (f : den in_ty -> den out_ty) tr st d dd r y, (forall w k i v, body w k op i = BOk v -> v = f i) ->
  sys_reaches may tr st -> dispatches st d -> nth_error (y_dirs st) d = Some dd -> In r (d_got dd) -> r_out r = inl y ->
  exists n x meta input, dispatched st n d x /\ msg x = task_bytes meta input /\ read_result q meta_ty out_ty (msg y) = Some (ROk (meta, f input)).
Proof.
  intros f tr st d dd r y FN R DI D I Y. destruct (C93_output_partial _ _ _ _ _ _ R DI D I Y) as (n & x & meta & input & w & k & v & DS & E & B & RR).
  exists n, x, meta, input. rewrite (FN _ _ _ _ B) in RR. now repeat split.
Qed.
(** The worker does not panic on a task of this kind. *)
Theorem C93_no_panic_partial : forall x meta input, sendable meta input -> msg x = task_bytes meta input -> may x OcPanic = false.
Proof.
  intros x meta input SD E. destruct (may x OcPanic) eqn:MY; [|reflexivity]. destruct (PERFORMS _ _ MY) as (w & fuel & pauses & X). rewrite E in X.
  unfold WireModel.work in X. rewrite task_read in X by exact SD. destruct (remote_execute (ops w) fuel pauses _) as [[[o|e|] n]|] eqn:Y; try discriminate.
  destruct (exec_cases _ _ _ _ _ _ _ (proj1 (proj2 (proj2 SD))) Y) as [k []].
Qed.
End Typed.
End Props.

(** With postcard that is so for every type, whichever serializer the queues use. *)
Theorem C93_postcard : forall w16 w32 n16 n32 q op_ty in_ty out_ty meta_ty (W : Type) (body : W -> nat -> den op_ty -> den in_ty -> beh oerr (den out_ty))
    (ops : W -> list (operation serializer (list N))) err_text key id op may msg tr st d dd r,
  wf op_ty -> wf in_ty -> wf out_ty -> wf meta_ty -> str_ok key -> id < 256 -> ok op_ty op -> len_ok (postcard_to_bytes op_ty op) ->
  (forall w, nth_error (ops w) id = Some (typed_op w16 w32 n16 n32 op_ty in_ty out_ty (body w))) ->
  (forall w k o i v, body w k o i = BOk v -> ok out_ty v /\ len_ok (postcard_to_bytes out_ty v)) -> (forall e, str_ok (err_text e)) ->
  (forall x o, may x o = true -> exists w fuel pauses, WireModel.work w16 w32 n16 n32 q err_text (ops w) fuel pauses (msg x) =
     Some (match o with OcOk y => RpOutput (msg y) | OcErr fs m => RpFailure fs (msg m) | OcPanic => RpPanic end)) ->
  sys_reaches may tr st -> dispatches w16 w32 n16 n32 q SPostcard op_ty in_ty meta_ty key id op msg st d -> nth_error (y_dirs st) d = Some dd -> In r (d_got dd) ->
  exists n x meta input w k, dispatched st n d x /\ msg x = task_bytes w16 w32 n16 n32 q SPostcard op_ty in_ty meta_ty key id op meta input /\
    match r_out r with
    | inl y => exists v, body w k op input = BOk v /\ WireModel.read_result w16 w32 n32 q meta_ty out_ty (msg y) = Some (ROk (meta, v))
    | inr y => exists e, ((exists e', body w k op input = BErr e' /\ into_err e' = into_err e) \/ (body w k op input = BPanic /\ into_err e = XPanicked)) /\
        WireModel.read_result w16 w32 n32 q meta_ty out_ty (msg y) = Some (RErr (Some (err_text e)))
    end.
Proof.
  intros w16 w32 n16 n32 q op_ty in_ty out_ty meta_ty W body ops err_text key id op may msg tr st d dd r F1 F2 F3 F4 K ID O1 L1 REG BO ET PF R DI D I.
  destruct (r_out r) as [y|y] eqn:Y.
  - destruct (C93_output_partial w16 w32 n16 n32 q SPostcard op_ty in_ty out_ty meta_ty W body ops err_text key id op F1 F2 F3 F4 K ID O1 L1 REG BO may msg PF
      tr st d dd r y R DI D I Y) as (n & x & meta & input & w & k & v & A & E & B & C). exists n, x, meta, input, w, k. repeat (split; [assumption|]). now exists v.
  - destruct (C93_error_partial w16 w32 n16 n32 q SPostcard op_ty in_ty out_ty meta_ty W body ops err_text key id op F1 F2 F4 K ID O1 L1 REG ET may msg PF
      tr st d dd r y R DI D I Y) as (n & x & meta & input & w & k & e & A & E & B & _ & C). exists n, x, meta, input, w, k. repeat (split; [assumption|]). now exists e.
Qed.

(** ** Example: queues in CBOR, tasks in postcard; the metadata is an index, the operation has a field, the input is a string. An empty string is an error;
    otherwise the first execution of a task fails and the second gives the field times the length. *)
Definition wex_body (_ : unit) (k : nat) (op : den (TUint W8)) (i : den TStr) : beh oerr (den (TUint W64)) :=
  match i with
  | [] => BErr (Fatal (XUser 7) FsTerminate)
  | _ => if k =? 0 then BErr (Transient (XUser 1) default_retry FsTerminate) else if (op * N.of_nat (length i) <? 2 ^ 16)%N then BOk (op * N.of_nat (length i))%N else BPanic
  end.
Definition wid (n : N) : N := n.
Definition wex_ops (_ : unit) : list (operation serializer (list N)) := [typed_op wid wid wid wid (TUint W8) TStr (TUint W64) (wex_body tt)].
Definition wex_text (e : oerr) : list N := match into_err e with XUser n => [101; 48 + N.of_nat (n mod 10)]%N | _ => [112]%N end.
Definition wex_task (meta : N) (input : list N) : list N := task_bytes wid wid wid wid SCbor SPostcard (TUint W8) TStr (TUint W64) [107%N] 0 5%N meta input.
(** Messages 1 and 2 are tasks; 3 and 4 the answers. *)
Definition wex_msg (x : nat) : list N :=
  match x with
  | 1 => wex_task 300 [72; 105]%N
  | 2 => wex_task 301 []
  | 3 => write_ok wid wid wid wid SCbor (mkOut [172; 2]%N [10]%N SPostcard)
  | _ => write_err wid wid wid wid SCbor [101; 55]%N
  end.
Definition wex_may (x : nat) (o : outcome) : bool := match x, o with 1, OcOk 3 => true | 2, OcErr FsTerminate 4 => true | _, _ => false end.
Definition wex_run : list y_event :=
  [YLease 7; YStart 20; YSend 0 1; YSend 0 2; YTake 0 0] ++ SystemProps.work 0 (OcOk 3) (WorkerProps.resolve 0) ++ [YTake 0 0] ++
  SystemProps.work 0 (OcErr FsTerminate 4) [WDeclare true; WEffect SResult] ++ [YRecv 0 1; YRecv 0 0].
Definition wex_end : sys := match run_from (y_step wex_may) y_init wex_run with Some s => s | None => y_init end.
Example C93_ex_run : run_from (y_step wex_may) y_init wex_run = Some wex_end /\ y_sent wex_end = [(0, 1); (0, 2)] /\
  map (fun d => map r_out (d_got d)) (y_dirs wex_end) = [[inr 4; inl 3]].
Proof. split; [vm_compute; reflexivity|]. split; vm_compute; reflexivity. Qed.
Example C93_ex_performs : forall x o, wex_may x o = true -> exists w fuel pauses,
  work wid wid wid wid SCbor wex_text (wex_ops w) fuel pauses (wex_msg x) =
  Some (match o with OcOk y => RpOutput (wex_msg y) | OcErr fs m => RpFailure fs (wex_msg m) | OcPanic => RpPanic end).
Proof.
  intros x o H. exists tt, 3, (fun _ => None). destruct x as [|[|[|x]]], o as [[|[|[|[|y]]]]|[] [|[|[|[|[|m]]]]]|]; try discriminate H; vm_compute; reflexivity.
Qed.
Example C93_ex_sizes : (length (wex_msg 1), length (wex_msg 2), length (wex_msg 3), length (wex_msg 4)) = (76, 74, 46, 8).
Proof. vm_compute; reflexivity. Qed.
(** The rest of what the theorems ask for, and what the directive reads. *)
Lemma dig : forall n, (N.of_nat (n mod 10) < 10)%N. Proof. intros n. assert (n mod 10 < 10) by (apply Nat.mod_upper_bound; discriminate). lia. Qed.
Example C93_ex_asked : wf (TUint W8) /\ wf TStr /\ wf (TUint W64) /\ str_ok [107%N] /\ ok (TUint W8) 5%N /\
  (forall w, nth_error (wex_ops w) 0 = Some (typed_op wid wid wid wid (TUint W8) TStr (TUint W64) (wex_body w))) /\
  (forall w k o i v, wex_body w k o i = BOk v -> ok (TUint W64) v /\ len_ok (postcard_to_bytes (TUint W64) v)) /\ (forall e, str_ok (wex_text e)) /\
  dispatches wid wid wid wid SCbor SPostcard (TUint W8) TStr (TUint W64) [107%N] 0 5%N wex_msg wex_end 0.
Proof.
  split; [exact Logic.I|]. split; [exact Logic.I|]. split; [exact Logic.I|]. split; [split; reflexivity|]. split; [reflexivity|]. split; [now intros []|]. split; [|split].
  - intros w k o i v H. assert (L : (v < 2 ^ 16)%N).
    { unfold wex_body in H. destruct i as [|c i]; [discriminate H|]. destruct (k =? 0); [discriminate H|].
      destruct (N.ltb_spec (o * N.of_nat (length (c :: i))) (2 ^ 16)) as [L|]; [|discriminate H]. injection H as <-. exact L. }
    split; [cbn; lia|]. unfold len_ok, postcard_to_bytes. cbn [penc].
    assert (V : forall k n, length (venc k n) <= k) by (induction k0 as [|k0 IH]; intros n; [apply le_n|]; cbn [venc]; destruct (n <? 128)%N; cbn; [lia|specialize (IH (n / 128)%N); lia]).
    match goal with |- context [length ?x] => assert (length x <= 19) end; [|lia]. eapply Nat.le_trans; [apply V|]. vm_compute. lia.
  - intros e. unfold wex_text. destruct (into_err e) as [n| | |]; split; try reflexivity.
    + pose proof (dig n) as D. unfold forallb. apply andb_true_iff. split; [reflexivity|]. apply andb_true_iff. split; [|reflexivity]. apply orb_true_iff. left.
      apply N.ltb_lt. revert D. generalize (N.of_nat (n mod 10)). intros m D. lia.
    + pose proof (dig n) as D. unfold len_ok, utf8_enc, flat_map, enc_char. revert D. generalize (N.of_nat (n mod 10)). intros m D.
      change (101 <? 128)%N with true. destruct (N.ltb_spec (48 + m) 128); [reflexivity|lia].
  - intros n x H. unfold dispatched in H. change (y_sent wex_end) with [(0, 1); (0, 2)] in H. destruct n as [|[|n]]; [| |now destruct n]; injection H as <-.
    + exists 300%N, [72; 105]%N. split; [|reflexivity]. vm_compute. auto.
    + exists 301%N, []. split; [|reflexivity]. vm_compute. auto.
Qed.
Example C93_ex_read : map (fun b => read_result wid wid wid SCbor (TUint W64) (TUint W64) b) [wex_msg 3; wex_msg 4] = [Some (ROk (300, 10)%N); Some (RErr (Some [101; 55]%N))].
Proof. vm_compute. reflexivity. Qed.

Print Assumptions C93_task.
Print Assumptions C93_result.
Print Assumptions C93_text.
Print Assumptions C93_output_partial.
Print Assumptions C93_error_partial.
Print Assumptions C93_function_partial.
Print Assumptions C93_no_panic_partial.
Print Assumptions C93_postcard.
