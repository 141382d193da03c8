(** Executing a task (paladin-core/src/task/mod.rs and the code generated by paladin-opkind-derive/src/lib.rs). *)
From Coq Require Import List NArith Bool.
From Verif Require Import Base RetryModel.
Import ListNotations.
Open Scope nat_scope.

(** What user code or a serializer does when called: returns, fails or panics. *)
Inductive beh (E A : Type) : Type :=
| BOk (a : A)
| BErr (e : E)
| BPanic.
Arguments BOk {E A} a.
Arguments BErr {E A} e.
Arguments BPanic {E A}.

(** The [anyhow::Error] inside an operation error, as far as it is told apart here. *)
Inductive xerr : Type :=
| XUser (n : nat)     (* an error made by the operation itself *)
| XCodec              (* (de)serialization failed *)
| XPanicked           (* "operation {} panicked", lib.rs 131-134 *)
| XJoin.              (* the blocking task panicked outside [execute], lib.rs 144-147 *)

Notation oerr := (op_error xerr).

(** task/mod.rs 63-80; the routing key is a number, the serializer is looked at in ExecCodec. *)
Record any_task (Ser Bs : Type) : Type := mkTask {
  t_key : nat; t_meta : Bs; t_op : Bs; t_id : nat; t_input : Bs; t_ser : Ser
}.
Arguments mkTask {Ser Bs}. Arguments t_key {Ser Bs}. Arguments t_meta {Ser Bs}. Arguments t_op {Ser Bs}.
Arguments t_id {Ser Bs}. Arguments t_input {Ser Bs}. Arguments t_ser {Ser Bs}.
(** 83-91 *)
Record any_output (Ser Bs : Type) : Type := mkOut { o_meta : Bs; o_output : Bs; o_ser : Ser }.
Arguments mkOut {Ser Bs}. Arguments o_meta {Ser Bs}. Arguments o_output {Ser Bs}. Arguments o_ser {Ser Bs}.

(** One operation type with its codecs. [execute k] is what the [k]-th execution of the task does (from 0), so that the operation
    may keep state or depend on the time and the abort signal. Decoding is a function of the bytes. *)
Record operation (Ser Bs : Type) : Type := mkOp {
  Op : Type; Input : Type; Output : Type;
  dec_op : Ser -> Bs -> beh unit Op;
  dec_input : Ser -> Bs -> beh unit Input;
  execute : nat -> Op -> Input -> beh oerr Output;
  enc_output : Ser -> Output -> beh unit Bs
}.
Arguments mkOp {Ser Bs}. Arguments Op {Ser Bs}. Arguments Input {Ser Bs}. Arguments Output {Ser Bs}.
Arguments dec_op {Ser Bs}. Arguments dec_input {Ser Bs}. Arguments execute {Ser Bs}. Arguments enc_output {Ser Bs}.

Section Exec.
Context {Ser Bs : Type}.
Notation operation := (operation Ser Bs).
Notation any_task := (any_task Ser Bs).

(** operation/mod.rs 123-127, 131-135, 157-161: a codec error is fatal with the default strategy. *)
Definition codec_err : oerr := Fatal XCodec default_fatal.

(** The closure [get_result], lib.rs 114-151, at its [k]-th call. [None]: the async code itself panics, which happens when a
    user-written [Deserialize] panics, since only [execute] is guarded. The second component tells whether [execute] was called. *)
Definition get_result (o : operation) (t : any_task) (k : nat) : option (res oerr Bs * bool) :=
  match dec_op o (t_ser t) (t_op t) with
  | BPanic => None
  | BErr _ => Some (RErr codec_err, false)
  | BOk op =>
      match dec_input o (t_ser t) (t_input t) with
      | BPanic => None
      | BErr _ => Some (RErr codec_err, false)
      | BOk i =>
          match execute o k op i with
          | BPanic => Some (RErr (Fatal XPanicked FsTerminate), true)
          | BErr e => Some (RErr e, true)
          | BOk v => match enc_output o (t_ser t) v with
                     | BOk b => Some (ROk b, true)
                     | BErr _ => Some (RErr codec_err, true)
                     | BPanic => Some (RErr (Fatal XJoin FsTerminate), true)
                     end
          end
      end
  end.

Inductive xres : Type :=
| XOut (o : any_output Ser Bs)
| XFail (e : oerr)
| XPanics.

(** A result that cannot arise from a call that did not panic. *)
Definition outcome (o : operation) (t : any_task) (k : nat) : res oerr Bs :=
  match get_result o t k with Some (r, _) => r | None => RErr codec_err end.

(** __execute, lib.rs 112-173: the result and how often [get_result] was called. [None]: still retrying. *)
Definition executor (o : operation) (fuel : nat) (pauses : nat -> option N) (t : any_task) : option (xres * nat) :=
  let finish r n := match r with
                    | ROk b => Some (XOut (mkOut (t_meta t) b (t_ser t)), n)
                    | RErr e => Some (XFail e, n)
                    end in
  match get_result o t 0 with
  | None => Some (XPanics, 1)
  | Some (ROk b, _) => finish (ROk b) 1
  | Some (RErr e, _) =>
      match retry_internal fuel e (fun k => outcome o t (S k)) pauses true with
      | Some (r, l) => finish r (S (length (filter (fun a => match a with ACall _ => true | _ => false end) l)))
      | None => None
      end
  end.

(** AnyTask::remote_execute, task/mod.rs 165-170: indexing [OPERATIONS] panics when the id is out of range. *)
Definition remote_execute (operations : list operation) (fuel : nat) (pauses : nat -> option N) (t : any_task) : option (xres * nat) :=
  match nth_error operations (t_id t) with
  | Some o => executor o fuel pauses t
  | None => Some (XPanics, 0)
  end.
End Exec.
