(** Messages as bytes: what a leader writes into the task queue, what a worker makes of it, and what the leader reads.

    paladin-core/src/runtime/mod.rs, [get_task_sender] 217-231, [lease_coordinated_task_channel] 318-366, [dispatch_fatal] 556-587 and [dispatch_ok] 594-606;
    paladin-core/src/task/mod.rs; queue/amqp.rs 337, 355, 519 and queue/in_memory.rs 147, 242, 553: a queue writes and reads with the serializer of its connection.
    All processes have the same one (C70 is about others). The bytes inside a task are written with the serializer the leader was given, which the task names. *)
From Coq Require Import List NArith.
From Verif Require Import Base Schema PostcardModel CborModel CborProps RetryModel ExecModel TaskModel WorkerModel.
Import ListNotations.

Section Wire.
Variables widen16 widen32 narrow16 narrow32 : N -> N.
Variable q : serializer.                 (* of the queues *)
Notation to_bytes := (to_bytes widen16 widen32 narrow16 narrow32).
Notation from_bytes := (from_bytes widen16 widen32 narrow32).
Notation bs := (list N).

(** serializer/mod.rs 58-62 *)
Definition ser_value (s : serializer) : den serializer_ty := match s with SPostcard => inl tt | SCbor => inr (inl tt) end.
Definition ser_of (v : den serializer_ty) : serializer := match v with inl _ => SPostcard | inr (inl _) => SCbor | inr (inr e) => match e : Empty_set with end end.

(** An [AnyTask], 63-80. The routing key is its characters; the number in [any_task] is not used. *)
Definition task_value (key : list N) (t : any_task serializer bs) : den any_task_ty :=
  (key, (t_meta t, (t_op t, (N.of_nat (t_id t), (t_input t, (ser_value (t_ser t), tt)))))).
Definition write_task (key : list N) (t : any_task serializer bs) : bs := to_bytes q any_task_ty (task_value key t).
Definition read_task (b : bs) : option (list N * any_task serializer bs) :=
  match from_bytes q any_task_ty b with
  | Some (key, (m, (o, (i, (inp, (s, _)))))) => Some (key, mkTask 0 m o (N.to_nat i) inp (ser_of s))
  | None => None
  end.

(** An [AnyTaskResult], 113-117. *)
Definition output_value (o : any_output serializer bs) : den any_task_output_ty := (o_meta o, (o_output o, (ser_value (o_ser o), tt))).
Definition write_ok (o : any_output serializer bs) : bs := to_bytes q any_task_result_ty (inl (output_value o)).
Definition write_err (text : list N) : bs := to_bytes q any_task_result_ty (inr (inl text)).

(** What the receiver of a lease yields, runtime/mod.rs 335-338 and [into_task_result], task/mod.rs 139-147. [None]: the queue cannot read the message (C43).
    An error is the text the worker sent, or [None] if the output cannot be read. *)
Definition read_result (meta_ty out_ty : ty) (b : bs) : option (res (option (list N)) (den meta_ty * den out_ty)) :=
  match from_bytes q any_task_result_ty b with
  | Some (inl (m, (o, (s, _)))) =>
      Some (match task_output widen16 widen32 narrow32 meta_ty out_ty (mkOut m o (ser_of s)) with Some v => ROk v | None => RErr None end)
  | Some (inr (inl text)) => Some (RErr (Some text))
  | Some (inr (inr e)) => match e : Empty_set with end
  | None => None
  end.

(** What a worker sends for a message in the task queue, runtime/mod.rs 743-797. *)
Inductive reply : Type :=
| RpOutput (b : bs)
| RpFailure (s : fatal_strategy) (b : bs)
| RpPanic.
Variable err_text : oerr -> list N.      (* err.to_string(), 576 *)
Definition work (operations : list (operation serializer bs)) (fuel : nat) (pauses : nat -> option N) (b : bs) : option reply :=
  match read_task b with
  | None => None
  | Some (_, t) =>
      match remote_execute operations fuel pauses t with
      | Some (XOut o, _) => Some (RpOutput (write_ok o))
      | Some (XFail e, _) => Some (RpFailure (fatal_strategy_of e) (write_err (err_text e)))
      | Some (XPanics, _) => Some RpPanic
      | None => None
      end
  end.
End Wire.
