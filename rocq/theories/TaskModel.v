(** Typed tasks: serializing, executing and decoding the result (paladin-core/src/task/mod.rs), over the serializers of
    PostcardModel and CborModel. *)
From Coq Require Import List NArith Bool.
From Verif Require Import Base Schema PostcardModel CborModel RetryModel ExecModel.
Import ListNotations.

(** serializer/mod.rs 58-62 *)
Inductive serializer : Type := SPostcard | SCbor.

Section Task.
Variables widen16 widen32 narrow16 narrow32 : N -> N.

(** serializer/mod.rs 76-96. Writing cannot fail for the types of [Schema]. *)
Definition to_bytes (s : serializer) (t : ty) (v : den t) : list N :=
  match s with
  | SPostcard => postcard_to_bytes t v
  | SCbor => cbor_to_bytes widen16 widen32 narrow16 narrow32 t v
  end.
Definition from_bytes (s : serializer) (t : ty) (b : list N) : option (den t) :=
  match s with
  | SPostcard => postcard_from_bytes t b
  | SCbor => cbor_from_bytes widen16 widen32 narrow32 t b
  end.

Definition ser : Type := serializer.
Definition dec_beh {t : ty} (o : option (den t)) : beh unit (den t) := match o with Some v => BOk v | None => BErr tt end.

(** An operation whose types are described by schemas. [body k] is the behaviour of the [k]-th execution. *)
Definition typed_op (op_ty in_ty out_ty : ty) (body : nat -> den op_ty -> den in_ty -> beh oerr (den out_ty)) : operation serializer (list N) :=
  mkOp (den op_ty) (den in_ty) (den out_ty)
    (fun s b => dec_beh (from_bytes s op_ty b)) (fun s b => dec_beh (from_bytes s in_ty b))
    body (fun s v => BOk (to_bytes s out_ty v)).

(** Task::as_any_task, task/mod.rs 121-135. *)
Definition as_any_task (s : serializer) (op_ty in_ty meta_ty : ty) (key id : nat) (meta : den meta_ty) (op : den op_ty) (input : den in_ty)
  : any_task serializer (list N) :=
  mkTask key (to_bytes s meta_ty meta) (to_bytes s op_ty op) id (to_bytes s in_ty input) s.

(** TryFrom<AnyTaskOutput>, 93-108: the output is decoded with the serializer it names. *)
Definition task_output (meta_ty out_ty : ty) (o : any_output serializer (list N)) : option (den meta_ty * den out_ty) :=
  match from_bytes (o_ser o) meta_ty (o_meta o) with
  | Some m => match from_bytes (o_ser o) out_ty (o_output o) with Some v => Some (m, v) | None => None end
  | None => None
  end.
End Task.
