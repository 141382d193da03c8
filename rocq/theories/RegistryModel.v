(** The registry of operations (paladin-opkind-derive/src/lib.rs, paladin-core/src/lib.rs, [OPERATIONS]).

    An operation is named by its crate and its place among the [#[derive(RemoteExecute)]] of that crate. *)
From Coq Require Import List Arith.
Import ListNotations.

Definition opname : Type := (nat * nat)%type.

(** A program: the number of operations each crate derives. *)
Definition program : Type := list nat.

(** lib.rs 27 and 102: [OPERATION_ID_COUNTER] is a u8 that starts at 0 in each run of the compiler, that is for each crate, and
    wraps around. *)
Definition op_id (o : opname) : nat := snd o mod 256.

Definition ops_of (p : program) : list opname :=
  flat_map (fun c => map (fun i => (c, i)) (seq 0 (nth c p 0))) (seq 0 (length p)).

(** The distributed slice holds the executors of all crates (linkme); [link] is the order the linker chose.
    [OPERATIONS[id]], task/mod.rs 169. *)
Definition resolve (link : list opname) (o : opname) : option opname := nth_error link (op_id o).
