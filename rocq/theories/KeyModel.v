(** Random identifiers (paladin-core/src/common/mod.rs:3-9) and the well-known channel names. *)
From Coq Require Import List NArith Ascii String.
Import ListNotations.
Local Open Scope N_scope.

(** rand 0.8.5 [Alphanumeric]: 62 characters ... *)
Definition charset : string := "ABCDEFGHIJKLMNOPQRSTUVWXYZabcdefghijklmnopqrstuvwxyz0123456789".
(** ... of which one is drawn by rejection: the top 6 bits of a u32 are used if they are less than 62, else another u32 is drawn. *)
Definition accept (u : N) : option ascii :=
  let v := N.shiftr u 26 in
  if v <? 62 then String.get (N.to_nat v) charset else None.

(** common/mod.rs:3-9. The generator is a list of the u32 values it will give; [None]: the list ran out while still drawing. The rest of
    the list is what the next caller of the same thread gets. *)
Fixpoint sample (n : nat) (draws : list N) : option (string * list N) :=
  match n with
  | O => Some (EmptyString, draws)
  | S m =>
      (fix redraw (d : list N) : option (string * list N) :=
        match d with
        | [] => None
        | u :: d' => match accept u with
                     | Some c => match sample m d' with Some (k, r) => Some (String c k, r) | None => None end
                     | None => redraw d'
                     end
        end) draws
  end.
Definition key_length : nat := 5.
Definition get_random_routing_key (draws : list N) : option (string * list N) := sample key_length draws.

(** runtime/mod.rs:125-127 *)
Definition command_ipc_routing_key : string := "command-ipc-routing-key".
Definition task_ipc_routing_key : string := "task-ipc-routing-key".
Definition command_ipc_abort_all_key : string := "abort-all-key".
(** runtime/mod.rs:134-138 and 431-436: the key of the task bus. *)
Definition task_bus_key (configured : option string) : string :=
  match configured with Some k => k | None => task_ipc_routing_key end.

(** channel/queue.rs:209-220 [issue], called any number of times: the identifiers issued. (Line 170, consumer names, and runtime/mod.rs:683,
    the worker's name, draw in the same way.) *)
Fixpoint issue_many (n : nat) (draws : list N) : option (list string * list N) :=
  match n with
  | O => Some ([], draws)
  | S m => match get_random_routing_key draws with
           | Some (k, d) => match issue_many m d with Some (ks, r) => Some (k :: ks, r) | None => None end
           | None => None
           end
  end.
