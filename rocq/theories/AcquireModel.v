(** Leasing a channel on an AMQP connection (paladin-core/src/runtime/mod.rs:318-366, paladin-core/src/channel/queue.rs:169-189, paladin-core/src/channel/mod.rs:80-131).

    One lease; identifiers are unique (C52), so leases do not meet. Requests to the broker travel in order. The caller may drop the future of the lease whenever it
    waits, and a request may fail; a request that was sent is still carried out. In memory no call waits, see ConnModel. The workers' side is left out. *)
From Coq Require Import List Bool.
Import ListNotations.

Inductive request : Type := Declare | Consume | Delete.
Inductive phase : Type :=
| Asking            (* declares the task queue for the sender, mod.rs:327-330 *)
| Declaring         (* awaits declare_queue, queue.rs:172-175 *)
| Consuming         (* awaits declare_consumer, queue.rs:176 *)
| Held              (* the caller has the LeaseGuard, mod.rs:360-365 *)
| Ended.
Record acq : Type := mkA {
  a_phase : phase;
  a_wire : list request;     (* sent, not yet carried out *)
  a_queue : bool;            (* the result queue is on the broker *)
  a_spawned : bool           (* [release] spawned a deletion that has not run, queue.rs:182-189 *)
}.
Definition a_init : acq := mkA Asking [] false false.

Inductive a_event : Type :=
| AReply (ok : bool)         (* the awaited request is answered *)
| ABroker                    (* the broker carries out the next request *)
| ADrop                      (* the caller drops the lease or the future that makes it *)
| ARun                       (* the spawned deletion starts *)
| ALost.                     (* the process ends before the deletion starts *)

Definition a_step (s : acq) (e : a_event) : option acq :=
  match e, a_phase s with
  | AReply true, Asking => Some (mkA Declaring (a_wire s ++ [Declare]) (a_queue s) (a_spawned s))
  | AReply true, Declaring => if a_wire s then Some (mkA Consuming [Consume] (a_queue s) (a_spawned s)) else None
  | AReply true, Consuming => if a_wire s then Some (mkA Held [] (a_queue s) (a_spawned s)) else None
  | AReply false, Asking | AReply false, Declaring | AReply false, Consuming => Some (mkA Ended (a_wire s) (a_queue s) (a_spawned s))   (* [?] *)
  | ABroker, _ =>
      match a_wire s with
      | Declare :: r => Some (mkA (a_phase s) r true (a_spawned s))
      | Consume :: r => Some (mkA (a_phase s) r (a_queue s) (a_spawned s))
      | Delete :: r => Some (mkA (a_phase s) r false (a_spawned s))
      | [] => None
      end
  | ADrop, Asking | ADrop, Declaring | ADrop, Consuming => Some (mkA Ended (a_wire s) (a_queue s) (a_spawned s))
  | ADrop, Held => Some (mkA Ended (a_wire s) (a_queue s) true)          (* channel/mod.rs:123-131 *)
  | ARun, _ => if a_spawned s then Some (mkA (a_phase s) (a_wire s ++ [Delete]) (a_queue s) false) else None
  | ALost, _ => if a_spawned s then Some (mkA (a_phase s) (a_wire s) (a_queue s) false) else None
  | _, _ => None
  end.
