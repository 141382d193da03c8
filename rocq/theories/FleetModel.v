(** Several workers and the command channel between them.

    paladin-core/src/runtime/mod.rs: [get_command_ipc_sender] (373-379, 465-471), [get_command_ipc_receiver] (478-494), [dispatch_fatal] (556-587)
    and the listener of [main_loop] (686-709); workers are those of WorkerModel, and tasks reach them in any way.
    The channel is a Broadcast channel named COMMAND_IPC_ROUTING_KEY. What that means depends on the connection:
    - [Shared], AMQP: all workers consume from one queue (C42); it keeps commands while nobody consumes;
    - [Copies], in memory: every subscriber has its own queue, also after it is dropped (C25, C27); what is published before anyone subscribed is kept for
      the first subscriber (C26).
    Publishing and subscribing are one step each here (C25 and C42 are about their interleavings), and so is receiving a command and acknowledging it
    (486-490), so no command comes twice. Deletion and expiry of the AMQP queue are not modelled. *)
From Coq Require Import List Arith NArith Bool.
From Verif Require Import Base BaseFacts WorkerModel SystemModel.
Import ListNotations.
Open Scope nat_scope.

Inductive transport : Type := Shared | Copies.
Record member : Type := mkMem {
  m_w : wstate;
  m_up : bool;            (* its process is alive *)
  m_since : nat;          (* ghost: how many commands had been published and were not kept for it when it subscribed *)
  m_box : list nat        (* [Copies]: its queue *)
}.
Record fleet : Type := mkFl {
  fl_mem : list member;
  fl_queue : list nat;    (* [Shared]: the queue; [Copies]: the history *)
  fl_pub : list nat       (* ghost: all commands published, oldest first *)
}.
Definition fl_init : fleet := mkFl [] [] [].

Inductive f_event : Type :=
| FStart (ident : nat)              (* a worker starts and subscribes, 663 and 691 *)
| FWork (w : nat) (e : w_event)     (* it takes a step other than receiving a command *)
| FCommand (w : nat)                (* its listener receives the next command, 696 *)
| FLeader (k : nat)                 (* the leader publishes Abort, 373-379 *)
| FCrash (w : nat).

Section Fleet.
Variable kind : transport.

Definition add_box (k : nat) (m : member) : member := mkMem (m_w m) (m_up m) (m_since m) (m_box m ++ [k]).
Definition publish (s : fleet) (k : nat) : fleet :=
  match kind, fl_mem s with
  | Shared, ms => mkFl ms (fl_queue s ++ [k]) (fl_pub s ++ [k])
  | Copies, [] => mkFl [] (fl_queue s ++ [k]) (fl_pub s ++ [k])
  | Copies, ms => mkFl (map (add_box k) ms) (fl_queue s) (fl_pub s ++ [k])
  end.
Fixpoint publish_n (s : fleet) (n k : nat) : fleet := match n with O => s | S n' => publish_n (publish s k) n' k end.
(** How many times the new actions publish abort-all, 576-581. *)
Definition aborts (l : list (N * wact)) : nat := cnt (fun p => match snd p with AAbortAll _ => true | _ => false end) l.
Definition set_w (m : member) (ws : wstate) : member := mkMem ws (m_up m) (m_since m) (m_box m).

Definition f_step (s : fleet) (e : f_event) : option fleet :=
  match e with
  | FStart ident =>
      Some (match kind with
            | Shared => mkFl (fl_mem s ++ [mkMem (w_init ident) true (length (fl_pub s)) []]) (fl_queue s) (fl_pub s)
            | Copies => mkFl (fl_mem s ++ [mkMem (w_init ident) true (length (fl_pub s) - length (fl_queue s)) (fl_queue s)]) [] (fl_pub s)
            end)
  | FWork w (WCommand _) => None
  | FWork w e =>
      match nth_error (fl_mem s) w with
      | Some m =>
          if m_up m then
            match w_step (m_w m) e with
            | Some ws => Some (publish_n (mkFl (upd w (set_w m ws) (fl_mem s)) (fl_queue s) (fl_pub s)) (aborts (new_acts (m_w m) ws)) abort_all)
            | None => None
            end
          else None
      | None => None
      end
  | FCommand w =>
      match nth_error (fl_mem s) w with
      | Some m =>
          if m_up m then
            match kind, fl_queue s, m_box m with
            | Shared, k :: q, _ =>
                option_map (fun ws => mkFl (upd w (set_w m ws) (fl_mem s)) q (fl_pub s)) (w_step (m_w m) (WCommand k))
            | Copies, _, k :: b =>
                option_map (fun ws => mkFl (upd w (mkMem ws (m_up m) (m_since m) b) (fl_mem s)) (fl_queue s) (fl_pub s)) (w_step (m_w m) (WCommand k))
            | _, _, _ => None
            end
          else None
      | None => None
      end
  | FLeader k => Some (publish s k)
  | FCrash w =>
      match nth_error (fl_mem s) w with
      | Some m => Some (mkFl (upd w (mkMem (m_w m) false (m_since m) (m_box m)) (fl_mem s)) (fl_queue s) (fl_pub s))
      | None => None
      end
  end.
Definition f_run (tr : list f_event) : option fleet := run_from f_step fl_init tr.
End Fleet.
