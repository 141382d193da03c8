(** The lock that [delete_queue] of an AMQP connection holds (paladin-core/src/queue/amqp.rs:310-324).

    [self.queue_options.entry(name)] locks the shard of the DashMap that [name] hashes to; the guard lives as long as the [match], so the
    lock is held while the broker's answers are awaited. A call that finds the shard locked blocks its thread, not just its task. The calls run as
    tasks on [threads] threads of a tokio runtime; between two awaits a task runs without interruption. Nothing is ever inserted into
    queue_options, so the entry is always vacant and the call is [delete_broadcast] (232-242). Tasks of other kinds are not modelled: they
    can only use the threads for themselves. *)
From Coq Require Import List Arith Bool.
From Verif Require Import Base.
Import ListNotations.

Inductive phase : Type :=
| New                    (* spawned, waits for a thread *)
| Blocked                (* occupies a thread until the shard is unlocked, line 311 *)
| Await1 | Ready1        (* holds the lock; queue_delete has been sent (233-235), answered *)
| Await2 | Ready2        (* holds the lock; exchange_delete has been sent (237-239), answered; or an error is about to be returned *)
| Finished.
(** A call and the lock it needs: the shard of [name] in the map of the connection object it is called on. *)
Definition call : Type := (nat * phase)%type.
Definition holds (l : nat) (c : call) : bool := Nat.eqb (fst c) l && match snd c with Await1 | Ready1 | Await2 | Ready2 => true | _ => false end.
Definition blocked (c : call) : bool := match snd c with Blocked => true | _ => false end.
Definition free (l : nat) (s : list call) : bool := negb (existsb (holds l) s).
Definition busy (s : list call) : nat := length (filter blocked s).

Inductive l_event : Type :=
| EPoll (i : nat)             (* a thread polls the task *)
| EReply (i : nat) (ok : bool) (* the broker answers *)
| EEnter (i : nat).           (* a blocked thread gets the lock *)

Section Lock.
Variable threads : nat.
Definition l_step (s : list call) (e : l_event) : option (list call) :=
  match e with
  | EPoll i =>
      if busy s <? threads then
        match nth_error s i with
        | Some (l, New) => Some (upd i (l, if free l s then Await1 else Blocked) s)
        | Some (l, Ready1) => Some (upd i (l, Await2) s)
        | Some (l, Ready2) => Some (upd i (l, Finished) s)
        | _ => None
        end
      else None
  | EReply i ok =>
      match nth_error s i with
      | Some (l, Await1) => Some (upd i (l, if ok then Ready1 else Ready2) s)
      | Some (l, Await2) => Some (upd i (l, Ready2) s)
      | _ => None
      end
  | EEnter i =>
      match nth_error s i with
      | Some (l, Blocked) => if free l s then Some (upd i (l, Await1) s) else None
      | _ => None
      end
  end.
End Lock.

(** Calls that are about to start, with their locks. *)
Definition spawned (locks : list nat) : list call := map (fun l => (l, New)) locks.
(** paladin-core/src/channel/queue.rs:199-206, [release]: the connection is cloned for each call, and cloning a DashMap copies it, so no two
    calls have a lock in common. *)
Definition released (n : nat) : list nat := seq 0 n.
