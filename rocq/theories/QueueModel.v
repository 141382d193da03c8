(** The in-memory message queue: a [SegQueue] of messages and a tokio semaphore with one permit per message, shared by
    publishers and consumers (paladin-core/src/queue/in_memory.rs). Used by exactly-once queues as the one queue of all
    consumers, and by broadcast queues as the queue of each consumer name.

    Modelled from documentation: [SegQueue] is a linearizable FIFO queue; tokio's semaphore is fair, i.e. a released permit goes
    to the longest waiting acquirer, and dropping an acquirer that was granted a permit passes it on. Serialization is
    modelled elsewhere; a message is the number of the publish call and its payload. *)
From Coq Require Import List Arith Bool.
From Verif Require Import Base.
Import ListNotations.

Section Queue.
Context {M : Type}.

(** A publish call, in_memory.rs:146-151 (and 267-268 for broadcast). *)
Inductive qpub : Type :=
| QPush      (* about to push, 148 *)
| QPermit    (* about to add a permit, 149 *)
| QDone.

(** A consumer, in_memory.rs:525-581; [permit] is [Some] only inside [poll_next]. *)
Inductive qcons : Type :=
| QIdle      (* not waiting *)
| QWaiting   (* its acquire future is queued in the semaphore *)
| QGranted   (* was given a permit and woken, not polled yet *)
| QHolding   (* inside poll_next with the permit, about to pop, 546 *)
| QDropped.

Record queue : Type := mkQ {
  q_msgs : list (nat * M);        (* front first *)
  q_permits : nat;
  q_waiters : list nat;           (* consumers, longest waiting first *)
  q_pubs : list (M * qpub);       (* all publish calls *)
  q_cons : list qcons;            (* all consumers ever declared *)
  q_pushed : list (nat * M);      (* ghost: everything pushed, in order *)
  q_taken : list (nat * (nat * M)); (* ghost: everything handed out, in order, with the consumer *)
  q_panic : bool                  (* the unreachable branch, 567, was executed *)
}.

(** [ExactlyOnceQueue::new], 137-144: nothing inside, no permits. A broadcast consumer starts with the drained history [ms] and as
    many permits, 294-324; those messages count as pushed. *)
Definition q_init (ms : list (nat * M)) : queue := mkQ ms (length ms) [] [] [] ms [] false.

(** [Semaphore::add_permits(1)], and the release of a granted permit by a dropped acquirer. *)
Definition q_release (s : queue) : queue :=
  match q_waiters s with
  | [] => mkQ (q_msgs s) (S (q_permits s)) [] (q_pubs s) (q_cons s) (q_pushed s) (q_taken s) (q_panic s)
  | c :: ws => mkQ (q_msgs s) (q_permits s) ws (q_pubs s) (upd c QGranted (q_cons s)) (q_pushed s) (q_taken s) (q_panic s)
  end.

Definition q_set_cons (s : queue) (l : list qcons) : queue :=
  mkQ (q_msgs s) (q_permits s) (q_waiters s) (q_pubs s) l (q_pushed s) (q_taken s) (q_panic s).

Inductive q_event : Type :=
| EvQPublish (m : M)         (* a new publish call *)
| EvQPubStep (i : nat)
| EvQConsumer                (* declare_consumer, 153-164 *)
| EvQPoll (c : nat)          (* poll_next up to taking the permit, 541-578 *)
| EvQPop (c : nat)           (* the rest of poll_next, 546-568 *)
| EvQDrop (c : nat).         (* the consumer is dropped (never inside poll_next) *)

Definition remove_waiter (c : nat) (l : list nat) : list nat := filter (fun x => negb (Nat.eqb x c)) l.

Definition q_step (s : queue) (e : q_event) : option queue :=
  match e with
  | EvQPublish m =>
      Some (mkQ (q_msgs s) (q_permits s) (q_waiters s) (q_pubs s ++ [(m, QPush)]) (q_cons s) (q_pushed s) (q_taken s) (q_panic s))
  | EvQPubStep i =>
      match nth_error (q_pubs s) i with
      | Some (m, QPush) =>
          Some (mkQ (q_msgs s ++ [(i, m)]) (q_permits s) (q_waiters s) (upd i (m, QPermit) (q_pubs s)) (q_cons s)
                  (q_pushed s ++ [(i, m)]) (q_taken s) (q_panic s))
      | Some (m, QPermit) =>
          Some (q_release (mkQ (q_msgs s) (q_permits s) (q_waiters s) (upd i (m, QDone) (q_pubs s)) (q_cons s)
                  (q_pushed s) (q_taken s) (q_panic s)))
      | _ => None
      end
  | EvQConsumer => Some (q_set_cons s (q_cons s ++ [QIdle]))
  | EvQPoll c =>
      match nth_error (q_cons s) c with
      | Some QIdle =>
          match q_permits s with
          | S p => Some (mkQ (q_msgs s) p (q_waiters s) (q_pubs s) (upd c QHolding (q_cons s)) (q_pushed s) (q_taken s) (q_panic s))
          | O => Some (mkQ (q_msgs s) O (q_waiters s ++ [c]) (q_pubs s) (upd c QWaiting (q_cons s)) (q_pushed s) (q_taken s) (q_panic s))
          end
      | Some QWaiting => Some s
      | Some QGranted => Some (q_set_cons s (upd c QHolding (q_cons s)))
      | _ => None
      end
  | EvQPop c =>
      match nth_error (q_cons s) c with
      | Some QHolding =>
          match q_msgs s with
          | m :: ms => Some (mkQ ms (q_permits s) (q_waiters s) (q_pubs s) (upd c QIdle (q_cons s)) (q_pushed s)
                               (q_taken s ++ [(c, m)]) (q_panic s))
          | [] => Some (mkQ [] (q_permits s) (q_waiters s) (q_pubs s) (upd c QIdle (q_cons s)) (q_pushed s) (q_taken s) true)
          end
      | _ => None
      end
  | EvQDrop c =>
      match nth_error (q_cons s) c with
      | Some QIdle => Some (q_set_cons s (upd c QDropped (q_cons s)))
      | Some QWaiting =>
          Some (mkQ (q_msgs s) (q_permits s) (remove_waiter c (q_waiters s)) (q_pubs s) (upd c QDropped (q_cons s))
                  (q_pushed s) (q_taken s) (q_panic s))
      | Some QGranted => Some (q_release (q_set_cons s (upd c QDropped (q_cons s))))
      | _ => None
      end
  end.
End Queue.
Arguments queue : clear implicits.
Arguments q_event : clear implicits.
