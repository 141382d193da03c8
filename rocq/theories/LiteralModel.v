(** Mapping a literal (paladin-core/src/directive/literal/functor.rs) on a leased coordinated channel
    (paladin-core/src/runtime/mod.rs:318-366).

    The future runs alone on its channel, so its polls and the two counters of the channel (CoordModel) are taken step by step without
    interleaving inside. Broker, workers and acknowledgements are the environment: it may lose and duplicate, and answers errors at
    will. The result queue is assumed to receive only results of this directive's task: another directive with the same random
    identifier is left out (see C52). Dropping the future is not modelled. *)
From Coq Require Import List NArith Bool.
From Verif Require Import Base CoordModel.
Import ListNotations.

Section Literal.
Variables A B E O : Type.
(** What a worker answers for the operation on the given input (ExecModel, TaskModel); [O] is what it depends on besides. *)
Variable exec : O -> A -> res E B.

Inductive lerr : Type :=
| LeLease (e : E)      (* functor.rs:15-16 *)
| LeClosed             (* 25, coordinated_publisher.rs:57-59 *)
| LePublish (e : E)    (* 25, also serialization of the task *)
| LeClose (e : E)      (* 26 *)
| LeAck (e : E)        (* 29 *)
| LeOp (e : E)         (* 30, [result?] *)
| LeNoResults.         (* 33 *)

Inductive lphase : Type :=
| LpLease              (* 15-16: awaiting the lease *)
| LpPublish            (* 25: inner publisher called *)
| LpClose              (* 26 *)
| LpNext               (* 28: awaiting [receiver.next()] *)
| LpAck (r : res E B)  (* 29: awaiting the original acker *)
| LpDone (r : res lerr B).

Record lstate : Type := mkL {
  l_phase : lphase;
  l_pending : N;               (* num_pending_sends *)
  l_closed : bool;
  l_accepted : bool;           (* the broker has the task *)
  l_tasks : list A;            (* task queue: deliveries of this task *)
  l_results : list (res E B);  (* the result queue *)
  l_over : bool                (* the inner stream has ended *)
}.

Definition l_init : lstate := mkL LpLease 0 false false [] [] false.

Definition l_go (s : lstate) (p : lphase) : lstate :=
  mkL p (l_pending s) (l_closed s) (l_accepted s) (l_tasks s) (l_results s) (l_over s).
Definition l_env (s : lstate) (t : list A) (r : list (res E B)) : lstate :=
  mkL (l_phase s) (l_pending s) (l_closed s) (l_accepted s) t r (l_over s).

Inductive levent : Type :=
| LLease (r : option E)        (* the lease completes, [Some e] is an error *)
| LAccept                      (* the broker accepts the task *)
| LPublished (r : option E)    (* the inner publisher returns *)
| LClosed (r : option E)       (* the inner publisher's close returns *)
| LTake (i : nat)              (* poll: the inner stream yields a result *)
| LEmpty                       (* poll: the inner stream is pending *)
| LOver                        (* poll: the inner stream has ended *)
| LAcked (r : option E)        (* the original acker returns *)
| LWork (i : nat) (o : O)      (* a worker takes a delivery, executes it and publishes the result *)
| LLoseTask (i : nat) | LLoseResult (i : nat) | LDupTask (i : nat) | LDupResult (i : nat)
| LStreamEnds.                 (* e.g. the connection closed *)

Section Step.
Variable x : A.                (* the literal, 22 *)

Definition l_step (s : lstate) (e : levent) : option lstate :=
  match e, l_phase s with
  | LLease (Some er), LpLease => Some (l_go s (LpDone (RErr (LeLease er))))
  (* 25; coordinated_publisher.rs:57-61: num_pending_sends + 1 unless closed *)
  | LLease None, LpLease =>
      if l_closed s then Some (l_go s (LpDone (RErr LeClosed)))
      else Some (mkL LpPublish (l_pending s + 1) (l_closed s) (l_accepted s) (l_tasks s) (l_results s) (l_over s))
  | LAccept, LpPublish =>
      if l_accepted s then None
      else Some (mkL LpPublish (l_pending s) (l_closed s) true (x :: l_tasks s) (l_results s) (l_over s))
  (* an error may come after the broker took the task; success only then *)
  | LPublished (Some er), LpPublish => Some (l_go s (LpDone (RErr (LePublish er))))
  | LPublished None, LpPublish => if l_accepted s then Some (l_go s LpClose) else None
  | LClosed (Some er), LpClose => Some (l_go s (LpDone (RErr (LeClose er))))
  (* coordinated_publisher.rs:72-73, mod.rs:44-50 *)
  | LClosed None, LpClose => Some (mkL LpNext (l_pending s) true (l_accepted s) (l_tasks s) (l_results s) (l_over s))
  (* coordinated_stream.rs:131-134 *)
  | LTake i, LpNext =>
      if l_over s then None
      else match pick i (l_results s) with
           | Some (r, rest) => Some (mkL (LpAck r) (l_pending s) (l_closed s) (l_accepted s) (l_tasks s) rest (l_over s))
           | None => None
           end
  (* coordinated_stream.rs:135-147; [None] leads to 33 *)
  | LEmpty, LpNext =>
      if l_over s then None
      else match l_results s with
           | [] => if l_closed s && (l_pending s =? 0)%N then Some (l_go s (LpDone (RErr LeNoResults))) else Some s
           | _ => None
           end
  (* coordinated_stream.rs:152-158 *)
  | LOver, LpNext =>
      if l_over s then if (l_pending s =? 0)%N then Some (l_go s (LpDone (RErr LeNoResults))) else Some s else None
  (* 29-30, runtime/mod.rs:350-357: original first, then the coordinated one (coordinated_stream.rs:91-99) *)
  | LAcked (Some er), LpAck _ => Some (l_go s (LpDone (RErr (LeAck er))))
  | LAcked None, LpAck r =>
      Some (mkL (LpDone (match r with ROk y => ROk y | RErr e => RErr (LeOp e) end))
        (wpred (l_pending s)) (l_closed s) (l_accepted s) (l_tasks s) (l_results s) (l_over s))
  | LWork i o, _ =>
      match pick i (l_tasks s) with
      | Some (a, rest) => Some (l_env s rest (l_results s ++ [exec o a]))
      | None => None
      end
  | LLoseTask i, _ => match pick i (l_tasks s) with Some (_, rest) => Some (l_env s rest (l_results s)) | None => None end
  | LLoseResult i, _ => match pick i (l_results s) with Some (_, rest) => Some (l_env s (l_tasks s) rest) | None => None end
  | LDupTask i, _ => match nth_error (l_tasks s) i with Some a => Some (l_env s (a :: l_tasks s) (l_results s)) | None => None end
  | LDupResult i, _ => match nth_error (l_results s) i with Some r => Some (l_env s (l_tasks s) (r :: l_results s)) | None => None end
  | LStreamEnds, _ =>
      if l_over s then None
      else Some (mkL (l_phase s) (l_pending s) (l_closed s) (l_accepted s) (l_tasks s) (l_results s) true)
  | _, _ => None
  end.
End Step.

Definition l_ret (s : lstate) : option (res lerr B) := match l_phase s with LpDone r => Some r | _ => None end.
End Literal.
Arguments LLease {E O} r.
Arguments LAccept {E O}.
Arguments LPublished {E O} r.
Arguments LClosed {E O} r.
Arguments LTake {E O} i.
Arguments LEmpty {E O}.
Arguments LOver {E O}.
Arguments LAcked {E O} r.
Arguments LWork {E O} i o.
Arguments LLoseTask {E O} i.
Arguments LLoseResult {E O} i.
Arguments LDupTask {E O} i.
Arguments LDupResult {E O} i.
Arguments LStreamEnds {E O}.
Arguments LeLease {E} e.
Arguments LeClosed {E}.
Arguments LePublish {E} e.
Arguments LeClose {E} e.
Arguments LeAck {E} e.
Arguments LeOp {E} e.
Arguments LeNoResults {E}.
Arguments LpLease {B E}.
Arguments LpPublish {B E}.
Arguments LpClose {B E}.
Arguments LpNext {B E}.
Arguments LpAck {B E} r.
Arguments LpDone {B E} r.
Arguments mkL {A B E}.
Arguments l_phase {A B E} _.
Arguments l_pending {A B E} _.
Arguments l_closed {A B E} _.
Arguments l_accepted {A B E} _.
Arguments l_tasks {A B E} _.
Arguments l_results {A B E} _.
Arguments l_over {A B E} _.
Arguments l_go {A B E} s p.
Arguments l_env {A B E} s t r.
Arguments l_init {A B E}.
Arguments l_ret {A B E} s.
Arguments l_step {A B E O} exec x s e.
