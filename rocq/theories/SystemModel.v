(** A whole system: directives that lease result channels, one task queue, any number of workers.

    paladin-core/src/runtime/mod.rs, [lease_coordinated_task_channel] (318-366), [get_result_sender] (452-458), [worker_loop] as modelled
    in WorkerModel. Channels are named by identifiers, which are taken to be different for all leases (C52 says when they are).
    - A task carries the identifier of its directive's result channel (paladin-core/src/task/mod.rs:35, and MapModel); here [t_body] is
      the number of the dispatch, which stands for the task's operation, input and metadata.
    - The queues are sets: any message may be delivered next (ExactlyOnce queues give each message to one consumer, C22 to C24, C44; C80).
    - A task that a worker has taken and not acked may come back to the queue (the AMQP connection of the worker ends): [YBack].
      Nothing else returns it: nack does nothing in memory (acker.rs:149-166) and removes the message with AMQP.
    - A worker that crashes takes no more steps. Commands reach workers in any way: [WCommand] is not restricted.
    - Releasing the lease deletes the result queue with what is in it (C41); results published later are kept and never read. *)
From Coq Require Import List Arith NArith Bool.
From Verif Require Import Base WorkerModel.
Import ListNotations.
Open Scope nat_scope.

Record res : Type := mkR {
  r_key : nat;              (* the channel it is published on *)
  r_out : nat + nat;        (* output, or error message *)
  r_w : nat; r_i : nat;     (* ghost: which worker, and its how manieth task *)
  r_n : nat                 (* ghost: which dispatch *)
}.
Record dir : Type := mkD { d_key : nat; d_open : bool; d_got : list res }.
Record sys : Type := mkY {
  y_dirs : list dir;
  y_sent : list (nat * nat);         (* dispatches: directive and payload *)
  y_queue : list nat;                (* the task queue: numbers of dispatches *)
  y_workers : list wstate;
  y_results : list res;              (* published and not received *)
  y_lost : list res;                 (* in a result queue when it was deleted *)
  y_back : list (nat * nat * nat)    (* worker, how manieth task, dispatch: came back to the queue *)
}.
Definition y_init : sys := mkY [] [] [] [] [] [] [].

Inductive y_event : Type :=
| YLease (k : nat)            (* a directive leases a result channel, 327-342 *)
| YSend (d x : nat)           (* and dispatches a task *)
| YStart (ident : nat)        (* a worker starts *)
| YTake (w j : nat)           (* worker [w] receives the [j]-th task in the queue *)
| YWork (w : nat) (e : w_event)
| YBack (w i : nat)
| YRecv (d j : nat)           (* directive [d] receives the [j]-th result *)
| YRelease (d : nat).         (* the lease guard is dropped *)

Section System.
Variable may : nat -> outcome -> bool.   (* possible outcomes of executing a payload *)

(** The dispatch that the worker's [i]-th task was. *)
Fixpoint body_of (i : nat) (l : list (N * wact)) : option nat :=
  match l with
  | [] => None
  | (_, ATake j t) :: r => if Nat.eqb j i then Some (t_body t) else body_of i r
  | _ :: r => body_of i r
  end.
(** The results among a worker's new actions: [get_result_sender] publishes on the channel named by the routing key, 571-581, 601-603. *)
Definition published (w : nat) (full : list (N * wact)) (p : N * wact) : list res :=
  match snd p with
  | AOk i k y => match body_of i full with Some n => [mkR k (inl y) w i n] | None => [] end
  | AErr i k msg => match body_of i full with Some n => [mkR k (inr msg) w i n] | None => [] end
  | _ => []
  end.
Definition new_acts (s s' : wstate) : list (N * wact) := firstn (length (w_log s') - length (w_log s)) (w_log s').
Definition acked (i : nat) (l : list (N * wact)) : bool := existsb (fun p => match snd p with AAck j => Nat.eqb j i | _ => false end) l.
Definition came_back (w i : nat) (l : list (nat * nat * nat)) : bool := existsb (fun p => Nat.eqb (fst (fst p)) w && Nat.eqb (snd (fst p)) i) l.
(** Only outcomes that the payload of the task being executed can have. *)
Definition possible (s : sys) (ws : wstate) (e : w_event) : bool :=
  match e, w_main ws with
  | WTake _, _ => false
  | WPoll _ (Some o), WpRun t _ _ => match nth_error (y_sent s) (t_body t) with Some (_, x) => may x o | None => false end
  | _, _ => true
  end.

Definition y_step (s : sys) (e : y_event) : option sys :=
  match e with
  | YLease k =>
      if existsb (fun d => Nat.eqb (d_key d) k) (y_dirs s) then None
      else Some (mkY (y_dirs s ++ [mkD k true []]) (y_sent s) (y_queue s) (y_workers s) (y_results s) (y_lost s) (y_back s))
  | YSend d x =>
      match nth_error (y_dirs s) d with
      | Some _ => Some (mkY (y_dirs s) (y_sent s ++ [(d, x)]) (y_queue s ++ [length (y_sent s)]) (y_workers s) (y_results s) (y_lost s) (y_back s))
      | None => None
      end
  | YStart ident => Some (mkY (y_dirs s) (y_sent s) (y_queue s) (y_workers s ++ [w_init ident]) (y_results s) (y_lost s) (y_back s))
  | YTake w j =>
      match nth_error (y_workers s) w, pick j (y_queue s) with
      | Some ws, Some (n, q) =>
          match nth_error (y_sent s) n with
          | Some (d, _) =>
              match nth_error (y_dirs s) d with
              | Some dd =>
                  match w_step ws (WTake (mkT (d_key dd) n)) with
                  | Some ws' => Some (mkY (y_dirs s) (y_sent s) q (upd w ws' (y_workers s)) (y_results s) (y_lost s) (y_back s))
                  | None => None
                  end
              | None => None
              end
          | None => None
          end
      | _, _ => None
      end
  | YWork w e =>
      match nth_error (y_workers s) w with
      | Some ws =>
          if possible s ws e then
            match w_step ws e with
            | Some ws' =>
                Some (mkY (y_dirs s) (y_sent s) (y_queue s) (upd w ws' (y_workers s)) (y_results s ++ flat_map (published w (w_log ws')) (new_acts ws ws')) (y_lost s) (y_back s))
            | None => None
            end
          else None
      | None => None
      end
  | YBack w i =>
      match nth_error (y_workers s) w with
      | Some ws =>
          match body_of i (w_log ws) with
          | Some n =>
              if acked i (w_log ws) || came_back w i (y_back s) then None
              else Some (mkY (y_dirs s) (y_sent s) (y_queue s ++ [n]) (y_workers s) (y_results s) (y_lost s) ((w, i, n) :: y_back s))
          | None => None
          end
      | None => None
      end
  | YRecv d j =>
      match nth_error (y_dirs s) d, pick j (y_results s) with
      | Some dd, Some (r, rest) =>
          if d_open dd && Nat.eqb (r_key r) (d_key dd)
          then Some (mkY (upd d (mkD (d_key dd) true (d_got dd ++ [r])) (y_dirs s)) (y_sent s) (y_queue s) (y_workers s) rest (y_lost s) (y_back s))
          else None
      | _, _ => None
      end
  | YRelease d =>
      match nth_error (y_dirs s) d with
      | Some dd =>
          if d_open dd
          then Some (mkY (upd d (mkD (d_key dd) false (d_got dd)) (y_dirs s)) (y_sent s) (y_queue s) (y_workers s)
                       (filter (fun r => negb (Nat.eqb (r_key r) (d_key dd))) (y_results s)) (y_lost s ++ filter (fun r => Nat.eqb (r_key r) (d_key dd)) (y_results s)) (y_back s))
          else None
      | None => None
      end
  end.
End System.
