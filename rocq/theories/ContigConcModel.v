(** ContiguousQueue used by several threads at once (paladin-core/src/contiguous/queue.rs).

    Every access to shared memory is one step: a SkipMap operation, a read of a cell, an
    [AtomicCell::take].  Threads are numbered in the order in which they call.
    Simplification: the unsynchronised read through [as_ptr] (57, 72) is an atomic read (in Rust it is a data race
    with a concurrent [take]); [range(..).next()] is one atomic look-up. *)
From Coq Require Import List NArith Bool.
From Verif Require Import Base ContiguousModel.
Import ListNotations.
Open Scope N_scope.

Section Conc.
  Variable T : Type.
  Variable key : T -> N.
  Variable contig : T -> T -> bool.

  (** What a finished call returned. *)
  Inductive ret : Type :=
  | RetPair (l r : T)        (* acquire: Some((l, r)) *)
  | RetNone                  (* acquire: None, the value was queued; or [queue] *)
  | RetDeq (v : option T).   (* dequeue *)

  (** Where a call is. A node is named by its position in the heap; an entry is a key and a node. *)
  Inductive phase : Type :=
  | PFindR (v : T)                          (* about to look right, 46-47 *)
  | PReadR (v : T) (k : N) (n : nat)        (* entry found, about to read its cell, 57 *)
  | PTakeR (v : T) (k : N) (n : nat)        (* it was contiguous, about to take, 59 *)
  | PFindL (v : T)                          (* or_else: about to look left, 66-69 *)
  | PReadL (v : T) (k : N) (n : nat)        (* 72 *)
  | PTakeL (v : T) (k : N) (n : nat)        (* 74 *)
  | PRem (v w : T) (rgt : bool) (k : N)   (* took [w]; about to remove the key, 60 / 75 *)
  | PQueue (v : T)                          (* about to insert, 91-92 *)
  | PDeq (k : N)                            (* dequeue: about to remove, 98 *)
  | PDeqTake (n : nat)                      (* dequeue: removed the entry, about to take, 98 *)
  | PDone (r : ret).

  Record cstate : Type := mkC {
    c_cells : list (option T);   (* all nodes ever allocated, with their AtomicCell *)
    c_map : cqueue nat;          (* the linked entries of the SkipMap: key -> node *)
    c_thr : list phase
  }.

  Definition c_init : cstate := mkC [] [] [].

  Definition cell (s : cstate) (n : nat) : option T :=
    match nth_error (c_cells s) n with Some o => o | None => None end.

  Inductive cevent : Type :=
  | CAcquire (v : T)
  | CQueue (v : T)
  | CDequeue (k : N)
  | CStep (i : nat).

  Definition set_thr (s : cstate) (i : nat) (p : phase) : cstate :=
    mkC (c_cells s) (c_map s) (upd i p (c_thr s)).

  (** One step of the call of thread [i] that is in phase [p]. *)
  Definition thread_step (s : cstate) (i : nat) (p : phase) : option cstate :=
    match p with
    | PFindR v =>
        Some (set_thr s i (match smap_first_ge (key v) (c_map s) with
                           | Some (k, n) => PReadR v k n
                           | None => PFindL v
                           end))
    | PReadR v k n =>
        Some (set_thr s i (match cell s n with
                           | Some w => if contig v w then PTakeR v k n else PFindL v
                           | None => PFindL v
                           end))
    | PTakeR v k n =>
        match cell s n with
        | Some w => Some (mkC (upd n None (c_cells s)) (c_map s) (upd i (PRem v w true k) (c_thr s)))
        | None => Some (set_thr s i (PFindL v))
        end
    | PFindL v =>
        Some (set_thr s i (match smap_last_lt (key v) (c_map s) with
                           | Some (k, n) => PReadL v k n
                           | None => PQueue v
                           end))
    | PReadL v k n =>
        Some (set_thr s i (match cell s n with
                           | Some w => if contig v w then PTakeL v k n else PQueue v
                           | None => PQueue v
                           end))
    | PTakeL v k n =>
        match cell s n with
        | Some w => Some (mkC (upd n None (c_cells s)) (c_map s) (upd i (PRem v w false k) (c_thr s)))
        | None => Some (set_thr s i (PQueue v))
        end
    | PRem v w rgt k =>
        Some (mkC (c_cells s) (smap_remove k (c_map s))
               (upd i (PDone (if rgt then RetPair v w else RetPair w v)) (c_thr s)))
    | PQueue v =>
        Some (mkC (c_cells s ++ [Some v]) (smap_insert (key v) (length (c_cells s)) (c_map s))
               (upd i (PDone RetNone) (c_thr s)))
    | PDeq k =>
        match smap_get k (c_map s) with
        | Some n => Some (mkC (c_cells s) (smap_remove k (c_map s)) (upd i (PDeqTake n) (c_thr s)))
        | None => Some (set_thr s i (PDone (RetDeq None)))
        end
    | PDeqTake n =>
        Some (mkC (upd n None (c_cells s)) (c_map s) (upd i (PDone (RetDeq (cell s n))) (c_thr s)))
    | PDone _ => None
    end.

  Definition conc_step (s : cstate) (e : cevent) : option cstate :=
    match e with
    | CAcquire v => Some (mkC (c_cells s) (c_map s) (c_thr s ++ [PFindR v]))
    | CQueue v => Some (mkC (c_cells s) (c_map s) (c_thr s ++ [PQueue v]))
    | CDequeue k => Some (mkC (c_cells s) (c_map s) (c_thr s ++ [PDeq k]))
    | CStep i =>
        match nth_error (c_thr s) i with
        | Some p => thread_step s i p
        | None => None
        end
    end.

  Definition conc_run (tr : list cevent) : option cstate := run_from conc_step c_init tr.
End Conc.

Arguments RetPair {T}. Arguments RetNone {T}. Arguments RetDeq {T}.
Arguments PFindR {T}. Arguments PReadR {T}. Arguments PTakeR {T}. Arguments PFindL {T}. Arguments PReadL {T}.
Arguments PTakeL {T}. Arguments PRem {T}. Arguments PQueue {T}. Arguments PDeq {T}. Arguments PDeqTake {T}.
Arguments PDone {T}. Arguments mkC {T}. Arguments c_cells {T}. Arguments c_map {T}. Arguments c_thr {T}.
Arguments c_init {T}. Arguments cell {T}. Arguments CAcquire {T}. Arguments CQueue {T}. Arguments CDequeue {T}.
Arguments CStep {T}. Arguments set_thr {T}. Arguments thread_step {T}. Arguments conc_step {T}. Arguments conc_run {T}.
