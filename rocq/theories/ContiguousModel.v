(** Sequential model of [ContiguousQueue] (paladin-core/src/contiguous/queue.rs).

    Each call is one atomic operation here.  This is how the queue is used by the fold
    directive: all branches of the fold run in one task and no call has an await point inside.
    The step-by-step concurrent model is in [ContigConcModel]. *)
From Coq Require Import List NArith Bool.
From Verif Require Import Base.
Import ListNotations.
Open Scope N_scope.

Section ContiguousQueue.
  (** [T: Contiguous] with [Key = usize]; contiguous/mod.rs:8-18 ([is_contiguous], [key]).
      Simplification: the ordered key type is [usize]. *)
  Variable T : Type.
  Variable key : T -> N.
  Variable contig : T -> T -> bool.

  (** queue.rs:10-12, [values: SkipMap<Key, AtomicCell<Option<T>>>], as a list sorted by key.
      Simplification: between calls every cell of an entry in the map is [Some] (it is created
      [Some] at 92 and 131, and whoever empties it at 59/74/98 also removes the entry), so the cell
      is the value itself. *)
  Definition cqueue : Type := list (N * T).

  (** queue.rs:21-25, [new]. *)
  Definition cq_new : cqueue := [].

  (** [SkipMap::insert]: replaces the entry of the same key. *)
  Fixpoint smap_insert (k : N) (v : T) (m : cqueue) : cqueue :=
    match m with
    | [] => [(k, v)]
    | (k', v') :: r =>
        if k <? k' then (k, v) :: m
        else if k =? k' then (k, v) :: r
        else (k', v') :: smap_insert k v r
    end.

  (** [SkipMap::remove]. *)
  Fixpoint smap_remove (k : N) (m : cqueue) : cqueue :=
    match m with
    | [] => []
    | (k', v') :: r => if k =? k' then r else (k', v') :: smap_remove k r
    end.

  (** [SkipMap::get]-like lookup, used by [remove] to find the entry (queue.rs:98). *)
  Fixpoint smap_get (k : N) (m : cqueue) : option T :=
    match m with
    | [] => None
    | (k', v') :: r => if k =? k' then Some v' else smap_get k r
    end.

  (** queue.rs:46-47, [range(key..).next()]: the entry with the smallest key [>= k]. *)
  Fixpoint smap_first_ge (k : N) (m : cqueue) : option (N * T) :=
    match m with
    | [] => None
    | (k', v') :: r => if k <=? k' then Some (k', v') else smap_first_ge k r
    end.

  (** queue.rs:69, [range(..key).next_back()]: the entry with the largest key [< k]. *)
  Fixpoint smap_last_lt (k : N) (m : cqueue) : option (N * T) :=
    match m with
    | [] => None
    | (k', v') :: r =>
        if k' <? k then
          match smap_last_lt k r with
          | Some e => Some e
          | None => Some (k', v')
          end
        else None
    end.

  (** queue.rs:15-18. *)
  Inductive position : Type :=
  | Lhs (v : T)
  | Rhs (v : T).

  (** queue.rs:42-82: look right, then (or_else) left. *)
  Definition find_contiguous (q : cqueue) (nv : T) : option position * cqueue :=
    let k := key nv in
    let right :=
      match smap_first_ge k q with
      | Some (ek, ev) => if contig nv ev then Some (ek, ev) else None
      | None => None
      end in
    match right with
    | Some (ek, ev) => (Some (Rhs ev), smap_remove ek q)
    | None =>
        match smap_last_lt k q with
        | Some (ek, ev) => if contig nv ev then (Some (Lhs ev), smap_remove ek q) else (None, q)
        | None => (None, q)
        end
    end.

  (** queue.rs:90-93. *)
  Definition cq_queue (q : cqueue) (v : T) : cqueue := smap_insert (key v) v q.

  (** queue.rs:97-99. *)
  Definition cq_dequeue (q : cqueue) (k : N) : option T * cqueue :=
    match smap_get k q with
    | Some v => (Some v, smap_remove k q)
    | None => (None, q)
    end.

  (** queue.rs:106-117. *)
  Definition cq_acquire (q : cqueue) (nv : T) : option (T * T) * cqueue :=
    match find_contiguous q nv with
    | (Some (Lhs c), q') => (Some (c, nv), q')
    | (Some (Rhs c), q') => (Some (nv, c), q')
    | (None, q') => (None, cq_queue q' nv)
    end.

  (** queue.rs:126-135, [From<IntoIterator>]: collected in iteration order. *)
  Definition cq_from (l : list T) : cqueue := fold_left cq_queue l cq_new.

  (** Calls of the public interface. *)
  Inductive cq_op : Type :=
  | OpQueue (v : T)
  | OpDequeue (k : N)
  | OpAcquire (v : T).

  Inductive cq_out : Type :=
  | OutUnit
  | OutDequeued (v : option T)
  | OutAcquired (p : option (T * T)).

  Definition cq_step (q : cqueue) (op : cq_op) : cqueue * cq_out :=
    match op with
    | OpQueue v => (cq_queue q v, OutUnit)
    | OpDequeue k => let (o, q') := cq_dequeue q k in (q', OutDequeued o)
    | OpAcquire v => let (o, q') := cq_acquire q v in (q', OutAcquired o)
    end.

  (** A history of calls and the answers given. *)
  Fixpoint cq_run (q : cqueue) (ops : list cq_op) : cqueue * list cq_out :=
    match ops with
    | [] => (q, [])
    | op :: r => let (q', o) := cq_step q op in
                 let (q'', os) := cq_run q' r in (q'', o :: os)
    end.
End ContiguousQueue.

Arguments Lhs {T} v.
Arguments Rhs {T} v.
Arguments smap_insert {T} k v m.
Arguments smap_remove {T} k m.
Arguments smap_get {T} k m.
Arguments smap_first_ge {T} k m.
Arguments smap_last_lt {T} k m.
Arguments find_contiguous {T} key contig q nv.
Arguments cq_queue {T} key q v.
Arguments cq_dequeue {T} q k.
Arguments cq_acquire {T} key contig q nv.
Arguments cq_from {T} key l.
Arguments OpQueue {T} v.
Arguments OpDequeue {T} k.
Arguments OpAcquire {T} v.
Arguments OutUnit {T}.
Arguments OutDequeued {T} v.
Arguments OutAcquired {T} p.
Arguments cq_step {T} key contig q op.
Arguments cq_run {T} key contig q ops.

(** The instance used by the fold directive (directive/indexed_stream/foldable.rs).
    [TaskOutput<Op, Metadata>] with [Metadata { range: lo..=hi }] (36-38). *)
Record item (A : Type) : Type := mkItem { it_lo : N; it_hi : N; it_val : A }.
Arguments mkItem {A} it_lo it_hi it_val.
Arguments it_lo {A} i.
Arguments it_hi {A} i.
Arguments it_val {A} i.

(** foldable.rs:56-59, with the wrapping addition of release builds. *)
Definition is_contiguous {A : Type} (a b : item A) : bool :=
  (wsucc (it_hi a) =? it_lo b) || (wsucc (it_hi b) =? it_lo a).

(** foldable.rs:65-67. *)
Definition item_key {A : Type} (a : item A) : N := it_lo a.

(** foldable.rs:46-48, with the wrapping addition of release builds; the subtraction cannot wrap
    because ranges are never empty ([lo <= hi]). *)
Definition is_final {A : Type} (a : item A) (job_size : N) : bool :=
  wsucc (it_hi a - it_lo a) =? job_size.
