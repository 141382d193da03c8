(** Specification vocabulary for ContiguousQueue: a finite map seen as a function, ranges that
    are adjacent, and the nearest entries of a map.  Nothing here mentions the model. *)
From Coq Require Import List NArith Permutation.
From Verif Require Import ContiguousModel.
Import ListNotations.
Open Scope N_scope.

(** [a] ends right before [b] starts. *)
Definition adjacent {A : Type} (a b : item A) : Prop := it_hi a + 1 = it_lo b.
Definition disjoint {A : Type} (a b : item A) : Prop := it_hi a < it_lo b \/ it_hi b < it_lo a.
(** A non-empty range of [usize] that does not end at [usize::MAX]. *)
Definition proper {A : Type} (a : item A) : Prop := it_lo a <= it_hi a /\ it_hi a < Base.usize_max.

Section MapSpec.
  Variable T : Type.
  Variable key : T -> N.
  Variable contig : T -> T -> bool.

  Definition fmap : Type := N -> option T.
  Definition fset (f : fmap) (k : N) (o : option T) : fmap := fun k' => if k' =? k then o else f k'.

  (** The entry nearest to [k] from above (inclusive) / from below (exclusive). *)
  Definition nearest_ge (f : fmap) (k ek : N) (v : T) : Prop :=
    f ek = Some v /\ k <= ek /\ forall k', k <= k' -> k' < ek -> f k' = None.
  Definition nearest_lt (f : fmap) (k ek : N) (v : T) : Prop :=
    f ek = Some v /\ ek < k /\ forall k', ek < k' -> k' < k -> f k' = None.

  Definition right_partner f x ek y := nearest_ge f (key x) ek y /\ contig x y = true.
  Definition left_partner f x ek y := nearest_lt f (key x) ek y /\ contig x y = true.

  (** What one call may answer and how it changes the map. *)
  Inductive fmap_step (f : fmap) : cq_op T -> cq_out T -> fmap -> Prop :=
  | FsQueue v : fmap_step f (OpQueue v) OutUnit (fset f (key v) (Some v))
  | FsDequeue k : fmap_step f (OpDequeue k) (OutDequeued (f k)) (fset f k None)
  | FsRight x ek y : right_partner f x ek y ->
      fmap_step f (OpAcquire x) (OutAcquired (Some (x, y))) (fset f ek None)
  | FsLeft x ek y : (forall ek' y', ~ right_partner f x ek' y') -> left_partner f x ek y ->
      fmap_step f (OpAcquire x) (OutAcquired (Some (y, x))) (fset f ek None)
  | FsNone x : (forall ek y, ~ right_partner f x ek y) -> (forall ek y, ~ left_partner f x ek y) ->
      fmap_step f (OpAcquire x) (OutAcquired None) (fset f (key x) (Some x)).

  (** Histories of the abstract map (maps are compared pointwise). *)
  Inductive fmap_run : fmap -> list (cq_op T) -> list (cq_out T) -> fmap -> Prop :=
  | FrNil f g : (forall k, f k = g k) -> fmap_run f [] [] g
  | FrCons f op o g ops os h : fmap_step f op o g -> fmap_run g ops os h ->
      fmap_run f (op :: ops) (o :: os) h.
End MapSpec.

Arguments fset {T} f k o k'.
Arguments nearest_ge {T} f k ek v.
Arguments nearest_lt {T} f k ek v.
Arguments fmap_step {T} key contig f _ _ _.
Arguments fmap_run {T} key contig _ _ _ _.
