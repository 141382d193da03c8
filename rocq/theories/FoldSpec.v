(** What a fold is supposed to compute.  Only [held] (the list of all index ranges found in a state)
    looks at the model's state. *)
From Coq Require Import List NArith Bool.
From Verif Require Import Base ContiguousModel FoldModel.
Import ListNotations.
Open Scope N_scope.

(** [in_order comb l v]: [v] is obtained by combining all elements of [l], each exactly once, with the
    left operand always coming from the part of [l] to the left of the right operand; any
    parenthesisation, any (oracle dependent) successful outcome of [comb]. *)
Inductive in_order {A E O : Type} (comb : O -> A -> A -> res E A) : list A -> A -> Prop :=
| IoOne x : in_order comb [x] x
| IoTwo l1 l2 a b c o : in_order comb l1 a -> in_order comb l2 b -> comb o a b = ROk c ->
    in_order comb (l1 ++ l2) c.

(** The items of [l] under the consecutive indices [base, base+1, ...]. *)
Fixpoint index_from {A : Type} (base : N) (l : list A) : list (N * A) :=
  match l with
  | [] => []
  | x :: r => (base, x) :: index_from (base + 1) r
  end.

(** The pure fold of a non-empty list. *)
Definition fold1 {A : Type} (f : A -> A -> A) (x : A) (l : list A) : A := fold_left f l x.

(** How many of the given index ranges [lo..=hi] contain the index [i]. *)
Definition in_range (r : N * N) (i : N) : bool := (fst r <=? i) && (i <=? snd r).
Fixpoint holders (rs : list (N * N)) (i : N) : nat :=
  match rs with
  | [] => 0
  | r :: t => (if in_range r i then 1 else 0) + holders t i
  end.
(** The ranges partition [base .. base+n-1]. *)
Definition partition_of (rs : list (N * N)) (base n : N) : Prop :=
  (forall r, In r rs -> fst r <= snd r) /\
  forall i, holders rs i = if (base <=? i) && (i <? base + n) then 1%nat else 0%nat.

(** All index ranges held anywhere: unread input, assembler, channel, published tasks, results, and the
    final result. *)
Section Held.
  Context {A E : Type}.
  Definition irng (it : item A) : N * N := (it_lo it, it_hi it).
  Definition trng (t : ftask A) : N * N := (ft_lo t, ft_hi t).
  Definition inrng (r : res E (N * A)) : list (N * N) := match r with ROk (i, _) => [(i, i)] | RErr _ => [] end.
  Definition rrng (r : res E (item A)) : list (N * N) := match r with ROk it => [irng it] | RErr _ => [] end.
  Definition frng (o : option (item A)) : list (N * N) := match o with Some it => [irng it] | None => [] end.
  Definition held (s : fstate A E) : list (N * N) :=
    flat_map inrng (f_inp s) ++ map irng (map snd (f_asm s)) ++ map trng (f_chan s) ++
    map trng (f_tasks s) ++ flat_map rrng (f_results s) ++ frng (f_final s).
End Held.

(** Nothing that a fault-free environment does can change the state any more. *)
Definition settled {A E O : Type} (comb : O -> A -> A -> res E A) (empty : A) (s : fstate A E) : Prop :=
  forall e, nofault e = true -> fold_step comb empty s e = None.
Definition fault_free {O : Type} (tr : list (fevent O)) : Prop := Forall (fun e => nofault e = true) tr.

(** Number of executions of [combine] by workers in a schedule. *)
Definition is_work {O : Type} (e : fevent O) : bool := match e with EvWork _ _ => true | _ => false end.
Definition executions {O : Type} (tr : list (fevent O)) : nat := length (filter is_work tr).
(** The schedule handles a result. *)
Definition is_result {O : Type} (e : fevent O) : bool := match e with EvResult _ _ => true | _ => false end.
