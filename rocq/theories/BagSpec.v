(** What a program sees of a task queue, without how it is made: a bag of messages, of which any may be taken next.

    [SystemModel], on which the theorems about whole systems rest, assumes such a queue; C80 says that both implementations are one. *)
From Coq Require Import List Permutation.
Import ListNotations.

Section Bag.
Context {M : Type}.

Record bag : Type := mkBag {
  pending : list M;              (* put and not taken, in any order *)
  taken : list (M * nat)         (* taken by a consumer and not answered *)
}.
Definition bag_empty : bag := mkBag [] [].

Inductive qact : Type :=
| Put (m : M)
| Take (m : M) (k : nat)         (* consumer [k] receives the message *)
| Settle (m : M) (k : nat)       (* and answers for it: it is gone *)
| Back (m : M) (k : nat).        (* or is cut off: the message can be taken again *)

(** The order in a bag does not matter. *)
Inductive bag_step : bag -> qact -> bag -> Prop :=
| bs_put : forall p t m p' t', Permutation p' (m :: p) -> Permutation t' t -> bag_step (mkBag p t) (Put m) (mkBag p' t')
| bs_take : forall p t m k p' t', Permutation p (m :: p') -> Permutation t' ((m, k) :: t) -> bag_step (mkBag p t) (Take m k) (mkBag p' t')
| bs_settle : forall p t m k p' t', Permutation t ((m, k) :: t') -> Permutation p' p -> bag_step (mkBag p t) (Settle m k) (mkBag p' t')
| bs_back : forall p t m k p' t', Permutation t ((m, k) :: t') -> Permutation p' (m :: p) -> bag_step (mkBag p t) (Back m k) (mkBag p' t').

Inductive bag_run : bag -> list qact -> bag -> Prop :=
| br_end : forall p t p' t', Permutation p p' -> Permutation t t' -> bag_run (mkBag p t) [] (mkBag p' t')
| br_step : forall a x b l c, bag_step a x b -> bag_run b l c -> bag_run a (x :: l) c.

Definition puts (l : list qact) : list M := flat_map (fun a => match a with Put m => [m] | _ => [] end) l.
Definition takes (l : list qact) : list (M * nat) := flat_map (fun a => match a with Take m k => [(m, k)] | _ => [] end) l.
Definition settles (l : list qact) : list (M * nat) := flat_map (fun a => match a with Settle m k => [(m, k)] | _ => [] end) l.
Definition backs (l : list qact) : list (M * nat) := flat_map (fun a => match a with Back m k => [(m, k)] | _ => [] end) l.
End Bag.
Arguments bag : clear implicits.
Arguments qact : clear implicits.
