(** Small shared vocabulary: results, picking one element out of a bag, index ranges. *)
From Coq Require Import List NArith Lia Permutation Bool.
Import ListNotations.
Open Scope N_scope.

(** Rust's [Result<A, E>] kept as data. *)
Inductive res (E A : Type) : Type :=
| ROk (a : A)
| RErr (e : E).
Arguments ROk {E A} a.
Arguments RErr {E A} e.

(** Take the [i]-th element out of a list: models an unordered choice made by the scheduler. *)
Fixpoint pick {A : Type} (i : nat) (l : list A) : option (A * list A) :=
  match l with
  | [] => None
  | x :: r =>
      match i with
      | O => Some (x, r)
      | S j => match pick j r with
               | Some (y, r') => Some (y, x :: r')
               | None => None
               end
      end
  end.

(** [2^64], the number of values of [usize] on the supported 64-bit targets. *)
Definition usize_mod : N := 2 ^ 64.
(** [usize::MAX]. *)
Definition usize_max : N := usize_mod - 1.

(** Wrapping [x + 1] on [usize] (release builds; debug builds panic instead). *)
Definition wsucc (x : N) : N := (x + 1) mod usize_mod.

(** The indices [lo, lo+1, ..., hi] (empty when [hi < lo]). *)
Definition irange (lo hi : N) : list N :=
  map (fun k => lo + N.of_nat k) (seq 0 (N.to_nat (hi + 1 - lo))).

(** Generic execution of a schedule: every event must be enabled. *)
Fixpoint run_from {S E : Type} (step : S -> E -> option S) (s : S) (tr : list E) : option S :=
  match tr with
  | [] => Some s
  | e :: tr' => match step s e with
                | Some s' => run_from step s' tr'
                | None => None
                end
  end.

(** Replace the [i]-th element. *)
Fixpoint upd {A : Type} (i : nat) (x : A) (l : list A) : list A :=
  match l with
  | [] => []
  | y :: r => match i with
              | O => x :: r
              | S j => y :: upd j x r
              end
  end.
