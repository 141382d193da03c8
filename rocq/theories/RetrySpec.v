(** What a retry should do, said without the loop. *)
From Coq Require Import List NArith.
From Verif Require Import Base RetryModel.
Import ListNotations.

Section Spec.
Variables E A : Type.

(** The calls before the [k]-th all failed. *)
Definition failed_before (f : nat -> res E A) (k : nat) : Prop := forall j, (j < k)%nat -> exists e, f j = RErr e.

(** What is done between call [j] and call [j+1]: report the failure of call [j] (when there is a tracer), then pause. *)
Definition between (f : nat -> res E A) (tracer : bool) (pause : nat -> option N) (j : nat) : list (ract E) :=
  match f j, tracer with RErr e, true => [ATrace e] | _, _ => [] end ++
  match pause j with Some d => [ASleep d] | None => [] end.

(** Everything that is done when call [k] is the last one. *)
Fixpoint doings (f : nat -> res E A) (tracer : bool) (pause : nat -> option N) (k : nat) : list (ract E) :=
  match k with
  | O => [ACall 0]
  | S j => doings f tracer pause j ++ between f tracer pause j ++ [ACall (S j)]
  end.

Definition calls (l : list (ract E)) : nat := length (filter (fun a => match a with ACall _ => true | _ => false end) l).
End Spec.
Arguments failed_before {E A}.
Arguments between {E A}.
Arguments doings {E A}.
Arguments calls {E}.
