(** What declaring and deleting is supposed to do, in terms of the history only. *)
From Coq Require Import List Arith.
From Verif Require Import Base ConnModel.
Import ListNotations.

Section Spec.
Context {Opts QE : Type}.
Notation act := (cact Opts QE).

Definition deletes (n : nat) (a : act) : bool := match a with HDel m => Nat.eqb m n | _ => false end.
Definition declares (n : nat) (a : act) : bool := match a with HDecl m _ _ => Nat.eqb m n | _ => false end.

(** The steps made on handle [h]. *)
Fixpoint uses (h : nat) (l : list act) : list QE :=
  match l with
  | [] => []
  | HUse k e :: r => if Nat.eqb k h then e :: uses h r else uses h r
  | _ :: r => uses h r
  end.
(** The handle occurs: it was returned or used. *)
Definition mentions (h : nat) (a : act) : Prop :=
  match a with HDecl _ _ k => k = h | HUse k _ => k = h | HDel _ => False end.
End Spec.
