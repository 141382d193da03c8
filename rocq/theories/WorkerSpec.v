(** What a worker is supposed to do, in terms of the log of its actions only (newest first). *)
From Coq Require Import List NArith Bool.
From Verif Require Import Base BaseFacts RetryModel WorkerModel.
Import ListNotations.
Open Scope nat_scope.

Notation wlog := (list (N * wact)).

(** The visible actions on behalf of a task. *)
Inductive col : Type := CAck | CNack | COk | CErr | CAbort.
Definition is (c : col) (i : nat) (a : wact) : bool :=
  match c, a with
  | CAck, AAck j | CNack, ANack j | COk, AOk j _ _ | CErr, AErr j _ _ | CAbort, AAbortAll j => Nat.eqb j i
  | _, _ => false
  end.
(** How often it was done for the [i]-th task taken. *)
Definition tally (c : col) (i : nat) (l : wlog) : nat := cnt (fun p => is c i (snd p)) l.
(** The outcome of the [i]-th task's execution. *)
Fixpoint outcome_of (i : nat) (l : wlog) : option outcome :=
  match l with
  | [] => None
  | (_, AFinish j o) :: r => if Nat.eqb j i then Some o else outcome_of i r
  | _ :: r => outcome_of i r
  end.
(** What the outcome demands; [None]: not executed, or stopped by abort-all. *)
Definition demanded (o : option outcome) (c : col) : nat :=
  match o, c with
  | Some (OcOk _), (CAck | COk) => 1
  | Some (OcOk _), _ => 0
  | Some (OcErr FsTerminate _), (CNack | CErr | CAbort) => 1
  | Some (OcErr FsTerminate _), _ => 0
  | Some (OcErr FsIgnore _), CNack => 1
  | Some (OcErr FsIgnore _), _ => 0
  | Some OcPanic, _ => 0
  | None, CNack => 1
  | None, _ => 0
  end.

(** [p] was done after [q]. *)
Definition later (p q : N * wact) (l : wlog) : Prop := exists l1 l2, l = l1 ++ p :: l2 /\ In q l2.
