(** What the system properties say, in terms of what was dispatched, what workers did and what directives received. *)
From Coq Require Import List Arith NArith.
From Verif Require Import Base RetryModel WorkerModel WorkerSpec SystemModel.
Import ListNotations.
Open Scope nat_scope.

(** The worker's [i]-th task was dispatch [n]. *)
Definition took (ws : wstate) (i n : nat) : Prop := exists tm t, In (tm, ATake i t) (w_log ws) /\ t_body t = n.
(** The worker is done with it. *)
Definition ended (ws : wstate) (i : nat) : Prop := S i < w_taken ws \/ w_main ws = WpWait.
(** The result an execution should give, if it should give one. *)
Definition result_of (o : outcome) : option (nat + nat) :=
  match o with OcOk y => Some (inl y) | OcErr FsTerminate m => Some (inr m) | OcErr FsIgnore _ => None | OcPanic => None end.
(** Dispatch [n] was made by directive [d] with payload [x]. *)
Definition dispatched (s : sys) (n d x : nat) : Prop := nth_error (y_sent s) n = Some (d, x).
(** How many results for dispatch [n] the directive received. *)
Definition received (n : nat) (dd : dir) : nat := length (filter (fun r => Nat.eqb (r_n r) n) (d_got dd)).
(** How many times dispatch [n] came back to the queue. *)
Definition returned (n : nat) (s : sys) : nat := length (filter (fun p => Nat.eqb (snd p) n) (y_back s)).
