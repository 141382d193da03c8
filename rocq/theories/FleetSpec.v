(** Words for the properties of a fleet of workers. *)
From Coq Require Import List Arith NArith Bool.
From Verif Require Import Base BaseFacts WorkerModel SystemModel FleetModel.
Import ListNotations.
Open Scope nat_scope.

(** The commands a worker received, oldest first. *)
Definition commands (l : list (N * wact)) : list nat := flat_map (fun p => match snd p with ACommand k => [k] | _ => [] end) (rev l).
Definition received (m : member) : list nat := commands (w_log (m_w m)).
(** The worker was stopped by abort-all. *)
Definition signalled (m : member) : bool := existsb (fun p => match snd p with ASignal _ => true | _ => false end) (w_log (m_w m)).
(** How many executions failed fatally: the worker announced it to the others. *)
Definition announced (m : member) : nat := cnt (fun p => match snd p with AAbortAll _ => true | _ => false end) (w_log (m_w m)).
(** The leader's commands in a schedule. *)
Definition leader_sends (k : nat) (tr : list f_event) : nat := cnt (fun e => match e with FLeader j => Nat.eqb j k | _ => false end) tr.
(** The worker published an answer for a task of job [k]. *)
Definition answered (k : nat) (m : member) : Prop := exists tm i y, In (tm, AOk i k y) (w_log (m_w m)) \/ In (tm, AErr i k y) (w_log (m_w m)).
