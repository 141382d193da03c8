(** What the options of a queue promise, in terms of what happened (queue/mod.rs, 18-61). *)
From Coq Require Import List Arith Bool.
From Verif Require Import Base DurModel.
Import ListNotations.

(** Does queue [n] exist after this history (newest first), and with which durability? A restart deletes it if it is not durable. *)
Fixpoint stands (n : nat) (l : list dact) : option qdur :=
  match l with
  | [] => None
  | LMade n' d :: l => if Nat.eqb n' n then Some d else stands n l
  | LDel n' :: l | LExp n' :: l => if Nat.eqb n' n then None else stands n l
  | LRestart :: l => match stands n l with Some Durable => Some Durable | _ => None end
  | _ :: l => stands n l
  end.

(** What must not have happened since the message [id] was put in queue [n] with mode [m], when the queue's durability was [d]. *)
Definition kept (n id : nat) (m : dmode) (d : qdur) (since : list dact) : Prop :=
  ~ In (LOut n id) since /\ ~ In (LDel n) since /\ ~ In (LExp n) since /\ (In LRestart since -> m = Persistent /\ d = Durable).

(** The broker has the message in queue [n]. *)
Definition in_queue (s : dst) (n id : nat) : Prop := exists q, In q (d_qs s) /\ q_name q = n /\ In id (map fst (q_msgs q)).

(** Programs that only use channels: every queue has the options of a channel type. *)
Definition channel_event (e : d_event) : Prop :=
  match e with EDeclare _ _ o | EPublish _ _ o => exists t, o = channel_options t | _ => True end.
(** Nothing is deleted. *)
Definition keeping_event (e : d_event) : Prop := match e with EDelete _ _ | EExpire _ | ERestart => False | _ => True end.
