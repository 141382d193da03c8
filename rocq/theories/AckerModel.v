(** Ackers (paladin-core/src/acker.rs) as resumable processes: each atomic action sees the world as other tasks left it. *)
From Coq Require Import List NArith Bool.
From Verif Require Import Base CoordModel.
Import ListNotations.

Section Ackers.
Context {W L E : Type}.

(** The body of an async [ack]: a tree of atomic actions. [Act l u k] performs the action named [l], which changes the world by
    [u], then goes on as [k] says, looking at the world before the action (what an atomic read-modify-write returns). *)
Inductive proc : Type :=
| Done (r : res E unit)
| Act (l : L) (u : W -> W) (k : W -> proc).

(** [TryFutureExt::and_then], used at acker.rs:133 and 139. *)
Fixpoint and_then (p q : proc) : proc :=
  match p with
  | Done (ROk _) => q
  | Done (RErr e) => Done (RErr e)
  | Act l u k => Act l u (fun w => and_then (k w) q)
  end.

(** acker.rs:78-83, the trait; Box and Arc pass through (89-112). *)
Record acker : Type := mkAcker { a_ack : proc; a_nack : proc }.

(** acker.rs:127-141, [ComposedAcker]. *)
Definition composed (a b : acker) : acker := mkAcker (and_then (a_ack a) (a_ack b)) (and_then (a_nack a) (a_nack b)).

(** acker.rs:155-166, [NoopAcker]. *)
Definition noop : acker := mkAcker (Done (ROk tt)) (Done (ROk tt)).

(** Execution: before each action the environment (other tasks) changes the world by the next function of [env];
    when [env] is used up the process is left where it is. Result, actions performed, final world, unused [env]. *)
Record outcome : Type := mkOut { o_res : option (res E unit); o_acts : list L; o_world : W; o_env : list (W -> W) }.
Fixpoint prun (env : list (W -> W)) (w : W) (p : proc) {struct p} : outcome :=
  match p with
  | Done r => mkOut (Some r) [] w env
  | Act l u k =>
      match env with
      | [] => mkOut None [] w []
      | f :: env' =>
          let w1 := f w in
          let o := prun env' (u w1) (k w1) in
          mkOut (o_res o) (l :: o_acts o) (o_world o) (o_env o)
      end
  end.
End Ackers.

(** The world seen by the acker of one received result: the [did_ack] flag, the pending counter, and the broker. *)
Section Coordinated.
Context {B E : Type}.
Record aworld : Type := mkAW { w_did : bool; w_pending : N; w_broker : B }.

Inductive act_name : Type :=
| LBroker (n : nat)   (* something done to the broker *)
| LSwap               (* coordinated_stream.rs:92 *)
| LSub.               (* coordinated_stream.rs:96 *)

(** coordinated_stream.rs:91-99: ack; waking is left out, it does not change this world. *)
Definition coord_proc : @proc aworld act_name E :=
  Act LSwap (fun w => mkAW true (w_pending w) (w_broker w))
    (fun w => if w_did w then Done (ROk tt)
              else Act LSub (fun w => mkAW (w_did w) (wpred (w_pending w)) (w_broker w)) (fun _ => Done (ROk tt))).

(** 104-106 and 109-119: nack is ack. *)
Definition coord_acker : @acker aworld act_name E := mkAcker coord_proc coord_proc.

(** runtime/mod.rs:350-357: the acker handed to the directive. *)
Definition result_acker (broker : @acker aworld act_name E) : @acker aworld act_name E := composed broker coord_acker.
End Coordinated.
Arguments aworld : clear implicits.
