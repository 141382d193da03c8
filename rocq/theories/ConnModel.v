(** In-memory connections and leased channels (paladin-core/src/queue/in_memory.rs, [InMemoryConnection]; paladin-core/src/channel/queue.rs;
    paladin-core/src/channel/mod.rs, [LeaseGuard]).

    The map from names to queues is a DashMap; [entry] holds the lock of the shard until the match is over and [remove] takes it too, so
    declare_queue and delete_queue are single steps. A queue handle is a bundle of [Arc]s: clones share one queue. It is represented by
    its number in the order of creation. What a queue holds and which steps it can make is a parameter, instantiated with the queues
    of QueueModel and BroadcastModel at the end. Names are numbers. *)
From Coq Require Import List Arith Bool.
From Verif Require Import Base QueueModel BroadcastModel.
Import ListNotations.

Section Conn.
Variables Opts Q QE : Type.
Variable q_new : Opts -> Q.                    (* in_memory.rs:459-465, [InMemoryQueueHandle::new] *)
Variable q_do : Q -> QE -> option Q.           (* a step of a publisher or consumer made from the handle *)

(** What was done, with the handles returned; only for stating properties. *)
Inductive cact : Type :=
| HDecl (n : nat) (o : Opts) (h : nat)
| HDel (n : nat)
| HUse (h : nat) (e : QE).

Record conn : Type := mkC {
  c_map : list (nat * nat);        (* queues: name to handle *)
  c_heap : list Q;                 (* the queue of every handle ever made *)
  c_log : list cact                (* oldest first *)
}.
Definition c_init : conn := mkC [] [] [].

Fixpoint lookup (n : nat) (m : list (nat * nat)) : option nat :=
  match m with
  | [] => None
  | (k, h) :: r => if Nat.eqb k n then Some h else lookup n r
  end.
Definition remove (n : nat) (m : list (nat * nat)) : list (nat * nat) := filter (fun p => negb (Nat.eqb (fst p) n)) m.

(** in_memory.rs:90-99, [declare_queue]: the handle returned. *)
Definition declare (s : conn) (n : nat) (o : Opts) : conn * nat :=
  match lookup n (c_map s) with
  | Some h => (mkC (c_map s) (c_heap s) (c_log s ++ [HDecl n o h]), h)
  | None =>
      let h := length (c_heap s) in
      (mkC ((n, h) :: c_map s) (c_heap s ++ [q_new o]) (c_log s ++ [HDecl n o h]), h)
  end.
(** in_memory.rs:101-105, [delete_queue]; handles made before keep their queue. *)
Definition delete (s : conn) (n : nat) : conn := mkC (remove n (c_map s)) (c_heap s) (c_log s ++ [HDel n]).
(** A step on a handle's queue. *)
Definition use (s : conn) (h : nat) (e : QE) : option conn :=
  match nth_error (c_heap s) h with
  | Some q => match q_do q e with
              | Some q' => Some (mkC (c_map s) (upd h q' (c_heap s)) (c_log s ++ [HUse h e]))
              | None => None
              end
  | None => None
  end.

Inductive c_event : Type :=
| CDeclare (n : nat) (o : Opts)
| CDelete (n : nat)
| CUse (h : nat) (e : QE).
Definition c_step (s : conn) (e : c_event) : option conn :=
  match e with
  | CDeclare n o => Some (fst (declare s n o))
  | CDelete n => Some (delete s n)
  | CUse h e => use s h e
  end.

(** Leases (channel/mod.rs:84-131, runtime/mod.rs:318-366). Any number of directives lease channels, workers that have a result for
    an identifier get a sender for it. *)
Record lease : Type := mkLease {
  ls_name : nat;
  ls_handle : nat;         (* the receiver's queue *)
  ls_chan : bool           (* the guard's [channel] is [Some], 88 *)
}.
Record lsys : Type := mkLS {
  ls_conn : conn;
  ls_leases : list lease;
  ls_spawned : list nat;         (* deletions spawned by [release], queue.rs:182-189, that did not run yet *)
  ls_senders : list (nat * nat)  (* senders that workers hold: name and queue *)
}.
Definition ls_init : lsys := mkLS c_init [] [] [].

Inductive l_event : Type :=
| LvLease (n : nat) (o : Opts)   (* issue the identifier [n] and declare its receiver, queue.rs:209-220 and 169-179 *)
| LvDrop (i : nat)               (* drop the guard of lease [i], mod.rs:123-131 *)
| LvRelease (j : nat)            (* a spawned deletion runs, queue.rs:186-188 *)
| LvSender (n : nat) (o : Opts)  (* a worker gets a sender, queue.rs:159-166 (runtime/mod.rs:594-605) *)
| LvSend (k : nat) (e : QE)      (* a step of a worker's publish on its sender *)
| LvRecv (i : nat) (e : QE).     (* a step of lease [i]'s receiver *)

Definition lv_step (s : lsys) (e : l_event) : option lsys :=
  match e with
  | LvLease n o =>
      let '(c, h) := declare (ls_conn s) n o in
      Some (mkLS c (ls_leases s ++ [mkLease n h true]) (ls_spawned s) (ls_senders s))
  | LvDrop i =>
      match nth_error (ls_leases s) i with
      | Some l =>
          if ls_chan l   (* [take] leaves None *)
          then Some (mkLS (ls_conn s) (upd i (mkLease (ls_name l) (ls_handle l) false) (ls_leases s)) (ls_spawned s ++ [ls_name l]) (ls_senders s))
          else Some s
      | None => None
      end
  | LvRelease j =>
      match pick j (ls_spawned s) with
      | Some (n, rest) => Some (mkLS (delete (ls_conn s) n) (ls_leases s) rest (ls_senders s))
      | None => None
      end
  | LvSender n o =>
      let '(c, h) := declare (ls_conn s) n o in Some (mkLS c (ls_leases s) (ls_spawned s) (ls_senders s ++ [(n, h)]))
  | LvSend k e =>
      match nth_error (ls_senders s) k with
      | Some (_, h) => match use (ls_conn s) h e with
                       | Some c => Some (mkLS c (ls_leases s) (ls_spawned s) (ls_senders s))
                       | None => None
                       end
      | None => None
      end
  | LvRecv i e =>
      match nth_error (ls_leases s) i with
      | Some l => if ls_chan l
                  then match use (ls_conn s) (ls_handle l) e with
                       | Some c => Some (mkLS c (ls_leases s) (ls_spawned s) (ls_senders s))
                       | None => None
                       end
                  else None
      | None => None
      end
  end.
End Conn.
Arguments HDecl {Opts QE} n o h.
Arguments HDel {Opts QE} n.
Arguments HUse {Opts QE} h e.
Arguments mkC {Opts Q QE}.
Arguments c_map {Opts Q QE} _.
Arguments c_heap {Opts Q QE} _.
Arguments c_log {Opts Q QE} _.
Arguments c_init {Opts Q QE}.
Arguments declare {Opts Q QE} q_new s n o.
Arguments delete {Opts Q QE} s n.
Arguments use {Opts Q QE} q_do s h e.
Arguments CDeclare {Opts QE} n o.
Arguments CDelete {Opts QE} n.
Arguments CUse {Opts QE} h e.
Arguments c_step {Opts Q QE} q_new q_do s e.
Arguments mkLS {Opts Q QE}.
Arguments ls_conn {Opts Q QE} _.
Arguments ls_leases {Opts Q QE} _.
Arguments ls_spawned {Opts Q QE} _.
Arguments ls_senders {Opts Q QE} _.
Arguments ls_init {Opts Q QE}.
Arguments LvLease {Opts QE} n o.
Arguments LvDrop {Opts QE} i.
Arguments LvRelease {Opts QE} j.
Arguments LvSender {Opts QE} n o.
Arguments LvSend {Opts QE} k e.
Arguments LvRecv {Opts QE} i e.
Arguments lv_step {Opts Q QE} q_new q_do s e.

(** The in-memory handle, in_memory.rs:449-466: options and both kinds of queue; publishing and declaring consumers go to the one that
    the options name, 483-516. *)
Inductive syndication : Type := ExactlyOnce | Broadcast.
Record qopts : Type := mkOpts { o_synd : syndication; o_persistent : bool }.
Record mhandle (M : Type) : Type := mkH { h_opts : qopts; h_once : queue M; h_cast : bq }.
Arguments mkH {M}.
Arguments h_opts {M} _.
Arguments h_once {M} _.
Arguments h_cast {M} _.
Inductive mevent (M : Type) : Type := MvOnce (e : q_event M) | MvCast (e : b_event).
Arguments MvOnce {M} e.
Arguments MvCast {M} e.

Section Handle.
Variable M : Type.
Variable shards : nat.
Variable shard : nat -> nat.
Definition h_new (o : qopts) : mhandle M := mkH o (q_init []) (b_init (o_persistent o)).
Definition h_do (h : mhandle M) (e : mevent M) : option (mhandle M) :=
  match o_synd (h_opts h), e with
  | ExactlyOnce, MvOnce e => option_map (fun q => mkH (h_opts h) q (h_cast h)) (q_step (h_once h) e)
  | Broadcast, MvCast e => option_map (fun b => mkH (h_opts h) (h_once h) b) (b_step shards shard (h_cast h) e)
  | _, _ => None
  end.
End Handle.
(** channel/queue.rs:102-117 *)
Definition of_channel_type (t : syndication) : qopts := mkOpts t true.
