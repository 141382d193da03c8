(** In-memory broadcast queues (paladin-core/src/queue/in_memory.rs, [BroadcastQueue]).

    Consumers live in a [DashMap], which is split into [shards]; [shard] says where a name lives. The locking of DashMap is
    modelled: [entry] holds the write lock of a shard until the entry is dropped, [iter] holds the read lock of the shard it is
    in and takes the next one before releasing it, [is_empty] sums the sizes of the shards, locking one after the other.
    A message is represented by its number; the payload travels with it. What happens inside one consumer's queue
    (push, add a permit, pop) is modelled in QueueModel; here [bc_enq] is everything ever enqueued for a consumer. *)
From Coq Require Import List Arith Bool.
From Verif Require Import Base.
Import ListNotations.

Section Broadcast.
Variable shards : nat.
Variable shard : nat -> nat.

(** 174-181 *)
Record bcons : Type := mkBC { bc_name : nat; bc_seen : list nat; bc_enq : list nat }.

(** A publish call, 241-273; the number comes from the message counter, 245 (2^64 messages without wrapping). *)
Inductive bpub : Type :=
| BStart
| BScan (id k acc : nat)              (* is_empty, 250: shards below [k] were counted, [acc] consumers so far *)
| BHist (id : nat)                    (* about to push to the history, 251 *)
| BIter (id k : nat) (vis : list nat) (* the loop, 254-270: holds the read lock of shard [k-1] when [k > 0] *)
| BDone (id : nat).

(** A call of declare_consumer, 275-334. *)
Inductive bdecl : Type :=
| DStart (n : nat)
| DLocked (n : nat)                       (* vacant, holds the write lock of the shard *)
| DDrain (n : nat) (got : list nat)       (* 297-312; the keys of [seen] are the messages got *)
| DIns (n : nat) (got : list nat)         (* about to insert, 324 *)
| DDone (n : nat) (fresh : bool).

Record bq : Type := mkB {
  b_persistent : bool;          (* options.delivery_mode *)
  b_cons : list bcons;
  b_hist : list nat;            (* front first *)
  b_next : nat;                 (* message_counter *)
  b_pubs : list bpub;
  b_decls : list bdecl;
  b_live : list nat             (* names of the consumer handles that were not dropped *)
}.

Definition b_init (persistent : bool) : bq := mkB persistent [] [] 0 [] [] [].

Definition mem (x : nat) (l : list nat) : bool := existsb (Nat.eqb x) l.
Definition names (l : list bcons) : list nat := map bc_name l.
Definition in_shard (k : nat) (l : list bcons) : list bcons := filter (fun c => Nat.eqb (shard (bc_name c)) k) l.

Definition decl_locks (k : nat) (d : bdecl) : bool :=
  match d with
  | DLocked n | DDrain n _ | DIns n _ => Nat.eqb (shard n) k
  | _ => false
  end.
Definition write_locked (s : bq) (k : nat) : bool := existsb (decl_locks k) (b_decls s).
Definition pub_reads (k : nat) (p : bpub) : bool := match p with BIter _ (S j) _ => Nat.eqb j k | _ => false end.
Definition read_locked (s : bq) (k : nat) : bool := existsb (pub_reads k) (b_pubs s).

Inductive b_event : Type :=
| EvBPublish                       (* a new publish call *)
| EvBPubStep (i : nat)             (* its next step, except visiting *)
| EvBVisit (i n : nat)             (* the loop of call [i] visits the consumer named [n] *)
| EvBDeclare (n : nat)             (* a new call of declare_consumer *)
| EvBDeclStep (j : nat)
| EvBDrop (n : nat).               (* a consumer handle is dropped; nothing is removed from the map *)

Definition set_bpub (s : bq) (i : nat) (p : bpub) : bq :=
  mkB (b_persistent s) (b_cons s) (b_hist s) (b_next s) (upd i p (b_pubs s)) (b_decls s) (b_live s).
Definition set_bdecl (s : bq) (j : nat) (d : bdecl) : bq :=
  mkB (b_persistent s) (b_cons s) (b_hist s) (b_next s) (b_pubs s) (upd j d (b_decls s)) (b_live s).

(** 258-268 for one consumer. *)
Definition deliver (persistent : bool) (id : nat) (c : bcons) : bcons :=
  if persistent then
    if mem id (bc_seen c) then c else mkBC (bc_name c) (bc_seen c ++ [id]) (bc_enq c ++ [id])
  else mkBC (bc_name c) (bc_seen c) (bc_enq c ++ [id]).

Definition deliver_to (persistent : bool) (n id : nat) (l : list bcons) : list bcons :=
  map (fun c => if Nat.eqb (bc_name c) n then deliver persistent id c else c) l.

Definition pub_step_b (s : bq) (i : nat) (p : bpub) : option bq :=
  match p with
  | BStart =>
      let id := b_next s in
      let p' := if b_persistent s then BScan id 0 0 else BIter id 0 [] in
      Some (mkB (b_persistent s) (b_cons s) (b_hist s) (S id) (upd i p' (b_pubs s)) (b_decls s) (b_live s))
  | BScan id k acc =>
      if Nat.ltb k shards then
        if write_locked s k then None
        else Some (set_bpub s i (BScan id (S k) (acc + length (in_shard k (b_cons s)))))
      else Some (set_bpub s i (if Nat.eqb acc 0 then BHist id else BIter id 0 []))
  | BHist id =>
      Some (mkB (b_persistent s) (b_cons s) (b_hist s ++ [id]) (b_next s) (upd i (BIter id 0 []) (b_pubs s)) (b_decls s) (b_live s))
  | BIter id k vis =>
      let all_visited := match k with
                         | O => true
                         | S j => forallb (fun c => mem (bc_name c) vis) (in_shard j (b_cons s))
                         end in
      if all_visited then
        if Nat.ltb k shards then
          if write_locked s k then None else Some (set_bpub s i (BIter id (S k) vis))
        else Some (set_bpub s i (BDone id))
      else None
  | BDone _ => None
  end.

Definition decl_step_b (s : bq) (j : nat) (d : bdecl) : option bq :=
  match d with
  | DStart n =>
      if write_locked s (shard n) || read_locked s (shard n) then None
      else if mem n (names (b_cons s))
           then Some (mkB (b_persistent s) (b_cons s) (b_hist s) (b_next s) (b_pubs s) (upd j (DDone n false) (b_decls s)) (n :: b_live s))
           else Some (set_bdecl s j (DLocked n))
  | DLocked n =>
      if b_persistent s && negb (match b_hist s with [] => true | _ => false end)
      then Some (set_bdecl s j (DDrain n []))
      else Some (set_bdecl s j (DIns n []))
  | DDrain n got =>
      match b_hist s with
      | [] => Some (set_bdecl s j (DIns n got))
      | id :: h =>
          let got' := if mem id got then got else got ++ [id] in
          Some (mkB (b_persistent s) (b_cons s) h (b_next s) (b_pubs s) (upd j (DDrain n got') (b_decls s)) (b_live s))
      end
  | DIns n got =>
      Some (mkB (b_persistent s) (b_cons s ++ [mkBC n got got]) (b_hist s) (b_next s) (b_pubs s)
              (upd j (DDone n true) (b_decls s)) (n :: b_live s))
  | DDone _ _ => None
  end.

Fixpoint drop_one (n : nat) (l : list nat) : list nat :=
  match l with
  | [] => []
  | x :: r => if Nat.eqb x n then r else x :: drop_one n r
  end.

Definition b_step (s : bq) (e : b_event) : option bq :=
  match e with
  | EvBPublish => Some (mkB (b_persistent s) (b_cons s) (b_hist s) (b_next s) (b_pubs s ++ [BStart]) (b_decls s) (b_live s))
  | EvBPubStep i => match nth_error (b_pubs s) i with Some p => pub_step_b s i p | None => None end
  | EvBVisit i n =>
      match nth_error (b_pubs s) i with
      | Some (BIter id (S j) vis) =>
          if Nat.eqb (shard n) j && mem n (names (b_cons s)) && negb (mem n vis) then
            Some (mkB (b_persistent s) (deliver_to (b_persistent s) n id (b_cons s)) (b_hist s) (b_next s)
                    (upd i (BIter id (S j) (n :: vis)) (b_pubs s)) (b_decls s) (b_live s))
          else None
      | _ => None
      end
  | EvBDeclare n => Some (mkB (b_persistent s) (b_cons s) (b_hist s) (b_next s) (b_pubs s) (b_decls s ++ [DStart n]) (b_live s))
  | EvBDeclStep j => match nth_error (b_decls s) j with Some d => decl_step_b s j d | None => None end
  | EvBDrop n =>
      if mem n (b_live s)
      then Some (mkB (b_persistent s) (b_cons s) (b_hist s) (b_next s) (b_pubs s) (b_decls s) (drop_one n (b_live s)))
      else None
  end.

Definition b_run (persistent : bool) (tr : list b_event) : option bq := run_from b_step (b_init persistent) tr.
End Broadcast.
