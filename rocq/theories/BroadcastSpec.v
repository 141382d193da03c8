(** Words used to speak about broadcast queues. *)
From Coq Require Import List Arith Bool.
From Verif Require Import Base BroadcastModel.
Import ListNotations.

(** How often message [id] was enqueued for the consumers named [n]. *)
Definition times_enqueued (s : bq) (n id : nat) : nat :=
  count_occ Nat.eq_dec (flat_map bc_enq (filter (fun c => Nat.eqb (bc_name c) n) (b_cons s))) id.

(** A declaration of consumer [n] has returned. *)
Definition declared (s : bq) (n : nat) : Prop := exists fresh, In (DDone n fresh) (b_decls s).

(** Publish call [i] has returned; its message was numbered [id]. *)
Definition published (s : bq) (i id : nat) : Prop := nth_error (b_pubs s) i = Some (BDone id).

(** The message is kept for the next consumer, or is being handed to one by a declaration in progress. *)
Definition kept (s : bq) (id : nat) : Prop := In id (b_hist s).
Definition in_drain (s : bq) (id : nat) : Prop :=
  exists n got, In id got /\ (In (DDrain n got) (b_decls s) \/ In (DIns n got) (b_decls s)).
