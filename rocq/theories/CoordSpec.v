(** Words used to speak about a coordinated channel. *)
From Coq Require Import List NArith Bool.
From Verif Require Import Base CoordModel.
Import ListNotations.

(** No result is delivered twice. *)
Definition no_dup (tr : list chan_event) : Prop := Forall (fun e => e <> EvDupResult) tr.
(** The inner stream never ends by itself (queues are unbounded). *)
Definition inner_never_ends (tr : list chan_event) : Prop := Forall (fun e => e <> EvPollInner RNone) tr.
(** Fewer than 2^64 events, so that a counter cannot wrap by sheer number. *)
Definition short (tr : list chan_event) : Prop := (N.of_nat (length tr) < usize_max)%N.

(** A publish call is between its check of [closed] and its return. *)
Definition in_progress (p : pub_phase) : bool :=
  match p with PubAdd | PubInner | PubSent => true | _ => false end.
Definition no_publish_in_progress (s : chan) : Prop := forall p, In p (ch_pubs s) -> in_progress p = false.

(** Every message the broker accepted was received by the consumer, and its acknowledgement has taken effect. *)
Definition everything_acked (s : chan) : Prop :=
  length (ch_ackers s) = ch_sent s /\
  (forall a, (a < length (ch_ackers s))%nat -> In a (ch_subs s)).

Definition ok_publishes (s : chan) : nat :=
  length (filter (fun p => match p with PubDone PubOk => true | _ => false end) (ch_pubs s)).
Definition failed_publishes (s : chan) : nat :=
  length (filter (fun p => match p with PubDone (PubInnerErr false) => true | _ => false end) (ch_pubs s)).

(** How many polls have returned None. *)
Definition ends (s : chan) : nat := length (filter (fun r => match r with RNone => true | _ => false end) (ch_log s)).
