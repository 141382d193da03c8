(** The coordinated channel (paladin-core/src/channel/coordinated_channel): shared [ChannelState], publisher, stream and
    ackers, at the granularity of single atomic memory operations.

    Payloads are abstracted to counts: which result answers which message does not matter for ending the stream.
    The environment (broker and workers) turns messages in flight into available results, may lose or duplicate them. *)
From Coq Require Import List NArith Bool.
From Verif Require Import Base.
Import ListNotations.
Open Scope N_scope.

(** Wrapping decrement of an AtomicUsize ([fetch_sub]). *)
Definition wpred (x : N) : N := if x =? 0 then usize_max else x - 1.

Inductive pub_result : Type :=
| PubOk
| PubClosed                    (* err_closed, coordinated_publisher.rs:57-59 *)
| PubInnerErr (sent : bool).   (* inner error, 63-66; [sent]: the message was accepted nevertheless *)

(** coordinated_publisher.rs:56-69, [publish]. *)
Inductive pub_phase : Type :=
| PubStart                     (* about to load [closed], 57 *)
| PubAdd                       (* about to fetch_add, 61 *)
| PubInner                     (* about to hand the message to the inner publisher, 63-64 *)
| PubSent                      (* the broker has it, [inner.publish] has not returned yet *)
| PubDone (r : pub_result).

(** coordinated_publisher.rs:71-75 [close] and 31-35 [Drop]; mod.rs:44-50 [ChannelState::close]. *)
Inductive close_phase : Type :=
| ClInner                      (* about to close the inner publisher, 72 *)
| ClLoad                       (* mod.rs:45 *)
| ClStore                      (* mod.rs:49 *)
| ClDone (ok : bool).

(** coordinated_stream.rs:125-159, [poll_next]; one consumer, so at most one poll at a time. *)
Inductive poll_phase : Type :=
| PollIdle
| PollInner                    (* about to poll the inner stream, 127 *)
| PollLoad                     (* inner pending: about to load num_pending_sends, 140 *)
| PollClosed (n : N)           (* loaded [n]; about to load [closed], 141 *)
| PollEnded.                   (* inner ended: about to load num_pending_sends, 153 *)

Inductive poll_result : Type := RItem | RPending | RNone.

(** coordinated_stream.rs:91-99, [ack] ([nack] is [ack], 104-106), on the acker with the given number. *)
Inductive ack_phase : Type :=
| AckSwap (a : nat)            (* 92 *)
| AckSub (a : nat)             (* 96 *)
| AckDone (a : nat).

Record chan : Type := mkChan {
  ch_closed : bool;
  ch_pending : N;
  ch_pubs : list pub_phase;        (* all publish calls, in order of call *)
  ch_closes : list close_phase;
  ch_inflight : nat;               (* accepted by the broker, no result yet *)
  ch_avail : nat;                  (* results waiting in the inner stream *)
  ch_lost : nat;                   (* messages whose result will never come *)
  ch_ackers : list bool;           (* did_ack of every acker handed out *)
  ch_acks : list ack_phase;        (* all ack and nack calls *)
  ch_poll : poll_phase;
  ch_log : list poll_result;       (* what polls returned, latest first *)
  ch_sent : nat;                   (* ghost: messages accepted by the broker *)
  ch_subs : list nat;              (* ghost: ackers for which the counter was decreased *)
  ch_calls : list nat              (* ghost: publish calls that called the inner publisher *)
}.

Definition chan_init : chan := mkChan false 0 [] [] 0 0 0 [] [] PollIdle [] 0 [] [].

Inductive chan_event : Type :=
| EvPublish                        (* a new call of publish *)
| EvPubStep (i : nat) (ok : bool)  (* the next step of publish call [i]; [ok] is used by the inner publisher *)
| EvClose                          (* a new call of close *)
| EvDrop                           (* the publisher is dropped *)
| EvCloseStep (i : nat) (ok : bool)
| EvResult                         (* a result becomes available *)
| EvLoseMsg                        (* a message or its result is lost *)
| EvDupResult                      (* the broker delivers a result again *)
| EvPoll                           (* poll_next is called *)
| EvPollInner (r : poll_result)    (* the inner stream answers *)
| EvPollStep
| EvAck (a : nat)                  (* ack or nack is called on acker [a] *)
| EvAckStep (i : nat).

Definition set_pub (s : chan) (l : list pub_phase) : chan :=
  mkChan (ch_closed s) (ch_pending s) l (ch_closes s) (ch_inflight s) (ch_avail s) (ch_lost s) (ch_ackers s) (ch_acks s)
         (ch_poll s) (ch_log s) (ch_sent s) (ch_subs s) (ch_calls s).
Definition set_closes (s : chan) (c : bool) (l : list close_phase) : chan :=
  mkChan c (ch_pending s) (ch_pubs s) l (ch_inflight s) (ch_avail s) (ch_lost s) (ch_ackers s) (ch_acks s)
         (ch_poll s) (ch_log s) (ch_sent s) (ch_subs s) (ch_calls s).
Definition set_env (s : chan) (inflight avail lost : nat) : chan :=
  mkChan (ch_closed s) (ch_pending s) (ch_pubs s) (ch_closes s) inflight avail lost (ch_ackers s) (ch_acks s)
         (ch_poll s) (ch_log s) (ch_sent s) (ch_subs s) (ch_calls s).
Definition set_poll (s : chan) (p : poll_phase) (log : list poll_result) : chan :=
  mkChan (ch_closed s) (ch_pending s) (ch_pubs s) (ch_closes s) (ch_inflight s) (ch_avail s) (ch_lost s) (ch_ackers s) (ch_acks s)
         p log (ch_sent s) (ch_subs s) (ch_calls s).
Definition set_acks (s : chan) (l : list ack_phase) : chan :=
  mkChan (ch_closed s) (ch_pending s) (ch_pubs s) (ch_closes s) (ch_inflight s) (ch_avail s) (ch_lost s) (ch_ackers s) l
         (ch_poll s) (ch_log s) (ch_sent s) (ch_subs s) (ch_calls s).

Definition pub_step (s : chan) (i : nat) (ok : bool) (p : pub_phase) : option chan :=
  match p with
  | PubStart => Some (set_pub s (upd i (if ch_closed s then PubDone PubClosed else PubAdd) (ch_pubs s)))
  | PubAdd =>
      Some (mkChan (ch_closed s) (wsucc (ch_pending s)) (upd i PubInner (ch_pubs s)) (ch_closes s) (ch_inflight s) (ch_avail s)
              (ch_lost s) (ch_ackers s) (ch_acks s) (ch_poll s) (ch_log s) (ch_sent s) (ch_subs s) (ch_calls s))
  | PubInner =>
      if ok then
        Some (mkChan (ch_closed s) (ch_pending s) (upd i PubSent (ch_pubs s)) (ch_closes s) (S (ch_inflight s)) (ch_avail s)
                (ch_lost s) (ch_ackers s) (ch_acks s) (ch_poll s) (ch_log s) (S (ch_sent s)) (ch_subs s) (i :: ch_calls s))
      else
        Some (mkChan (ch_closed s) (ch_pending s) (upd i (PubDone (PubInnerErr false)) (ch_pubs s)) (ch_closes s) (ch_inflight s)
                (ch_avail s) (ch_lost s) (ch_ackers s) (ch_acks s) (ch_poll s) (ch_log s) (ch_sent s) (ch_subs s) (i :: ch_calls s))
  | PubSent => Some (set_pub s (upd i (PubDone (if ok then PubOk else PubInnerErr true)) (ch_pubs s)))
  | PubDone _ => None
  end.

Definition close_step (s : chan) (i : nat) (ok : bool) (p : close_phase) : option chan :=
  match p with
  | ClInner => Some (set_closes s (ch_closed s) (upd i (if ok then ClLoad else ClDone false) (ch_closes s)))
  | ClLoad => Some (set_closes s (ch_closed s) (upd i (if ch_closed s then ClDone true else ClStore) (ch_closes s)))
  | ClStore => Some (set_closes s true (upd i (ClDone true) (ch_closes s)))
  | ClDone _ => None
  end.

Definition poll_step (s : chan) : option chan :=
  match ch_poll s with
  | PollLoad => Some (set_poll s (PollClosed (ch_pending s)) (ch_log s))
  | PollClosed n => Some (set_poll s PollIdle ((if ch_closed s && (n =? 0) then RNone else RPending) :: ch_log s))
  | PollEnded => Some (set_poll s PollIdle ((if ch_pending s =? 0 then RNone else RPending) :: ch_log s))
  | PollIdle | PollInner => None
  end.

Definition ack_step (s : chan) (i : nat) (p : ack_phase) : option chan :=
  match p with
  | AckSwap a =>
      match nth_error (ch_ackers s) a with
      | Some did =>
          Some (mkChan (ch_closed s) (ch_pending s) (ch_pubs s) (ch_closes s) (ch_inflight s) (ch_avail s) (ch_lost s)
                  (upd a true (ch_ackers s)) (upd i (if did then AckDone a else AckSub a) (ch_acks s))
                  (ch_poll s) (ch_log s) (ch_sent s) (ch_subs s) (ch_calls s))
      | None => None
      end
  | AckSub a =>
      Some (mkChan (ch_closed s) (wpred (ch_pending s)) (ch_pubs s) (ch_closes s) (ch_inflight s) (ch_avail s) (ch_lost s)
              (ch_ackers s) (upd i (AckDone a) (ch_acks s)) (ch_poll s) (ch_log s) (ch_sent s) (a :: ch_subs s) (ch_calls s))
  | AckDone _ => None
  end.

Definition chan_step (s : chan) (e : chan_event) : option chan :=
  match e with
  | EvPublish => Some (set_pub s (ch_pubs s ++ [PubStart]))
  | EvPubStep i ok => match nth_error (ch_pubs s) i with Some p => pub_step s i ok p | None => None end
  | EvClose => Some (set_closes s (ch_closed s) (ch_closes s ++ [ClInner]))
  | EvDrop => Some (set_closes s (ch_closed s) (ch_closes s ++ [ClLoad]))
  | EvCloseStep i ok => match nth_error (ch_closes s) i with Some p => close_step s i ok p | None => None end
  | EvResult => match ch_inflight s with O => None | S n => Some (set_env s n (S (ch_avail s)) (ch_lost s)) end
  | EvLoseMsg => match ch_inflight s with O => None | S n => Some (set_env s n (ch_avail s) (S (ch_lost s))) end
  | EvDupResult => Some (set_env s (ch_inflight s) (S (ch_avail s)) (ch_lost s))
  | EvPoll => match ch_poll s with PollIdle => Some (set_poll s PollInner (ch_log s)) | _ => None end
  | EvPollInner r =>
      match ch_poll s with
      | PollInner =>
          match r with
          | RItem =>
              match ch_avail s with
              | O => None
              | S n =>
                  Some (mkChan (ch_closed s) (ch_pending s) (ch_pubs s) (ch_closes s) (ch_inflight s) n (ch_lost s)
                          (ch_ackers s ++ [false]) (ch_acks s) PollIdle (RItem :: ch_log s) (ch_sent s) (ch_subs s) (ch_calls s))
              end
          | RPending => Some (set_poll s PollLoad (ch_log s))
          | RNone => Some (set_poll s PollEnded (ch_log s))
          end
      | _ => None
      end
  | EvPollStep => poll_step s
  | EvAck a => if Nat.ltb a (length (ch_ackers s)) then Some (set_acks s (ch_acks s ++ [AckSwap a])) else None
  | EvAckStep i => match nth_error (ch_acks s) i with Some p => ack_step s i p | None => None end
  end.

Definition chan_run (tr : list chan_event) : option chan := run_from chan_step chan_init tr.
