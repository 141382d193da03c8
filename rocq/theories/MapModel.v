(** Mapping an indexed stream (paladin-core/src/directive/indexed_stream/functor.rs:28-68): the stream returned by [f_map], polled by
    one consumer, micro-step by micro-step, with wakers. Everything between two polls of the environment (the sending future,
    the result stream, the ackers and the channel state) lives inside this one stream, so only one task ever touches it; the
    environment (input stream, broker, workers) acts between any two micro-steps.

    futures-util 0.3.31 semantics modelled: [select] (alternating, see [side_done]), [once] + [filter_map], [then],
    [TryForEachConcurrent] (PublishModel). The coordinated channel (coordinated_publisher.rs:56-75, coordinated_stream.rs:91-159) is
    repeated here step by step; its counters are touched by this task only, so its loads need no separate steps. *)
From Coq Require Import List Arith NArith Bool.
From Verif Require Import Base CoordModel PublishModel.
Import ListNotations.

Section Map.
(** Input items, outputs, error payloads, and whatever an execution depends on besides its input. *)
Context {A B E O : Type}.
(** The answer a worker publishes for an input (after retries): [AnyTaskResult::Ok] or [Err], runtime/mod.rs:662-812. *)
Variable exec : O -> A -> res E B.

Inductive merr : Type :=
| EInput (e : E)       (* the input stream's error, functor.rs:49 *)
| EPublish (n : nat)   (* [publish_all] failed, functor.rs:49 *)
| EWorker (e : E)      (* the result is an error, functor.rs:61 *)
| EAck.                (* [acker.ack()] failed, functor.rs:60 *)

Inductive mret : Type :=
| MItem (i : N) (y : B)
| MErr (e : merr)
| MPending
| MNone.

(** The acknowledgement inside the future of [then], functor.rs:59-62: the broker's part of the composed acker. *)
Inductive afut : Type :=
| ANew
| AWait (reg : bool)
| AReady (ok : bool).

Inductive side : Type := L | R.
Definition other (sd : side) : side := match sd with L => R | R => L end.

(** What remains to be done by the current poll of [select]. *)
Inductive kont : Type :=
| KFirst                (* both sides alive, this is the first one polled *)
| KSecond (done : bool) (* the other side was polled before; [done]: it has just ended *)
| KOnly.                (* the other side ended in an earlier poll *)

Inductive pollst : Type := MIdle | MSide (sd : side) (k : kont).

(** A result as published by the worker: the metadata carries the index; the input is kept for the proofs only. *)
Definition result : Type := ((N * A) * res E B)%type.

Record mstate : Type := mkM {
  m_pa : pall (N * A) E;             (* publish_all of the sending future, and the consumer's waker *)
  m_sent : bool;                     (* the sending future has completed *)
  m_closed : bool;
  m_pending : N;
  m_tasks : list (N * A);            (* published, not executed yet *)
  m_results : list result;           (* waiting in the result queue *)
  m_resreg : bool;                   (* the result queue holds the waker *)
  m_then : option (result * afut);   (* the future of [then] *)
  m_next : side;                     (* which side [select] polls first next time *)
  m_ldone : bool;
  m_rdone : bool;
  m_poll : pollst;
  m_log : list mret;                 (* what polls returned, latest first *)
  m_lost : list (N * A)              (* ghost: tasks and results lost by the environment *)
}.

(** functor.rs:26: at most ten publishes at a time. *)
Definition max_concurrency : nat := 10.

(** The consumer polls the stream once to begin with: [woken] is set. *)
Definition m_init (arrived late : list (res E (N * A))) (ended : bool) : mstate :=
  mkM (set_woken (pa_init (Some max_concurrency) arrived late ended) true) false false 0 [] [] false None L false false MIdle [] [].

Definition set_pa (s : mstate) (p : pall (N * A) E) : mstate :=
  mkM p (m_sent s) (m_closed s) (m_pending s) (m_tasks s) (m_results s) (m_resreg s) (m_then s) (m_next s) (m_ldone s) (m_rdone s)
      (m_poll s) (m_log s) (m_lost s).
Definition set_mpoll (s : mstate) (p : pollst) : mstate :=
  mkM (m_pa s) (m_sent s) (m_closed s) (m_pending s) (m_tasks s) (m_results s) (m_resreg s) (m_then s) (m_next s) (m_ldone s) (m_rdone s)
      p (m_log s) (m_lost s).
Definition set_then (s : mstate) (t : option (result * afut)) : mstate :=
  mkM (m_pa s) (m_sent s) (m_closed s) (m_pending s) (m_tasks s) (m_results s) (m_resreg s) t (m_next s) (m_ldone s) (m_rdone s)
      (m_poll s) (m_log s) (m_lost s).
Definition set_pending (s : mstate) (n : N) : mstate :=
  mkM (m_pa s) (m_sent s) (m_closed s) n (m_tasks s) (m_results s) (m_resreg s) (m_then s) (m_next s) (m_ldone s) (m_rdone s)
      (m_poll s) (m_log s) (m_lost s).
Definition set_queues (s : mstate) (ts : list (N * A)) (rs : list result) (lost : list (N * A)) : mstate :=
  mkM (m_pa s) (m_sent s) (m_closed s) (m_pending s) ts rs (m_resreg s) (m_then s) (m_next s) (m_ldone s) (m_rdone s)
      (m_poll s) (m_log s) lost.
Definition finish (s : mstate) (sd : side) : mstate :=
  mkM (m_pa s) (m_sent s) (m_closed s) (m_pending s) (m_tasks s) (m_results s) (m_resreg s) (m_then s) (m_next s)
      (match sd with L => true | R => m_ldone s end) (match sd with R => true | L => m_rdone s end) (m_poll s) (m_log s) (m_lost s).
(** The sending future is done: [sender] is dropped or was closed, coordinated_publisher.rs:31-35 and 71-75. *)
Definition sender_done (s : mstate) (p : pall (N * A) E) : mstate :=
  mkM p true true (m_pending s) (m_tasks s) (m_results s) (m_resreg s) (m_then s) (m_next s) (m_ldone s) (m_rdone s)
      (m_poll s) (m_log s) (m_lost s).

(** The poll returns. After an item the consumer polls again without waiting to be woken. *)
Definition m_return (s : mstate) (r : mret) : mstate :=
  mkM (match r with MItem _ _ | MErr _ => set_woken (m_pa s) true | _ => m_pa s end)
      (m_sent s) (m_closed s) (m_pending s) (m_tasks s) (m_results s) (m_resreg s) (m_then s) (m_next s) (m_ldone s) (m_rdone s)
      MIdle (r :: m_log s) (m_lost s).

Inductive sret : Type := SItem (r : mret) | SNone | SPend.

(** futures-util select_with_strategy.rs, [poll_inner] and [poll_next]: what follows the poll of one side. *)
Definition side_done (s : mstate) (sd : side) (k : kont) (r : sret) : mstate :=
  match r with
  | SItem x => m_return s x
  | SNone =>
      let s := finish s sd in
      match k with
      | KFirst => set_mpoll s (MSide (other sd) (KSecond true))
      | KSecond true => m_return s MNone
      | KSecond false => m_return s MPending
      | KOnly => m_return s MNone
      end
  | SPend =>
      match k with
      | KFirst => set_mpoll s (MSide (other sd) (KSecond false))
      | _ => m_return s MPending
      end
  end.

Inductive m_event : Type :=
| MPoll                       (* the consumer polls the stream *)
(* micro-steps of the sending side *)
| MLeft (e : pa_event)        (* a step of [publish_all] *)
| MLeftPend                   (* it has nothing to do now *)
| MLeftNone                   (* the sending stream is exhausted *)
(* micro-steps of the receiving side *)
| MTake                       (* the result queue yields an item *)
| MEmpty                      (* the result queue has none: coordinated_stream.rs:136-147 *)
| MAckStart                   (* first poll of the acknowledgement *)
| MAckCheck                   (* poll of the acknowledgement without an answer *)
| MAckFinish                  (* poll of the acknowledgement with an answer *)
(* the environment *)
| MEnv (e : pa_event)         (* input arrives, broker accepts or answers a publish *)
| MAckReply (ok : bool)
| MWork (i : nat) (o : O)     (* a worker executes a task and publishes the answer *)
| MLose (i : nat)             (* a task is lost: ignored failure, skipped job, crashed worker *)
| MLoseResult (i : nat)
| MDupTask (i : nat)          (* the broker delivers twice *)
| MDupResult (i : nat).

Definition poll_event (e : pa_event) : bool :=
  match e with PaPull | PaStart _ | PaRefuse _ | PaCheck _ | PaFinish _ | PaReturn => true | _ => false end.

(** What the sending future does with the outcome of [publish_all], functor.rs:49-57. Both [close] implementations return Ok at once
    (amqp.rs:435-437, in_memory.rs:492-494), and [filter_map] then finds the [once] stream exhausted in the same poll. *)
Definition left_done (s : mstate) (k : kont) (p : pall (N * A) E) : mstate :=
  match pa_ret p with
  | None => set_pa s p
  | Some PaOk => side_done (sender_done s p) L k SNone
  | Some (PaInput e) => side_done (sender_done s p) L k (SItem (MErr (EInput e)))
  | Some (PaPublish n) => side_done (sender_done s p) L k (SItem (MErr (EPublish n)))
  end.

Definition deliver (s : mstate) (r : result) : mstate :=
  mkM (set_woken (m_pa s) (pa_woken (m_pa s) || m_resreg s)) (m_sent s) (m_closed s) (m_pending s) (m_tasks s) (m_results s ++ [r]) false
      (m_then s) (m_next s) (m_ldone s) (m_rdone s) (m_poll s) (m_log s) (m_lost s).

Definition m_step (s : mstate) (e : m_event) : option mstate :=
  match e with
  | MPoll =>
      match m_poll s with
      | MIdle =>
          let s := set_pa s (set_woken (m_pa s) false) in
          match m_ldone s, m_rdone s with
          | true, true => Some (m_return s MNone)
          | true, false => Some (set_mpoll s (MSide R KOnly))
          | false, true => Some (set_mpoll s (MSide L KOnly))
          | false, false =>
              Some (mkM (m_pa s) (m_sent s) (m_closed s) (m_pending s) (m_tasks s) (m_results s) (m_resreg s) (m_then s)
                      (other (m_next s)) false false (MSide (m_next s) KFirst) (m_log s) (m_lost s))
          end
      | _ => None
      end
  | MLeft e =>
      match m_poll s with
      | MSide L k =>
          if m_sent s || negb (poll_event e) then None
          else
            match e with
            | PaStart i =>   (* coordinated_publisher.rs:57-64 *)
                if m_closed s then None
                else match pa_step (m_pa s) e with
                     | Some p => Some (set_pending (set_pa s p) (wsucc (m_pending s)))
                     | None => None
                     end
            | PaRefuse i =>  (* coordinated_publisher.rs:58 *)
                if m_closed s then match pa_step (m_pa s) e with Some p => Some (set_pa s p) | None => None end
                else None
            | PaPull =>      (* polling again a stream that holds the waker changes nothing: left out *)
                if pa_inreg (m_pa s) then None
                else match pa_step (m_pa s) e with Some p => Some (left_done s k p) | None => None end
            | _ => match pa_step (m_pa s) e with Some p => Some (left_done s k p) | None => None end
            end
      | _ => None
      end
  | MLeftPend =>
      match m_poll s with
      | MSide L k => if negb (m_sent s) && pa_idle (m_pa s) then Some (side_done s L k SPend) else None
      | _ => None
      end
  | MLeftNone =>
      match m_poll s with
      | MSide L k => if m_sent s then Some (side_done s L k SNone) else None
      | _ => None
      end
  | MTake =>
      match m_poll s, m_then s, m_results s with
      | MSide R k, None, r :: rs =>
          Some (set_then (set_queues s (m_tasks s) rs (m_lost s)) (Some (r, ANew)))
      | _, _, _ => None
      end
  | MEmpty =>
      match m_poll s, m_then s, m_results s with
      | MSide R k, None, [] =>
          let s := mkM (m_pa s) (m_sent s) (m_closed s) (m_pending s) (m_tasks s) (m_results s) true (m_then s) (m_next s)
                       (m_ldone s) (m_rdone s) (m_poll s) (m_log s) (m_lost s) in
          Some (side_done s R k (if m_closed s && N.eqb (m_pending s) 0 then SNone else SPend))
      | _, _, _ => None
      end
  | MAckStart =>
      match m_poll s, m_then s with
      | MSide R k, Some (r, ANew) => Some (set_then s (Some (r, AWait false)))
      | _, _ => None
      end
  | MAckCheck =>
      match m_poll s, m_then s with
      | MSide R k, Some (r, AWait _) => Some (side_done (set_then s (Some (r, AWait true))) R k SPend)
      | _, _ => None
      end
  | MAckFinish =>
      match m_poll s, m_then s with
      | MSide R k, Some (r, AReady true) =>
          (* the composed acker goes on with the coordinated acker, coordinated_stream.rs:91-99 *)
          let s := set_then s None in
          let s := set_pa s (set_woken (m_pa s) (pa_woken (m_pa s) || N.eqb (m_pending s) 1)) in
          let s := set_pending s (wpred (m_pending s)) in
          Some (side_done s R k (SItem (match snd r with ROk y => MItem (fst (fst r)) y | RErr e => MErr (EWorker e) end)))
      | MSide R k, Some (r, AReady false) => Some (side_done (set_then s None) R k (SItem (MErr EAck)))
      | _, _ => None
      end
  | MEnv e =>
      if poll_event e then None
      else match pa_step (m_pa s) e with
           | Some p => Some (set_queues (set_pa s p) (m_tasks s ++ map snd (skipn (length (pa_acc (m_pa s))) (pa_acc p)))
                               (m_results s) (m_lost s))
           | None => None
           end
  | MAckReply ok =>
      match m_then s with
      | Some (r, AWait reg) => Some (set_pa (set_then s (Some (r, AReady ok))) (set_woken (m_pa s) (pa_woken (m_pa s) || reg)))
      | _ => None
      end
  | MWork i o =>
      match pick i (m_tasks s) with
      | Some (t, ts) => Some (deliver (set_queues s ts (m_results s) (m_lost s)) (t, exec o (snd t)))
      | None => None
      end
  | MLose i =>
      match pick i (m_tasks s) with
      | Some (t, ts) => Some (set_queues s ts (m_results s) (t :: m_lost s))
      | None => None
      end
  | MLoseResult i =>
      match pick i (m_results s) with
      | Some (r, rs) => Some (set_queues s (m_tasks s) rs (fst r :: m_lost s))
      | None => None
      end
  | MDupTask i =>
      match nth_error (m_tasks s) i with
      | Some t => Some (set_queues s (m_tasks s ++ [t]) (m_results s) (m_lost s))
      | None => None
      end
  | MDupResult i =>
      match nth_error (m_results s) i with
      | Some r => Some (deliver s r)
      | None => None
      end
  end.
End Map.
Arguments mstate : clear implicits.
Arguments m_event : clear implicits.
Arguments merr : clear implicits.
Arguments mret : clear implicits.
