(** Retrying (paladin-core/src/operation/error.rs).

    The function that is retried may keep state: its [k]-th call (from 0) gives the outcome [f k]. What a retry does is recorded
    as a list of actions. Dropping the future while it sleeps is not modelled. *)
From Coq Require Import List NArith.
From Verif Require Import Base.
Import ListNotations.
Open Scope N_scope.

(** 35-48. [max_retries] is a [NonZeroU32]: 1 to 2^32 - 1, see [strategy_ok]; durations are numbers. *)
Inductive retry_strategy : Type :=
| RsImmediate (max_retries : N)
| RsAfter (max_retries : N) (duration : N)
| RsExponential (min_duration max_duration : N).

Definition strategy_ok (r : retry_strategy) : Prop :=
  match r with
  | RsImmediate m | RsAfter m _ => 1 <= m < 2 ^ 32
  | RsExponential _ _ => True
  end.

(** 50-56 *)
Definition default_retry : retry_strategy := RsImmediate 3.

(** 126-133 *)
Inductive fatal_strategy : Type := FsTerminate | FsIgnore.
Definition default_fatal : fatal_strategy := FsTerminate.

(** What a retry does, in order: the [k]-th call of the function, a call of the tracer, a sleep. *)
Inductive ract (E : Type) : Type :=
| ACall (k : nat)
| ATrace (e : E)
| ASleep (d : N).
Arguments ACall {E} k.
Arguments ATrace {E} e.
Arguments ASleep {E} d.

Section Retry.
Variables E A : Type.

Definition ropt {X : Type} (o : option X) (mk : X -> ract E) : list (ract E) := match o with Some x => [mk x] | None => [] end.
Definition trace_if (tracer : bool) (e : E) : list (ract E) := if tracer then [ATrace e] else [].

(** The loop of retry_simple, 657-672. [fuel] bounds the iterations, [None] means that it is still running; [k] is the number of
    the call that gave [result]; [num] is num_retries, a u32 (wrapping as in release builds). *)
Fixpoint retry_loop (fuel : nat) (f : nat -> res E A) (max_retries : N) (duration : option N) (tracer : bool)
    (num : N) (k : nat) (result : res E A) : option (res E A * list (ract E)) :=
  match result with
  | ROk a => Some (ROk a, [])
  | RErr e =>
      if max_retries <=? num then Some (RErr e, [])
      else match fuel with
           | O => None
           | S fuel' =>
               match retry_loop fuel' f max_retries duration tracer ((num + 1) mod 2 ^ 32) (S k) (f (S k)) with
               | Some (r, l) => Some (r, trace_if tracer e ++ ropt duration ASleep ++ ACall (S k) :: l)
               | None => None
               end
           end
  end.

(** 645-673 *)
Definition retry_simple (fuel : nat) (f : nat -> res E A) (max_retries : N) (duration : option N) (tracer : bool)
  : option (res E A * list (ract E)) :=
  match retry_loop fuel f max_retries duration tracer 0 0 (f 0%nat) with
  | Some (r, l) => Some (r, ACall 0%nat :: l)
  | None => None
  end.

(** backoff::future::retry_notify (backoff 0.4) as called in 697-709. The closure turns every error of [f] into a transient one
    ([?] uses [From<E> for backoff::Error<E>]). [pauses k] is what [ExponentialBackoff::next_backoff] answers after the [k]-th
    call: a pause, or [None] when the maximal elapsed time is exceeded. It depends on the clock, so it is left arbitrary. *)
Fixpoint retry_notify (fuel : nat) (f : nat -> res E A) (pauses : nat -> option N) (tracer : bool)
    (k : nat) : option (res E A * list (ract E)) :=
  match fuel with
  | O => None
  | S fuel' =>
      match f k with
      | ROk a => Some (ROk a, [ACall k])
      | RErr e =>
          match pauses k with
          | None => Some (RErr e, [ACall k])
          | Some d =>
              match retry_notify fuel' f pauses tracer (S k) with
              | Some (r, l) => Some (r, ACall k :: trace_if tracer e ++ ASleep d :: l)
              | None => None
              end
          end
      end
  end.

(** 676-713; [into_backoff], 81-94, never fails here because it is only called for [Exponential]. *)
Definition retry_with_strategy (fuel : nat) (f : nat -> res E A) (r : retry_strategy) (pauses : nat -> option N) (tracer : bool)
  : option (res E A * list (ract E)) :=
  match r with
  | RsImmediate m => retry_simple fuel f m None tracer
  | RsAfter m d => retry_simple fuel f m (Some d) tracer
  | RsExponential _ _ => retry_notify fuel f pauses tracer 0
  end.
End Retry.
Arguments retry_loop {E A}.
Arguments retry_simple {E A}.
Arguments retry_notify {E A}.
Arguments retry_with_strategy {E A}.
Arguments trace_if {E}.
Arguments ropt {E X}.

(** 389-410; [Err] is [anyhow::Error]. *)
Inductive op_error (Err : Type) : Type :=
| Transient (err : Err) (retry : retry_strategy) (fatal : fatal_strategy)
| Fatal (err : Err) (strategy : fatal_strategy).
Arguments Transient {Err}.
Arguments Fatal {Err}.

(** 466-471 *)
Definition into_err {Err : Type} (e : op_error Err) : Err := match e with Transient x _ _ => x | Fatal x _ => x end.
(** 484-496 *)
Definition into_fatal {Err : Type} (e : op_error Err) : op_error Err :=
  match e with Transient x _ s => Fatal x s | Fatal x s => Fatal x s end.
(** 498-503 *)
Definition fatal_strategy_of {Err : Type} (e : op_error Err) : fatal_strategy :=
  match e with Transient _ _ s => s | Fatal _ s => s end.

(** OperationError::retry_internal, 413-433; [retry] and [retry_trace], 441-463, are it without and with a tracer. *)
Definition retry_internal {Err A : Type} (fuel : nat) (e : op_error Err) (f : nat -> res (op_error Err) A)
    (pauses : nat -> option N) (tracer : bool) : option (res (op_error Err) A * list (ract (op_error Err))) :=
  match e with
  | Transient _ r s =>
      match retry_with_strategy fuel f r pauses tracer with
      | Some (ROk a, l) => Some (ROk a, l)
      | Some (RErr e', l) => Some (RErr (Fatal (into_err e') s), l)
      | None => None
      end
  | Fatal _ _ => Some (RErr e, [])
  end.
