(** The pauses of the exponential strategy (paladin-core/src/operation/error.rs:81-94 and :697-709 with backoff 0.4's [ExponentialBackoff]).

    Durations are in nanoseconds. backoff computes with f64; all the products below are exact for durations under 2^53 nanoseconds, the numbers are cut down to
    whole nanoseconds. [pick k] stands for the random number of the [k]-th pause, [took k] for the time from the end of the pause before the [k]-th call to its
    end, oversleeping included. *)
From Coq Require Import NArith Bool.
From Verif Require Import RetryModel.
Local Open Scope N_scope.

(** backoff::default::MAX_INTERVAL_MILLIS and MULTIPLIER = 1.5, which error.rs:87-90 leaves as they are. *)
Definition max_interval : N := 60000000000.
(** [increment_current_interval]: the test is [current >= max_interval / multiplier]. *)
Definition grow (current : N) : N := if 40000000000 <=? current then max_interval else 3 * current / 2.
(** [get_random_value_from_interval] with RANDOMIZATION_FACTOR = 0.5: [current / 2 + random * (current + 1)] for a random number of [0, 1), rounding included. *)
Definition randomized (current pick : N) : N := current / 2 + pick mod (current + 2).
(** [next_backoff] with error.rs:89, [max_elapsed_time = Some(max_duration)]. *)
Definition next_backoff (max_duration current elapsed pick : N) : option N :=
  if max_duration <? elapsed then None
  else if elapsed + randomized current pick <=? max_duration then Some (randomized current pick) else None.

Section Backoff.
Variables min_duration max_duration : N.
Variables pick took : nat -> N.
(** [current_interval] and the time since [reset] (called by [retry_notify] when it starts) when the [k]-th call starts; error.rs:88 sets the initial interval. *)
Fixpoint backoff_at (k : nat) : N * N :=
  match k with
  | O => (min_duration, 0)
  | S j =>
      let (current, elapsed) := backoff_at j in
      (grow current, elapsed + took j + match next_backoff max_duration current (elapsed + took j) (pick j) with Some d => d | None => 0 end)
  end.
(** What [next_backoff] answers after the [k]-th call. *)
Definition exp_pauses (k : nat) : option N :=
  let (current, elapsed) := backoff_at k in next_backoff max_duration current (elapsed + took k) (pick k).
End Backoff.
