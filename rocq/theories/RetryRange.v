(** C29, continued: the supposition [strategy_ok] leaves out nothing that a [NonZeroU32] can be. *)
From Coq Require Import List Arith NArith Lia.
From Verif Require Import Base RetryModel RetrySpec RetryProps.
Import ListNotations.
Open Scope nat_scope.

(** For every maximum from 1 to 4294967295, with or without a pause. *)
Theorem C29_full_range : forall (E A : Type) (f : nat -> res E A) (tracer : bool) (m : N) (d : option N) pauses, (1 <= m <= 4294967295)%N ->
  exists k, k <= N.to_nat m /\ failed_before f k /\ ((exists e, f k = RErr e) -> k = N.to_nat m) /\
    retry_with_strategy (N.to_nat m) f (match d with None => RsImmediate m | Some x => RsAfter m x end) pauses tracer = Some (f k, doings f tracer (fun _ => d) k).
Proof.
  intros E A f tracer m d pauses B. apply C29_retry with (max := N.to_nat m); [|destruct d; reflexivity|lia].
  assert (P : (2 ^ 32 = 4294967296)%N) by reflexivity. destruct d; cbn [strategy_ok]; lia.
Qed.
Print Assumptions C29_full_range.
(** The least maximum: one retry. *)
Example C29_full_range_least : (1 <= 1 <= 4294967295)%N /\ retry_with_strategy (N.to_nat 1) ex_f (RsAfter 1 30) (fun _ => None) true = Some (RErr 11, [ACall 0; ATrace 10; ASleep 30; ACall 1]).
Proof. split; [lia|vm_compute; reflexivity]. Qed.
