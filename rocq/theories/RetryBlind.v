(** C31: what a fatal failure of a retry does. *)
From Coq Require Import List NArith Lia Bool Arith.
From Verif Require Import Base RetryModel RetrySpec RetryProps.
Import ListNotations.
Open Scope nat_scope.

(** Two outcomes that differ at most in the kind of the error: both are the same success, or failures with the same cause. *)
Definition same_but_kind {Err A : Type} (a b : res (op_error Err) A) : Prop :=
  match a, b with ROk x, ROk y => x = y | RErr d, RErr e => into_err d = into_err e | _, _ => False end.

Section Blind.
Context {Err A : Type}.
Variables f g : nat -> res (op_error Err) A.
Hypothesis FG : forall k, same_but_kind (f k) (g k).
Variable tracer : bool.

Definition alike (a b : option (res (op_error Err) A * list (ract (op_error Err)))) : Prop :=
  match a, b with Some (x, l), Some (y, m) => same_but_kind x y /\ calls l = calls m | None, None => True | _, _ => False end.
Lemma calls_step : forall (t u : list (ract (op_error Err))) k l m, calls t = 0 -> calls u = 0 -> calls l = calls m -> calls (t ++ ACall k :: l) = calls (u ++ ACall k :: m).
Proof. intros t u k l m T U L. rewrite !calls_app, T, U. unfold calls in *. cbn. now rewrite L. Qed.
Lemma loop_blind : forall fuel max d num k x y, same_but_kind x y -> alike (retry_loop fuel f max d tracer num k x) (retry_loop fuel g max d tracer num k y).
Proof.
  induction fuel as [|fuel IH]; intros max d num k x y H; cbn [retry_loop]; destruct x as [a|e], y as [b|e']; cbn in H; try contradiction; try (split; [exact H|reflexivity]); destruct (N.leb max num); try (split; [exact H|reflexivity]); [exact Logic.I|].
  pose proof (IH max d ((num + 1) mod 2 ^ 32)%N (S k) _ _ (FG (S k))) as R. unfold alike in R.
  destruct (retry_loop fuel f max d tracer _ _ _) as [[r l]|], (retry_loop fuel g max d tracer _ _ _) as [[r' l']|]; cbn; try contradiction; auto. destruct R as [R1 R2]. split; [exact R1|].
  rewrite !app_assoc. apply calls_step; auto; destruct tracer, d; reflexivity.
Qed.
Lemma notify_blind : forall fuel pauses k, alike (retry_notify fuel f pauses tracer k) (retry_notify fuel g pauses tracer k).
Proof.
  induction fuel as [|fuel IH]; intros pauses k; cbn [retry_notify]; [exact Logic.I|]. pose proof (FG k) as H. destruct (f k) as [a|e], (g k) as [b|e']; cbn in H; try contradiction; [split; [exact H|reflexivity]|].
  destruct (pauses k) as [d|]; [|split; [exact H|reflexivity]]. pose proof (IH pauses (S k)) as R. unfold alike in R.
  destruct (retry_notify fuel f pauses tracer (S k)) as [[r l]|], (retry_notify fuel g pauses tracer (S k)) as [[r' l']|]; cbn; try contradiction; auto. destruct R as [R1 R2]. split; [exact R1|].
  f_equal. unfold calls in *. rewrite !filter_app, !app_length. destruct tracer; cbn; exact R2.
Qed.
Lemma strategy_blind : forall fuel r pauses, alike (retry_with_strategy fuel f r pauses tracer) (retry_with_strategy fuel g r pauses tracer).
Proof.
  intros fuel r pauses. assert (S : forall m d, alike (retry_simple fuel f m d tracer) (retry_simple fuel g m d tracer)).
  { intros m d. unfold retry_simple. pose proof (loop_blind fuel m d 0%N 0 _ _ (FG 0)) as R. unfold alike in R.
    destruct (retry_loop fuel f m d tracer _ _ _) as [[x l]|], (retry_loop fuel g m d tracer _ _ _) as [[y l']|]; cbn; try contradiction; auto. destruct R as [R1 R2]. split; [exact R1|]. unfold calls in *. cbn. now rewrite R2. }
  destruct r; cbn [retry_with_strategy]; auto. apply notify_blind.
Qed.
End Blind.

(** The executor does not look at the kind of a later failure at all: whatever kinds the failures after the first have, and whatever
    strategies they carry, the number of attempts and the outcome are the same. This is why C31 is false. *)
Theorem C31_blind_partial : forall (Err A : Type) fuel (f g : nat -> res (op_error Err) A) pauses,
  f 0 = g 0 -> (forall k, same_but_kind (f (S k)) (g (S k))) -> attempts fuel f pauses = attempts fuel g pauses.
Proof.
  intros Err A fuel f g pauses Z FG. unfold attempts. rewrite <- Z. destruct (f 0) as [a|e]; [reflexivity|]. destruct e as [x r s|x s]; [|reflexivity]. cbn [retry_internal].
  pose proof (strategy_blind (fun k => f (S k)) (fun k => g (S k)) FG true fuel r pauses) as R. unfold alike in R.
  destruct (retry_with_strategy fuel (fun k => f (S k)) r pauses true) as [[u l]|], (retry_with_strategy fuel (fun k => g (S k)) r pauses true) as [[v m]|]; try contradiction; auto. destruct R as [R1 R2].
  destruct u as [a|e], v as [b|e']; cbn in R1; try contradiction; rewrite R1, R2; reflexivity.
Qed.
(** A fatal failure at attempt [j] (from 0), all before having failed, the first transiently: it is the last attempt exactly when the
    retries of the first failure's strategy are used up. *)
Theorem C31_final_iff_partial : forall (Err A : Type) fuel (f : nat -> res (op_error Err) A) pauses x r s max d y s' j result n,
  f 0 = RErr (Transient x r s) -> strategy_ok r -> strategy_max r = Some (max, d) ->
  0 < j <= max + 1 -> f j = RErr (Fatal y s') -> failed_before f j ->
  attempts fuel f pauses = Some (result, n) -> (n = j + 1 <-> j = max + 1).
Proof.
  intros Err A fuel f pauses x r s max d y s' j result n Z OK SM J FJ FB R. unfold attempts in R. rewrite Z in R. cbn [retry_internal] in R.
  destruct (retry_with_strategy fuel (fun k => f (S k)) r pauses true) as [[u l]|] eqn:X; [|discriminate R]. destruct (C29_counts _ _ _ _ _ _ _ _ _ _ _ OK SM X) as (C & CO & CE). destruct u as [a|e]; injection R as <- <-.
  - destruct (CO a eq_refl) as (k & FK & _ & CK). assert (K : j < S k).
    { destruct (Nat.lt_trichotomy j (S k)) as [L|[E|L]]; [exact L| |]; [subst j; congruence|]. destruct (FB (S k) L) as (e & E). congruence. }
    lia.
  - destruct (CE e eq_refl) as (_ & _ & CK). lia.
Qed.
Print Assumptions C31_blind_partial.
Print Assumptions C31_final_iff_partial.

(** A fatal and a transient second failure: three attempts and the same success. *)
Definition second (e : op_error nat) (k : nat) : res (op_error nat) nat :=
  match k with 0 => RErr (Transient 7 default_retry FsTerminate) | 1 => RErr e | _ => ROk 5 end.
Example C31_blind_case : (forall k, same_but_kind (second (Fatal 8 FsTerminate) (S k)) (second (Transient 8 (RsAfter 9 1) FsIgnore) (S k))) /\
  attempts 3 (second (Fatal 8 FsTerminate)) (fun _ => None) = Some (ROk 5, 3).
Proof. split; [intros [|k]; reflexivity|vm_compute; reflexivity]. Qed.
(** Three retries beyond the first call of the retry: fatal at the fourth retry, the last; and at the first retry, not the last. *)
Example C31_final_case :
  let f := fun k => match k with 0 => RErr (Transient 7 default_retry FsTerminate) | S k => RErr (Fatal k FsIgnore) end : res (op_error nat) nat in
  strategy_ok default_retry /\ strategy_max default_retry = Some (3, None) /\ failed_before f 4 /\ f 4 = RErr (Fatal 3 FsIgnore) /\
  attempts 3 f (fun _ => None) = Some (RErr (Fatal 3 FsTerminate), 5).
Proof. split; [cbn; lia|]. split; [reflexivity|]. split; [intros [|k] K; eexists; reflexivity|]. split; [reflexivity|vm_compute; reflexivity]. Qed.
