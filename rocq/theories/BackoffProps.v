(** C78: what the exponential strategy promises. *)
From Coq Require Import List Arith NArith Lia Bool.
From Verif Require Import Base RetryModel RetrySpec RetryProps BackoffModel.
Import ListNotations.
Local Open Scope N_scope.

(** A retry with the exponential strategy, the pauses being those of the backoff. *)
Definition exponential {E A : Type} (fuel : nat) (f : nat -> res E A) (mn mx : N) (pick took : nat -> N) (tracer : bool) : option (res E A * list (ract E)) :=
  retry_with_strategy fuel f (RsExponential mn mx) (exp_pauses mn mx pick took) tracer.
(** The time slept, and the time the first [n] calls took. *)
Fixpoint slept {E : Type} (l : list (ract E)) : N := match l with ASleep d :: r => d + slept r | _ :: r => slept r | [] => 0 end.
Fixpoint spent (took : nat -> N) (n : nat) : N := match n with O => 0 | S m => spent took m + took m end.
(** The least pause: half of [min_duration], or of a minute if that is less. *)
Definition least (mn : N) : N := N.min mn 60000000000 / 2.

Lemma slept_app : forall (E : Type) (l m : list (ract E)), slept (l ++ m) = slept l + slept m.
Proof. induction l as [|[k|e|d] l IH]; intros m; cbn; rewrite ?IH; lia. Qed.
Lemma grow_least : forall mn c, N.min mn 60000000000 <= c -> N.min mn 60000000000 <= grow c.
Proof.
  intros mn c H. unfold grow, max_interval. destruct (N.leb_spec 40000000000 c); [lia|]. apply N.le_trans with c; [exact H|]. apply N.div_le_lower_bound; lia.
Qed.
Lemma next_some : forall mx c e p d, next_backoff mx c e p = Some d -> c / 2 <= d <= 3 * c / 2 + 1 /\ e + d <= mx.
Proof.
  intros mx c e p d H. unfold next_backoff in H. destruct (mx <? e); [discriminate|]. destruct (N.leb_spec (e + randomized c p) mx); [|discriminate]. injection H as <-.
  split; [|assumption]. unfold randomized. pose proof (N.mod_lt p (c + 2) ltac:(lia)). replace (3 * c) with (c + c * 2) by lia. rewrite N.div_add by discriminate. generalize dependent (p mod (c + 2)). generalize (c / 2). intros. lia.
Qed.

Section Run.
Context {E A : Type}.
Variables (f : nat -> res E A) (tracer : bool) (mn mx : N) (pick took : nat -> N).
Let P := exp_pauses mn mx pick took.
Let at_ := backoff_at mn mx pick took.
Lemma current_bounds : forall k, N.min mn 60000000000 <= fst (at_ k) <= N.max mn 60000000000.
Proof.
  induction k as [|k IH]; unfold at_ in *; cbn [backoff_at]; [cbn; lia|]. destruct (backoff_at mn mx pick took k) as [c e]. cbn [fst] in *.
  split; [apply grow_least; lia|]. unfold grow, max_interval. destruct (N.leb_spec 40000000000 c); [lia|]. enough (3 * c / 2 < 60000000000) by lia. apply N.div_lt_upper_bound; lia.
Qed.
Lemma pause_some : forall k d, P k = Some d -> least mn <= d <= 3 * N.max mn 60000000000 / 2 + 1 /\ snd (at_ k) + took k + d <= mx /\ snd (at_ (S k)) = snd (at_ k) + took k + d.
Proof.
  intros k d H. pose proof (current_bounds k) as [B1 B2]. unfold P, exp_pauses, at_ in *. cbn [backoff_at]. destruct (backoff_at mn mx pick took k) as [c e]. cbn [fst snd] in *. rewrite H. destruct (next_some _ _ _ _ _ H) as [[L U] M]. split; [split|].
  - unfold least. apply N.le_trans with (c / 2); [apply N.div_le_mono; lia|exact L].
  - apply N.le_trans with (3 * c / 2 + 1); [exact U|]. apply N.add_le_mono_r. apply N.div_le_mono; lia.
  - split; [exact M|reflexivity].
Qed.
(** A retry from call [k] on. *)
Lemma notify_run : forall fuel k r l, retry_notify fuel f P tracer k = Some (r, l) ->
  (forall d, In (ASleep d) l -> least mn <= d <= 3 * N.max mn 60000000000 / 2 + 1) /\
  exists n, calls l = S n /\ spent took (k + n) = spent took k + (spent took (k + n) - spent took k) /\
    N.of_nat n * least mn <= slept l /\ (n = O -> slept l = 0) /\ (n <> O -> snd (at_ k) + (spent took (k + n) - spent took k) + slept l <= mx).
Proof.
  assert (MONO : forall k n, spent took k <= spent took (k + n)). { intros k n. induction n as [|n IH]; [rewrite Nat.add_0_r; lia|]. replace (k + S n)%nat with (S (k + n)) by lia. cbn [spent]. lia. }
  induction fuel as [|fuel IH]; intros k r l H; [discriminate|]. cbn [retry_notify] in H.
  assert (ONE : l = [ACall k] -> (forall d, In (ASleep d) l -> least mn <= d <= 3 * N.max mn 60000000000 / 2 + 1) /\
    exists n, calls l = S n /\ spent took (k + n) = spent took k + (spent took (k + n) - spent took k) /\
    N.of_nat n * least mn <= slept l /\ (n = O -> slept l = 0) /\ (n <> O -> snd (at_ k) + (spent took (k + n) - spent took k) + slept l <= mx)).
  { intros ->. split; [intros d [Q|[]]; discriminate|]. exists O. split; [reflexivity|]. split; [rewrite Nat.add_0_r; lia|]. split; [reflexivity|]. split; [reflexivity|congruence]. }
  destruct (f k) as [a|e]; [injection H as _ <-; apply ONE; reflexivity|]. destruct (P k) as [d|] eqn:PK; [|injection H as _ <-; apply ONE; reflexivity].
  clear ONE. destruct (retry_notify fuel f P tracer (S k)) as [[r' l']|] eqn:R; [|discriminate]. injection H as <- <-.
  destruct (IH _ _ _ R) as (IN & n & C & _ & LE & Z & T). destruct (pause_some k d PK) as (B & M & NX).
  assert (SL : slept (ACall k :: trace_if tracer e ++ ASleep d :: l') = d + slept l') by (cbn [slept]; rewrite slept_app; unfold trace_if; destruct tracer; reflexivity).
  split.
  - intros d' [Q|Q]; [discriminate|]. apply in_app_or in Q. destruct Q as [Q|[Q|Q]]; [unfold trace_if in Q; destruct tracer; [destruct Q as [Q|[]]; discriminate|destruct Q]|injection Q as <-; exact B|auto].
  - exists (S n). replace (k + S n)%nat with (S k + n)%nat by lia. split.
    { change (ACall k :: trace_if tracer e ++ ASleep d :: l') with ([ACall k] ++ trace_if tracer e ++ [ASleep d] ++ l'). rewrite !calls_app, C. unfold trace_if. destruct tracer; reflexivity. }
    pose proof (MONO (S k) n) as M1. cbn [spent] in M1. split; [lia|]. rewrite SL. split; [rewrite Nat2N.inj_succ; lia|]. split; [discriminate|]. intros _. rewrite NX in T.
    destruct n as [|n]; [rewrite (Z eq_refl), Nat.add_0_r; cbn [spent]; lia|]. specialize (T ltac:(discriminate)). cbn [spent] in T. lia.
Qed.
(** The backoff stops. *)
Lemma elapsed_grows : forall k, (forall j, (j < k)%nat -> P j <> None) -> N.of_nat k * least mn <= snd (at_ k) /\ (k <> O -> snd (at_ k) <= mx).
Proof.
  induction k as [|k IH]; intros H; [split; [cbn; lia|congruence]|]. destruct (P k) as [d|] eqn:PK; [|exfalso; apply (H k); [lia|exact PK]]. destruct (pause_some k d PK) as (B & M & ->).
  destruct IH as [L _]; [intros j J; apply H; lia|]. split; [rewrite Nat2N.inj_succ; lia|intros _; exact M].
Qed.
Lemma stops : least mn <> 0 -> exists n, P n = None /\ N.of_nat n <= mx / least mn.
Proof.
  intros NZ. assert (D : forall k, (exists j, (j < k)%nat /\ P j = None) \/ (forall j, (j < k)%nat -> P j <> None)).
  { induction k as [|k [(j & J & X)|IH]]; [right; lia|left; exists j; split; [lia|exact X]|]. destruct (P k) eqn:X; [right; intros j J|left; exists k; split; [lia|exact X]].
    destruct (Nat.eq_dec j k) as [->|]; [congruence|apply IH; lia]. }
  set (m := S (N.to_nat (mx / least mn))). destruct (D m) as [(j & J & X)|H].
  - exists j. split; [exact X|]. unfold m in J. lia.
  - exfalso. destruct (elapsed_grows m H) as [L U]. specialize (U ltac:(discriminate)). pose proof (N.mul_succ_div_gt mx (least mn) NZ) as G. unfold m in *. rewrite Nat2N.inj_succ, N2Nat.id in L. lia.
Qed.
End Run.

(** C78: with [Exponential], no pause is shorter than [min_duration]. Pauses are randomized, down to the half. *)
Theorem C78_refuted : exists mn mx (pick took : nat -> N) (f : nat -> res nat nat) r l d, exponential 5 f mn mx pick took false = Some (r, l) /\ In (ASleep d) l /\ d < mn.
Proof.
  exists 1000, 10000, (fun _ => 0), (fun _ => 1), (fun k => match k with O => RErr 3%nat | _ => ROk 7%nat end). eexists. eexists. exists 500. split; [vm_compute; reflexivity|]. split; [cbn; auto|reflexivity].
Qed.
(** Pauses need not grow: after the first they are at most one and a half minutes, whatever [min_duration] is. *)
Theorem C78_capped : forall mn mx pick took k d, exp_pauses mn mx pick took (S k) = Some d -> d <= 90000000001.
Proof.
  intros mn mx pick took k d H. unfold exp_pauses in H. cbn [backoff_at] in H. destruct (backoff_at mn mx pick took k) as [c e]. destruct (next_some _ _ _ _ _ H) as [[_ U] _].
  assert (G : grow c <= 60000000000). { unfold grow, max_interval. destruct (N.leb_spec 40000000000 c); [lia|]. enough (3 * c / 2 < 60000000000) by lia. apply N.div_lt_upper_bound; lia. }
  assert (3 * grow c / 2 <= 90000000000) by (apply N.div_le_upper_bound; lia). lia.
Qed.
Theorem C78_grows_refuted : exists mn mx (pick took : nat -> N) (f : nat -> res nat nat) d d', exponential 5 f mn mx pick took false = Some (ROk 7%nat, [ACall 0%nat; ASleep d; ACall 1%nat; ASleep d'; ACall 2%nat]) /\
  mn <= d /\ 40 * d' <= mn.
Proof.
  exists 3600000000000, 100000000000000, (fun _ => 3600000000000 - 1800000000000), (fun _ => 1), (fun k => match k with O | 1%nat => RErr 3%nat | _ => ROk 7%nat end). eexists. eexists. split; [vm_compute; reflexivity|]. split; [discriminate|]. vm_compute. discriminate.
Qed.
(** What holds of every retry that ended: the pauses, their sum, and when the last attempt was to start. *)
Theorem C78_bounds_partial : forall (E A : Type) fuel (f : nat -> res E A) mn mx pick took tracer r l, exponential fuel f mn mx pick took tracer = Some (r, l) ->
  (forall d, In (ASleep d) l -> least mn <= d <= 3 * N.max mn 60000000000 / 2 + 1) /\
  slept l <= mx /\ N.of_nat (calls l - 1) * least mn <= mx /\ ((1 < calls l)%nat -> spent took (calls l - 1) + slept l <= mx).
Proof.
  intros E A fuel f mn mx pick took tracer r l H. unfold exponential in H. cbn [retry_with_strategy] in H. destruct (notify_run f tracer mn mx pick took fuel 0 r l H) as (B & n & C & _ & L & Z & T).
  cbn [backoff_at snd spent Nat.add] in T. rewrite C. replace (S n - 1)%nat with n by lia. split; [exact B|]. destruct n as [|n]; [rewrite (Z eq_refl); repeat split; lia|]. specialize (T ltac:(discriminate)).
  rewrite N.sub_0_r in T. repeat split; intros; lia.
Qed.
(** It ends, unless the least pause is zero: it returns the first success, or the error of the attempt after which the next one would come too late. *)
Theorem C78_ends : forall (E A : Type) (f : nat -> res E A) mn mx pick took tracer, 2 <= mn -> exists k, N.of_nat k <= mx / least mn /\ failed_before f k /\
  forall fuel, (N.to_nat (mx / least mn) < fuel)%nat -> exists l, exponential fuel f mn mx pick took tracer = Some (f k, l) /\ calls l = S k.
Proof.
  intros E A f mn mx pick took tracer M. assert (NZ : least mn <> 0). { unfold least. enough (1 <= N.min mn 60000000000 / 2) by lia. apply N.div_le_lower_bound; lia. }
  destruct (stops mn mx pick took NZ) as (n & S & L).
  destruct (C29_exponential E A f tracer mn mx _ n (Datatypes.S n) S ltac:(lia)) as (k & K & FB & NN & LAST & R). exists k. split; [lia|]. split; [exact FB|]. intros fuel F.
  destruct (C29_exponential E A f tracer mn mx _ n fuel S ltac:(lia)) as (k' & K' & FB' & NN' & LAST' & R').
  assert (k' = k) as ->.
  { destruct (Nat.lt_trichotomy k k') as [X|[X|X]]; [|auto|].
    - exfalso. destruct (FB' k X) as (e & Q). apply (NN' k X). apply LAST. eauto.
    - exfalso. destruct (FB k' X) as (e & Q). apply (NN k' X). apply LAST'. eauto. }
  eexists. split; [exact R'|]. apply doings_calls.
Qed.
(** The error is only returned when no time is left for the least further pause of that round. *)
Theorem C78_gives_up_late : forall (E A : Type) fuel (f : nat -> res E A) mn mx pick took tracer e l, exponential fuel f mn mx pick took tracer = Some (RErr e, l) ->
  mx < spent took (calls l) + slept l + (3 * N.max mn 60000000000 / 2 + 1).
Proof.
  intros E A fuel f mn mx pick took tracer e l H. unfold exponential in H. cbn [retry_with_strategy] in H.
  assert (G : forall fuel k r l, retry_notify fuel f (exp_pauses mn mx pick took) tracer k = Some (r, l) -> r = RErr e ->
    exists n, calls l = S n /\ spent took (k + S n) >= spent took k /\ mx < snd (backoff_at mn mx pick took k) + (spent took (k + S n) - spent took k) + slept l + (3 * N.max mn 60000000000 / 2 + 1)).
  { clear. induction fuel as [|fuel IH]; intros k r l H Q; [discriminate|]. cbn [retry_notify] in H. destruct (f k) as [a|e'] eqn:FK; [congruence|].
    destruct (exp_pauses mn mx pick took k) as [d|] eqn:PK.
    - destruct (retry_notify fuel f (exp_pauses mn mx pick took) tracer (S k)) as [[r' l']|] eqn:R; [|discriminate]. injection H as <- <-. destruct (IH _ _ _ R Q) as (n & C & GE & LT). exists (S n).
      destruct (pause_some mn mx pick took k d PK) as (_ & _ & NX). rewrite NX in LT. cbn [spent] in GE, LT. replace (k + S (S n))%nat with (S k + S n)%nat by lia. split.
      { change (ACall k :: trace_if tracer e' ++ ASleep d :: l') with ([ACall k] ++ trace_if tracer e' ++ [ASleep d] ++ l'). rewrite !calls_app, C. unfold trace_if. destruct tracer; reflexivity. }
      split; [lia|]. cbn [slept]. rewrite slept_app. cbn [slept]. lia.
    - injection H as <- <-. exists O. split; [reflexivity|]. replace (k + 1)%nat with (S k) by lia. cbn [spent slept]. split; [lia|].
      pose proof (current_bounds mn mx pick took k) as [_ U]. unfold exp_pauses in PK. destruct (backoff_at mn mx pick took k) as [c el]. cbn [fst snd] in *. unfold next_backoff in PK.
      assert (U' : 3 * c / 2 <= 3 * N.max mn 60000000000 / 2) by (apply N.div_le_mono; lia). revert U'. generalize (3 * N.max mn 60000000000 / 2). intros top U'.
      destruct (N.ltb_spec mx (el + took k)); [lia|]. destruct (N.leb_spec (el + took k + randomized c (pick k)) mx) as [|X]; [discriminate|].
      assert (randomized c (pick k) <= 3 * c / 2 + 1). { unfold randomized. pose proof (N.mod_lt (pick k) (c + 2) ltac:(lia)). replace (3 * c) with (c + c * 2) by lia. rewrite N.div_add by discriminate. generalize dependent (pick k mod (c + 2)). generalize (c / 2). intros. lia. }
      lia. }
  destruct (G _ _ _ _ H eq_refl) as (n & C & _ & LT). rewrite C. cbn [Nat.add spent backoff_at snd] in *. lia.
Qed.
(** With [min_duration] zero the pauses are zero: an operation that fails at once is retried as often as fits into [max_duration], without bound. *)
Theorem C78_spins_refuted : exists (f : nat -> res nat nat) pick took, forall mx fuel, exponential fuel f 0 mx pick took false = None.
Proof.
  exists (fun _ => RErr 3%nat), (fun _ => 0), (fun _ => 0). intros mx fuel. unfold exponential. cbn [retry_with_strategy].
  assert (B : forall k, backoff_at 0 mx (fun _ => 0) (fun _ => 0) k = (0, 0)). { induction k as [|k IH]; [reflexivity|]. cbn [backoff_at]. rewrite IH. unfold next_backoff. destruct mx; reflexivity. }
  assert (G : forall fuel k, retry_notify fuel (fun _ => RErr 3%nat : res nat nat) (exp_pauses 0 mx (fun _ => 0) (fun _ => 0)) false k = None); [|apply G].
  clear fuel. induction fuel as [|fuel IH]; intros k; [reflexivity|]. cbn [retry_notify]. unfold exp_pauses at 1. rewrite B. unfold next_backoff. destruct mx; cbn; rewrite IH; reflexivity.
Qed.
(** Half a second at least, five seconds at most, an operation that takes 200 ms and never succeeds: five attempts. *)
Example C78_example : let pick := fun k => 100000000 * N.of_nat k in let took := fun _ : nat => 200000000 in
  exists l, exponential 50 (fun k => RErr k : res nat nat) 500000000 5000000000 pick took true = Some (RErr 4%nat, l) /\ calls l = 5%nat /\
    slept l = 2631250000 /\ spent took 5 = 1000000000.
Proof. cbv zeta. eexists. split; [vm_compute; reflexivity|]. split; [reflexivity|]. split; reflexivity. Qed.
Print Assumptions C78_refuted.
Print Assumptions C78_capped.
Print Assumptions C78_grows_refuted.
Print Assumptions C78_bounds_partial.
Print Assumptions C78_ends.
Print Assumptions C78_gives_up_late.
Print Assumptions C78_spins_refuted.
