(** C37, continued: a worker stopped by abort-all waits ten seconds before its loop ends, and no more than that. *)
From Coq Require Import List Arith NArith Bool Lia.
From Verif Require Import Base BaseFacts RetryModel WorkerModel WorkerSpec WorkerProofs WorkerFacts.
Import ListNotations.
Open Scope nat_scope.

Definition signalled (s : wstate) (by_ : N) : Prop := exists tm i, In (tm, ASignal i) (w_log s) /\ (tm <= by_)%N.
(** The worker is at the sleep, or in the call before it. *)
Definition grace (s : wstate) : Prop :=
  match w_main s with
  | WpTerm _ _ => signalled s (w_now s)
  | WpSleep _ u => (u <= w_now s + 10000)%N /\ exists b, signalled s b /\ (b + 10000 <= u)%N
  | _ => True
  end.

Lemma signalled_ext : forall s s' new b, w_log s' = new ++ w_log s -> signalled s b -> signalled s' b.
Proof. intros s s' new b L (tm & i & I & T). exists tm, i. split; [|exact T]. rewrite L. apply in_or_app. now right. Qed.

Lemma start_now : forall s t sn st, w_now (start s t sn st) = w_now s.
Proof. intros. unfold start. now destruct st. Qed.
Lemma exec_now : forall s t sn st r, w_main s = WpRun t sn st -> w_now (poll_exec s t sn st r) = w_now s.
Proof.
  intros s t sn st r M. unfold poll_exec. destruct r as [o|]; [|apply start_now]. unfold finish. destruct o; cbn; try apply start_now.
  unfold mark. destruct (marked _ _); cbn; apply start_now.
Qed.

Lemma signal_grace : forall s t sn st, w_main s = WpRun t sn st -> grace (poll_signal s t sn st).
Proof.
  intros s t sn st M. unfold poll_signal. destruct (_ && _).
  - cbn. exists (w_now s), (cur s). split; [now left|]. cbn. lia.
  - destruct (w_lis s); exact I.
Qed.
Lemma exec_grace : forall s t sn st r, w_main s = WpRun t sn st -> grace (poll_exec s t sn st r).
Proof.
  intros s t sn st r M. unfold grace. destruct (exec_main s t sn st r M) as (_ & _ & _ & _ & X). rewrite X.
  destruct r as [[y|fs msg|]|]; exact I.
Qed.
Lemma select_grace : forall s t sn st sf r, w_main s = WpRun t sn st -> grace (poll_select s t sn st sf r).
Proof.
  intros s t sn st sf r M. unfold poll_select. destruct sf.
  - pose proof (signal_grace s t sn st M) as G. destruct (w_main (poll_signal s t sn st)) eqn:E; try exact G. now apply exec_grace.
  - pose proof (exec_grace s t sn st r M) as G. destruct (w_main (poll_exec s t sn st r)) eqn:E; try exact G. now apply signal_grace.
Qed.

Lemma grace_same : forall s s' new d, w_main s' = w_main s -> w_now s' = (w_now s + d)%N -> w_log s' = new ++ w_log s -> grace s -> grace s'.
Proof.
  intros s s' new d M T L G. unfold grace in *. rewrite M, T. destruct (w_main s); try exact I.
  - destruct (signalled_ext _ _ _ _ L G) as (tm & i & X & Y). exists tm, i. split; [exact X|lia].
  - destruct G as (G1 & b & G2 & G3). split; [lia|]. exists b. split; [eapply signalled_ext; eauto|exact G3].
Qed.

Lemma grace_step : forall s e s', grace s -> w_step s e = Some s' -> grace s'.
Proof.
  intros s e s' G H. destruct e as [d| |k| | |t| | | |sf r|sl|sl ok|ok|ok| |]; unfold w_step, option_map in H.
  - injection H as <-. now apply (grace_same s _ [] d).
  - assert (X : s' = mkW (w_now s) (filter (fun p => (w_now s - snd p <? clear_interval)%N) (w_jobs s)) (w_now s + clear_interval)
                       (w_lis s) (w_ver s) (w_val s) (w_flag s) (w_main s) (w_taken s) (w_log s)).
    { destruct (w_main s); try discriminate; destruct (_ <=? _)%N; try discriminate; now injection H as <-. }
    subst s'. apply (grace_same s _ [] 0%N); auto. cbn. lia.
  - assert (X : w_main s' = w_main s /\ w_now s' = w_now s /\ exists new, w_log s' = new ++ w_log s).
    { unfold mark in H. assert (Y : forall (P : option wstate), match w_main s, w_lis s with WpStop _, _ | _, LisSend _ | _, LisGone => None | _, LisIdle => P end = Some s' -> P = Some s').
      { intros P. destruct (w_main s); try discriminate; destruct (w_lis s); try discriminate; auto. }
      apply Y in H. destruct (marked k _); injection H as <-; cbn; (split; [reflexivity|]); (split; [reflexivity|]); [exists [(w_now s, ACommand k)]|exists [(w_now s, AMark k); (w_now s, ACommand k)]]; reflexivity. }
    destruct X as (X1 & X2 & new & X3). apply (grace_same s s' new 0%N); auto. rewrite X2. lia.
  - assert (X : w_main s' = w_main s /\ w_now s' = w_now s /\ w_log s' = w_log s).
    { destruct (w_main s) eqn:M; try discriminate; destruct (w_lis s); try discriminate; injection H as <-; cbn; auto. }
    destruct X as (X1 & X2 & X3). apply (grace_same s s' [] 0%N); auto. rewrite X2. lia.
  - assert (X : w_main s' = w_main s /\ w_now s' = w_now s /\ w_log s' = w_log s).
    { destruct (w_main s) eqn:M; try discriminate; destruct (w_lis s); try discriminate; injection H as <-; cbn; auto. }
    destruct X as (X1 & X2 & X3). apply (grace_same s s' [] 0%N); auto. rewrite X2. lia.
  - destruct (w_main s) eqn:M; try discriminate; injection H as <-; exact I.
  - destruct (w_main s) eqn:M; try discriminate; injection H as <-; exact I.
  - destruct (w_main s) eqn:M; try discriminate; injection H as <-. unfold grace. cbn. destruct (w_flag s); exact I.
  - destruct (w_main s) eqn:M; try discriminate; injection H as <-. destruct (marked _ _); exact I.
  - destruct (w_main s) eqn:M; try discriminate; injection H as <-. now apply select_grace.
  - unfold grace in G. destruct sl; destruct (w_main s) eqn:M; try discriminate;
      repeat match type of H with context [match ?x with _ => _ end] => destruct x; try discriminate end; injection H as <-; try exact I.
    cbn. destruct G as (tm & n & X & Y). exists tm, n. split; [now right|exact Y].
  - unfold grace in G. destruct (w_main s) eqn:M; destruct sl; try discriminate;
      try (repeat match type of H with context [match ?x with _ => _ end] => destruct x; try discriminate end; injection H as <-; exact I).
    assert (X : s' = set_main s (WpSleep t (w_now s + shutdown_interval))).
    { destruct ok; [|now injection H as <-]. destruct a; cbn in H; try discriminate. now injection H as <-. }
    subst s'. unfold shutdown_interval. cbn. split; [apply N.le_refl|]. exists (w_now s). split; [exact G|apply N.le_refl].
  - destruct (w_main s) eqn:M; try discriminate;
      repeat match type of H with context [match ?x with _ => _ end] => destruct x; try discriminate end; injection H as <-; exact I.
  - destruct (w_main s) eqn:M; try discriminate;
      repeat match type of H with context [match ?x with _ => _ end] => destruct x; try discriminate end; injection H as <-; exact I.
  - destruct (w_main s) eqn:M; try discriminate;
      repeat match type of H with context [match ?x with _ => _ end] => destruct x; try discriminate end; injection H as <-; exact I.
  - destruct (w_main s) eqn:M; try discriminate; destruct (_ <=? _)%N; try discriminate; injection H as <-; exact I.
Qed.

(** When the loop ends by abort-all, at least ten seconds have passed since the signal was seen (the execution has that long to
    finish); and a worker that is at that sleep ends once ten seconds have passed. *)
Theorem C37_grace : forall ident tr s, run_from w_step (w_init ident) tr = Some s ->
  (forall s', w_step s WWake = Some s' -> w_main s' = WpStop EndOk /\ exists tm i, In (tm, ASignal i) (w_log s) /\ (tm + 10000 <= w_now s)%N) /\
  (forall t u, w_main s = WpSleep t u -> exists s', run_from w_step s [WTick 10000; WWake] = Some s' /\ w_main s' = WpStop EndOk).
Proof.
  intros ident tr s H. assert (G : grace s) by (exact (run_from_inv _ _ w_step grace grace_step tr (w_init ident) s Logic.I H)). split.
  - intros s' W. unfold w_step in W. unfold grace in G. destruct (w_main s) eqn:M; try discriminate. destruct (N.leb_spec until (w_now s)) as [L|]; [|discriminate].
    injection W as <-. split; [reflexivity|]. destruct G as (_ & b & (tm & i & X & Y) & Z). exists tm, i. split; [exact X|lia].
  - intros t u M. unfold grace in G. rewrite M in G. destruct G as (G & _). cbn. rewrite M. apply N.leb_le in G. rewrite G. eexists. split; reflexivity.
Qed.
Print Assumptions C37_grace.

Example C37_grace_example : option_map (fun s => (w_main s, w_now s)) (run_from w_step (w_init 99)
    [WTake (mkT 7 1); WFlag; WCheck; WPoll true None; WTick 3; WCommand abort_all; WSend; WPoll true None; WEffect SAck; WReturn SAck true]) =
  Some (WpSleep (mkT 7 1) 10003, 3%N) /\
  run_from w_step (w_init 99) [WTake (mkT 7 1); WFlag; WCheck; WPoll true None; WTick 3; WCommand abort_all; WSend; WPoll true None; WEffect SAck;
    WReturn SAck true; WTick 9999; WWake] = None.
Proof. split; vm_compute; reflexivity. Qed.
