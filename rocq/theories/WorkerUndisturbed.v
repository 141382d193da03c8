(** C53, continued: without an abort-all an execution is never cut off. *)
From Coq Require Import List Arith NArith Lia Bool.
From Verif Require Import Base BaseFacts RetryModel WorkerModel WorkerSpec WorkerProofs WorkerFacts WorkerInv WorkerProps SystemModel FleetModel FleetSpec FleetProofs.
Import ListNotations.
Open Scope nat_scope.

Lemma no_signal : forall ident tr s t sn st, reaches ident tr s -> w_main s = WpRun t sn st -> (forall tm, ~ In (tm, ACommand abort_all) (w_log s)) ->
  negb (Nat.eqb sn (w_ver s)) && Nat.eqb (w_val s) abort_all = false.
Proof.
  intros ident tr s t sn st R M NC. destruct (negb _ && _) eqn:C; [|reflexivity]. exfalso.
  assert (S : exists s', w_step s (WPoll true None) = Some s' /\ w_log s' = (w_now s, ASignal (cur s)) :: w_log s) by (cbn [w_step]; rewrite M; eexists; split; [reflexivity|]; unfold poll_select, poll_signal; rewrite C; reflexivity).
  destruct S as (s' & S & L). assert (R' : reaches ident (tr ++ [WPoll true None]) s') by (unfold reaches in *; apply run_from_app; exists s; split; [exact R|]; cbn [run_from]; now rewrite S).
  destruct (C37_cause _ _ _ (w_now s) (cur s) R') as (tm & Q); [rewrite L; now left|]. apply later_in in Q. destruct Q as [_ Q]. rewrite L in Q. destruct Q as [Q|Q]; [discriminate Q|exact (NC _ Q)].
Qed.
(** Whatever other commands came and whichever jobs failed: as long as no abort-all was received and commands can still come, an execution goes on until it has an outcome, and that is acted upon. *)
Theorem C53_undisturbed_partial : forall ident tr s t sn st sf r, reaches ident tr s -> w_main s = WpRun t sn st -> w_lis s <> LisGone ->
  (forall tm, ~ In (tm, ACommand abort_all) (w_log s)) ->
  exists s', w_step s (WPoll sf r) = Some s' /\
    match r with Some o => w_main s' = finished t o | None => exists sn', w_main s' = WpRun t sn' true end /\ forall tm i, ~ In (tm, ASignal i) (w_log s').
Proof.
  intros ident tr s t sn st sf r R M LG NC. pose proof (no_signal _ _ _ _ _ _ R M NC) as C.
  assert (S : exists s', w_step s (WPoll sf r) = Some s') by (cbn [w_step]; rewrite M; eauto). destruct S as (s' & S). exists s'. split; [exact S|].
  assert (R' : reaches ident (tr ++ [WPoll sf r]) s') by (unfold reaches in *; apply run_from_app; exists s; split; [exact R|]; cbn [run_from]; now rewrite S).
  assert (G : forall tm i, ~ In (tm, ASignal i) (w_log s')).
  { intros tm i I. destruct (C37_cause _ _ _ tm i R' I) as (tm' & Q). apply later_in in Q. destruct Q as [_ Q]. assert (Z : commands (w_log s') = commands (w_log s)) by (apply (step_commands s (WPoll sf r)); [exact S|discriminate]).
    assert (Y : In abort_all (commands (w_log s'))) by (apply in_commands; eauto). rewrite Z in Y. apply in_commands in Y. destruct Y as (tm2 & Y). exact (NC _ Y). }
  split; [|exact G]. clear R' G. cbn [w_step] in S. rewrite M in S. injection S as <-. unfold poll_select. destruct sf.
  - assert (P : exists s1, poll_signal s t sn st = s1 /\ w_main s1 = WpRun t (w_ver s) st) by (unfold poll_signal; rewrite C; destruct (w_lis s); [| |contradiction]; eauto).
    destruct P as (s1 & -> & M1). rewrite M1. destruct (exec_main s1 t (w_ver s) st r M1) as (_ & _ & _ & _ & E). destruct r; [exact E|eauto].
  - destruct (exec_main s t sn st r M) as (_ & V & X & L & E). destruct r as [o|]; [destruct o; cbn [finished] in *; rewrite E; exact E|].
    rewrite E. unfold poll_signal. rewrite V, X, C, L. destruct (w_lis s); [| |contradiction]; cbn; eauto.
Qed.
Print Assumptions C53_undisturbed_partial.
(** A task of job 7 runs after one of job 8 has failed and while job 5 is aborted. *)
Example C53_undisturbed_case : exists s, reaches 99 (bad ++ firstn 4 (next_task (mkT 7 1) None) ++ [WCommand 5; WSend; WPoll true None]) s /\ (exists sn, w_main s = WpRun (mkT 7 1) sn true) /\ w_lis s <> LisGone /\
  w_ver s = 1 /\ w_val s = 5 /\ forall tm, ~ In (tm, ACommand abort_all) (w_log s).
Proof. eexists. split; [vm_compute; reflexivity|]. split; [eexists; reflexivity|]. split; [discriminate|]. split; [reflexivity|]. split; [reflexivity|]. intros tm I. cbn in I. repeat (destruct I as [I|I]; [discriminate I|]). exact I. Qed.
