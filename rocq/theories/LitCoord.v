(** C94, the literal: its future, which repeats the channel's counters in LiteralModel, is a user of the coordinated channel too. *)
From Coq Require Import List Arith NArith Bool Lia.
From Verif Require Import Base BaseFacts CoordModel CoordSpec LiteralModel LiteralProps.
Import ListNotations.
Open Scope nat_scope.

Section LitSim.
Context {A B E O : Type}.
Variable exec : O -> A -> res E B.
Variable x : A.
Notation st := (lstate A B E).
Notation step := (l_step exec x).

(** The channel as the future sees it. *)
Record l_agrees (s : st) (c : chan) : Prop := {
  la_closed : ch_closed c = l_closed s;
  la_pending : ch_pending c = l_pending s;
  la_sent : ch_sent c = if l_accepted s then 1 else 0;
  la_ends : ends c = match l_phase s with LpDone (RErr LeNoResults) => 1 | _ => 0 end;
  la_received : length (ch_ackers c) = match l_phase s with LpAck _ | LpDone (ROk _) | LpDone (RErr (LeAck _)) | LpDone (RErr (LeOp _)) => 1 | _ => 0 end;
  la_confirmed : length (ch_subs c) = match l_phase s with LpDone (ROk _) | LpDone (RErr (LeOp _)) => 1 | _ => 0 end;
  la_idle : ch_poll c = PollIdle
}.
Record lrel (s : st) (c : chan) : Prop := {
  lr_agrees : l_agrees s c;
  lr_env : length (l_tasks s) + length (l_results s) <= ch_inflight c + ch_avail c;
  lr_pubs : ch_pubs c = match l_phase s with
                        | LpLease => []
                        | LpPublish => [if l_accepted s then PubSent else PubInner]
                        | LpClose | LpNext | LpAck _ => [PubDone PubOk]
                        | LpDone _ => ch_pubs c
                        end;
  lr_rest : match l_phase s with
            | LpLease => l_pending s = 0%N /\ l_closed s = false /\ l_accepted s = false
            | LpPublish => l_closed s = false
            | LpClose => l_closed s = false /\ ch_closes c = []
            | LpNext => ch_ackers c = [] /\ ch_acks c = []
            | LpAck _ => ch_ackers c = [false] /\ ch_acks c = []
            | LpDone _ => True
            end;
  lr_before : match l_phase s with LpLease | LpPublish => ch_closes c = [] /\ ch_ackers c = [] /\ ch_acks c = []
              | LpClose => ch_ackers c = [] /\ ch_acks c = [] | _ => True end
}.
Definition l_dup (e : levent E O) : bool := match e with LDupTask _ | LDupResult _ => true | _ => false end.
Definition l_stop (e : levent E O) : bool := match e with LOver => true | _ => false end.

Ltac fin := split; [repeat constructor; discriminate|]; split; [intros; repeat constructor; discriminate|]; constructor; [constructor|..]; cbn; auto.
Lemma lit_step_sim : forall s c e s', lrel s c -> step s e = Some s' ->
  exists ctr c', run_from chan_step c ctr = Some c' /\ (l_dup e = false -> CoordSpec.no_dup ctr) /\ (l_stop e = false -> inner_never_ends ctr) /\ lrel s' c'.
Proof.
  intros s c e s' RL H. destruct RL as [[A1 A2 A3 A4 A5 A6 A7] EV PU RE BE].
  destruct s as [ph pe cl ac ts rs ov]. cbn [l_phase l_pending l_closed l_accepted l_tasks l_results l_over] in *.
  destruct c as [ccl cpe pubs closes infl av lost ackers acks poll log sent subs calls]. unfold ends in A4. cbn [ch_closed ch_pending ch_pubs ch_closes ch_inflight ch_avail ch_lost ch_ackers ch_acks ch_poll ch_log ch_sent ch_subs ch_calls] in *.
  subst ccl cpe poll.
  destruct e as [[er|]| |[er|]|[er|]|i| | |[er|]|i o|i|i|i|i|]; cbn [l_step l_phase l_tasks l_results l_over l_closed l_pending l_accepted] in H.
  - destruct ph; try discriminate H. injection H as <-. exists []. eexists. split; [reflexivity|]. fin.
  - destruct ph; try discriminate H. destruct RE as (-> & -> & ->). injection H as <-. subst pubs. destruct BE as (-> & -> & ->).
    exists [EvPublish; EvPubStep 0 true; EvPubStep 0 true]. eexists. split; [reflexivity|]. fin.
  - destruct ph; try discriminate H. subst pubs cl. destruct BE as (-> & -> & ->). cbn [l_accepted] in H. destruct ac; [discriminate H|]. injection H as <-.
    exists [EvPubStep 0 true]. eexists. split; [reflexivity|]. fin; lia.
  - destruct ph; try discriminate H. subst pubs cl. injection H as <-. destruct ac.
    + exists [EvPubStep 0 false]. eexists. split; [reflexivity|]. fin.
    + exists [EvPubStep 0 false]. eexists. split; [reflexivity|]. fin.
  - destruct ph; try discriminate H. subst pubs cl. destruct BE as (-> & -> & ->). cbn [l_accepted] in H. destruct ac; [|discriminate H]. injection H as <-.
    exists [EvPubStep 0 true]. eexists. split; [reflexivity|]. fin.
  - destruct ph; try discriminate H. injection H as <-. destruct RE as (-> & ->).
    exists [EvClose; EvCloseStep 0 false]. eexists. split; [reflexivity|]. fin.
  - destruct ph; try discriminate H. injection H as <-. destruct RE as (-> & ->). destruct BE as (-> & ->).
    exists [EvClose; EvCloseStep 0 true; EvCloseStep 0 true; EvCloseStep 0 true]. eexists. split; [reflexivity|]. fin.
  - destruct ph; try discriminate H. cbn [l_over l_results l_pending l_closed l_accepted l_tasks] in H. destruct ov; [discriminate H|]. destruct (pick i rs) as [[r rest]|] eqn:K; [|discriminate H]. injection H as <-.
    apply pick_length in K. destruct RE as (-> & ->). destruct av as [|av].
    + destruct infl as [|infl]; [lia|]. exists [EvResult; EvPoll; EvPollInner RItem]. eexists. split; [reflexivity|]. fin; lia.
    + exists [EvPoll; EvPollInner RItem]. eexists. split; [reflexivity|]. fin; lia.
  - destruct ph; try discriminate H. cbn [l_over l_results l_closed l_pending] in H. destruct ov; [discriminate H|]. destruct rs as [|r rs]; [|discriminate H]. destruct RE as (-> & ->).
    exists [EvPoll; EvPollInner RPending; EvPollStep; EvPollStep]. eexists. split; [cbn; reflexivity|].
    destruct (cl && (pe =? 0)%N) eqn:G; injection H as <-; fin; unfold ends; cbn; try rewrite G; cbn; auto.
  - destruct ph; try discriminate H. cbn [l_over l_pending] in H. destruct ov; [|discriminate H]. destruct RE as (-> & ->).
    exists [EvPoll; EvPollInner RNone; EvPollStep]. eexists. split; [cbn; reflexivity|]. split; [repeat constructor; discriminate|]. split; [discriminate|].
    destruct (pe =? 0)%N eqn:G; injection H as <-; (constructor; [constructor|..]); cbn; auto; unfold ends; cbn; rewrite ?G; cbn; auto.
  - destruct ph as [| | | |r|r]; try discriminate H. injection H as <-. exists []. eexists. split; [reflexivity|]. fin.
  - destruct ph as [| | | |r|r]; try discriminate H. injection H as <-. destruct RE as (-> & ->).
    exists [EvAck 0; EvAckStep 0; EvAckStep 0]. eexists. split; [reflexivity|]. fin; destruct r; auto. all: cbn; lia.
  - destruct (pick i ts) as [[a rest]|] eqn:K; [|discriminate H]. injection H as <-. apply pick_length in K.
    exists []. eexists. split; [reflexivity|]. fin. rewrite app_length. cbn. lia.
  - destruct (pick i ts) as [[a rest]|] eqn:K; [|discriminate H]. injection H as <-. apply pick_length in K.
    exists []. eexists. split; [reflexivity|]. fin. lia.
  - destruct (pick i rs) as [[a rest]|] eqn:K; [|discriminate H]. injection H as <-. apply pick_length in K.
    exists []. eexists. split; [reflexivity|]. fin. lia.
  - destruct (nth_error ts i) as [a|] eqn:K; [|discriminate H]. injection H as <-.
    exists [EvDupResult]. eexists. split; [reflexivity|]. split; [discriminate|]. split; [repeat constructor; discriminate|]. constructor; [constructor|..]; cbn; auto. lia.
  - destruct (nth_error rs i) as [a|] eqn:K; [|discriminate H]. injection H as <-.
    exists [EvDupResult]. eexists. split; [reflexivity|]. split; [discriminate|]. split; [repeat constructor; discriminate|]. constructor; [constructor|..]; cbn; auto. lia.
  - destruct ov; [destruct ph; discriminate H|]. assert (Q : s' = mkL ph pe cl ac ts rs true) by (destruct ph; injection H as <-; reflexivity). subst s'.
    exists []. eexists. split; [reflexivity|]. fin.
Qed.

Lemma lrel_init : lrel l_init chan_init.
Proof. constructor; [constructor|..]; cbn; auto. Qed.
Lemma lit_sim : forall tr s c s', lrel s c -> run_from step s tr = Some s' ->
  exists ctr c', run_from chan_step c ctr = Some c' /\ (Forall (fun e => l_dup e = false) tr -> CoordSpec.no_dup ctr) /\
    (Forall (fun e => l_stop e = false) tr -> inner_never_ends ctr) /\ lrel s' c'.
Proof.
  induction tr as [|e tr IH]; intros s c s' RL H; cbn [run_from] in H.
  - injection H as <-. exists [], c. split; [reflexivity|]. split; [intros; constructor|]. split; [intros; constructor|exact RL].
  - destruct (step s e) as [s1|] eqn:S; [|discriminate H].
    destruct (lit_step_sim s c e s1 RL S) as (ct1 & c1 & R1 & N1 & I1 & L1).
    destruct (IH s1 c1 s' L1 H) as (ct2 & c2 & R2 & N2 & I2 & L2).
    exists (ct1 ++ ct2), c2. split; [apply run_from_app; eauto|].
    split; [intros F; inversion F; subst; apply Forall_app; split; [now apply N1|now apply N2]|].
    split; [intros F; inversion F; subst; apply Forall_app; split; [now apply I1|now apply I2]|exact L2].
Qed.
(** Every execution of the future, cut anywhere, is an execution of the coordinated channel cut at the corresponding point. *)
Theorem C94_literal : forall tr1 tr2 s1 s2, run_from step l_init tr1 = Some s1 -> run_from step s1 tr2 = Some s2 ->
  exists ct1 ct2 c1 c2, chan_run ct1 = Some c1 /\ run_from chan_step c1 ct2 = Some c2 /\ l_agrees s1 c1 /\ l_agrees s2 c2 /\
    (Forall (fun e => l_dup e = false) (tr1 ++ tr2) -> CoordSpec.no_dup (ct1 ++ ct2)) /\
    (Forall (fun e => l_stop e = false) (tr1 ++ tr2) -> inner_never_ends (ct1 ++ ct2)).
Proof.
  intros tr1 tr2 s1 s2 R1 R2.
  destruct (lit_sim tr1 _ _ _ lrel_init R1) as (ct1 & c1 & Q1 & N1 & I1 & L1).
  destruct (lit_sim tr2 _ _ _ L1 R2) as (ct2 & c2 & Q2 & N2 & I2 & L2).
  exists ct1, ct2, c1, c2. split; [exact Q1|]. split; [exact Q2|]. split; [apply L1|]. split; [apply L2|].
  split; intros F; apply Forall_app in F as [F1 F2]; apply Forall_app; split; first [now apply N1|now apply N2|now apply I1|now apply I2].
Qed.
End LitSim.
Print Assumptions C94_literal.

(** The example of C48: four, ten times. The same counts on a run of the channel. *)
Example C94_example_literal :
  option_map (fun s => (l_closed s, l_pending s, l_accepted s, l_ret s)) (run_from (l_step lit_exec 4) l_init lit_trace) = Some (true, 0%N, true, Some (ROk 40)) /\
  option_map (fun c => (ch_closed c, ch_pending c, ch_sent c, ends c, length (ch_ackers c), length (ch_subs c)))
    (chan_run [EvPublish; EvPubStep 0 true; EvPubStep 0 true; EvPubStep 0 true; EvPubStep 0 true; EvClose; EvCloseStep 0 true; EvCloseStep 0 true; EvCloseStep 0 true;
       EvPoll; EvPollInner RPending; EvPollStep; EvPollStep; EvResult; EvPoll; EvPollInner RItem; EvAck 0; EvAckStep 0; EvAckStep 0])
  = Some (true, 0%N, 1, 0, 1, 1).
Proof. split; vm_compute; reflexivity. Qed.
