(** Nothing in the coordinated channel appears or disappears unaccounted for, also when results are delivered again. *)
From Coq Require Import List Arith NArith Bool Lia.
From Verif Require Import Base BaseFacts CoordModel CoordSpec CoordProofs.
Import ListNotations.
Open Scope nat_scope.

(** How often the environment delivers a result again, and loses one. *)
Definition dups (tr : list chan_event) : nat := length (filter (fun e => match e with EvDupResult => true | _ => false end) tr).
Definition losses (tr : list chan_event) : nat := length (filter (fun e => match e with EvLoseMsg => true | _ => false end) tr).
Lemma conserved_step : forall s e s' d l, chan_step s e = Some s' ->
  ch_sent s + d = ch_inflight s + ch_avail s + ch_lost s + length (ch_ackers s) -> ch_lost s = l ->
  ch_sent s' + (d + dups [e]) = ch_inflight s' + ch_avail s' + ch_lost s' + length (ch_ackers s') /\ ch_lost s' = l + losses [e].
Proof.
  intros s e s' d l H P L. destruct e; cbn [chan_step] in H; step_cases H; cbn in *; rewrite ?upd_length, ?app_length in *; cbn; lia.
Qed.
(** Every accepted message and every repeated result is in one place: on its way, waiting, lost or handed out. *)
Theorem C16_conserved : forall tr s, chan_run tr = Some s ->
  ch_sent s + dups tr = ch_inflight s + ch_avail s + ch_lost s + length (ch_ackers s) /\ ch_lost s = losses tr.
Proof.
  intros tr. unfold chan_run. induction tr as [|e tr IH] using rev_ind; intros s R.
  - injection R as <-. split; reflexivity.
  - apply run_from_app in R as (m & R1 & R2). cbn [run_from] in R2. destruct (chan_step m e) as [m'|] eqn:S; [|discriminate R2]. injection R2 as <-.
    destruct (IH m R1) as [P L]. destruct (conserved_step _ _ _ _ _ S P L) as [P' L']. unfold dups, losses in *. rewrite !filter_app, !app_length. split; assumption.
Qed.
Print Assumptions C16_conserved.
(** Three messages: one lost, one on its way, one whose result came twice and was taken once. *)
Example C16_conserved_ex : exists s, chan_run
  [EvPublish; EvPubStep 0 true; EvPubStep 0 true; EvPubStep 0 true; EvPublish; EvPubStep 1 true; EvPubStep 1 true; EvPubStep 1 true;
   EvLoseMsg; EvResult; EvDupResult; EvPoll; EvPollInner RItem; EvPublish; EvPubStep 2 true; EvPubStep 2 true; EvPubStep 2 true] = Some s /\
  ch_sent s = 3 /\ ch_inflight s = 1 /\ ch_avail s = 1 /\ ch_lost s = 1 /\ length (ch_ackers s) = 1.
Proof. eexists. split; [vm_compute; reflexivity|]. split; [reflexivity|]. split; [reflexivity|]. split; [reflexivity|]. split; reflexivity. Qed.
