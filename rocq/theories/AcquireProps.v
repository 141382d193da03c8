(** C79: a lease leaves no queue behind. *)
From Coq Require Import List Bool Lia.
From Verif Require Import Base BaseFacts AcquireModel.
Import ListNotations.

(** The lease is over and nothing is on its way any more. *)
Definition over (s : acq) : Prop := a_phase s = Ended /\ a_wire s = [] /\ a_spawned s = false.
(** Said of the events alone: the lease was given to the caller, which takes three good answers; it was given up after the queue was asked for. *)
Fixpoint answers (tr : list a_event) : nat := match tr with AReply true :: r => S (answers r) | _ :: r => answers r | [] => 0 end.
Definition given_up_late (tr : list a_event) : Prop := answers tr = 1 \/ answers tr = 2.
Definition deletion_lost (tr : list a_event) : Prop := In ALost tr.

Lemma answers_app : forall a b, answers (a ++ b) = answers a + answers b.
Proof. induction a as [|[[|]| | | |] a IH]; intros b; cbn; rewrite ?IH; auto. Qed.
(** Invariant over runs. *)
Definition has (r : request) (l : list request) : Prop := In r l.
Definition inv (tr : list a_event) (s : acq) : Prop :=
  match a_phase s with
  | Asking => answers tr = 0 /\ a_wire s = [] /\ a_queue s = false /\ a_spawned s = false /\ ~ In ALost tr
  | Declaring => answers tr = 1 /\ a_spawned s = false /\ ~ In ALost tr /\ (a_wire s = [Declare] /\ a_queue s = false \/ a_wire s = [] /\ a_queue s = true)
  | Consuming => answers tr = 2 /\ a_spawned s = false /\ ~ In ALost tr /\ (a_wire s = [Consume] \/ a_wire s = []) /\ a_queue s = true
  | Held => answers tr = 3 /\ a_spawned s = false /\ ~ In ALost tr /\ a_wire s = [] /\ a_queue s = true
  | Ended =>
      answers tr = 0 /\ a_spawned s = false /\ ~ In ALost tr /\ a_wire s = [] /\ a_queue s = false \/
      answers tr = 1 /\ a_spawned s = false /\ ~ In ALost tr /\ (a_wire s = [Declare] \/ a_wire s = [] /\ a_queue s = true) \/
      answers tr = 2 /\ a_spawned s = false /\ ~ In ALost tr /\ (a_wire s = [Consume] \/ a_wire s = []) /\ a_queue s = true \/
      answers tr = 3 /\ (a_spawned s = true /\ ~ In ALost tr /\ a_wire s = [] /\ a_queue s = true \/
                         a_spawned s = false /\ In ALost tr /\ a_wire s = [] /\ a_queue s = true \/
                         a_spawned s = false /\ ~ In ALost tr /\ (a_wire s = [Delete] \/ a_wire s = [] /\ a_queue s = false))
  end.
Lemma snoc_lost : forall tr e, e <> ALost -> (In ALost (tr ++ [e]) <-> In ALost tr).
Proof. intros tr e NE. rewrite in_app_iff. cbn. split; [intros [H|[H|[]]]; [exact H|congruence]|auto]. Qed.
Lemma inv_step : forall tr s e s', inv tr s -> a_step s e = Some s' -> inv (tr ++ [e]) s'.
Proof.
  intros tr [p w q d] e s' I H. unfold inv in *. cbn [a_phase a_wire a_queue a_spawned] in *.
  assert (LOST : e = ALost -> In ALost (tr ++ [e])) by (intros ->; apply in_or_app; right; now left).
  pose proof (snoc_lost tr e) as SN. rewrite answers_app. destruct e as [[|]| | | |]; try (destruct (SN ltac:(discriminate)) as [SN1 SN2]); clear SN; cbn [answers];
    destruct p; cbn in H; try discriminate H;
    repeat match goal with
    | I : _ /\ _ |- _ => destruct I
    | I : _ \/ _ |- _ => destruct I
    end; subst; cbn in H; try discriminate H; try (injection H as <-); cbn [a_phase a_wire a_queue a_spawned app];
    try specialize (LOST eq_refl); rewrite ?PeanoNat.Nat.add_0_r; repeat match goal with E : answers tr = _ |- _ => rewrite E end; intuition (auto; try discriminate; try lia).
Qed.
Lemma inv_run : forall tr s, run_from a_step a_init tr = Some s -> inv tr s.
Proof.
  intros tr. induction tr as [|e tr IH] using rev_ind; intros s H; [injection H as <-; cbn; intuition|].
  apply run_from_app in H. destruct H as (s0 & R & H). cbn in H. destruct (a_step s0 e) as [s1|] eqn:S; [|discriminate]. injection H as <-. exact (inv_step tr s0 e s1 (IH s0 R) S).
Qed.

(** C79: once a lease is over, its queue is gone. A lease given up, or failing, while the consumer is declared leaves the queue; nobody else knows its name. *)
Theorem C79_refuted : exists tr s, run_from a_step a_init tr = Some s /\ over s /\ ~ In ALost tr /\ a_queue s = true.
Proof.
  exists [AReply true; ABroker; AReply true; ADrop; ABroker]. eexists. split; [reflexivity|]. split; [repeat split|]. split; [|reflexivity]. cbn. intuition discriminate.
Qed.
(** Exactly then, or when the process ended before the deletion started. *)
Theorem C79_iff_partial : forall tr s, run_from a_step a_init tr = Some s -> over s -> (a_queue s = true <-> given_up_late tr \/ deletion_lost tr).
Proof.
  intros tr s H (P & W & D). pose proof (inv_run tr s H) as I. unfold inv in I. rewrite P, W, D in I. unfold given_up_late, deletion_lost.
  destruct I as [(A & _ & L & _ & Q)|[(A & _ & L & [Q|[_ Q]])|[(A & _ & L & _ & Q)|(A & [(Q & _)|[(_ & L & _ & Q)|(_ & L & [Q|[_ Q]])]])]]]; try discriminate Q; rewrite Q, A; intuition (try discriminate; try lia).
Qed.
(** A lease that was given to the caller and dropped leaves nothing: what is needed can always happen. *)
Theorem C79_held : forall tr s, run_from a_step a_init tr = Some s -> a_phase s = Held -> exists s', run_from a_step s [ADrop; ARun; ABroker] = Some s' /\ over s' /\ a_queue s' = false.
Proof.
  intros tr s H P. pose proof (inv_run tr s H) as I. unfold inv in I. rewrite P in I. destruct s as [p w q d]. cbn in *. subst p. destruct I as (_ & -> & _ & -> & ->). eexists. split; [reflexivity|]. repeat split.
Qed.
(** A lease that is under way can still be handed out, with its queue on the broker. *)
Theorem C79_can_succeed : forall tr s, run_from a_step a_init tr = Some s -> a_phase s <> Ended ->
  exists tr' s', run_from a_step s tr' = Some s' /\ a_phase s' = Held /\ a_queue s' = true /\ Forall (fun e => e = AReply true \/ e = ABroker) tr'.
Proof.
  intros tr s H P. pose proof (inv_run tr s H) as I. unfold inv in I. destruct s as [p w q d]. cbn in *. destruct p; [| | | |congruence].
  - destruct I as (_ & -> & -> & -> & _). exists [AReply true; ABroker; AReply true; ABroker; AReply true]. eexists. split; [reflexivity|]. split; [reflexivity|]. split; [reflexivity|]. repeat (apply Forall_cons; [auto|]). apply Forall_nil.
  - destruct I as (_ & _ & _ & [[-> ->]|[-> ->]]); [exists [ABroker; AReply true; ABroker; AReply true]|exists [AReply true; ABroker; AReply true]]; eexists; (split; [reflexivity|]); (split; [reflexivity|]); (split; [reflexivity|]); repeat (apply Forall_cons; [auto|]); apply Forall_nil.
  - destruct I as (_ & _ & _ & [->| ->] & ->); [exists [ABroker; AReply true]|exists [AReply true]]; eexists; (split; [reflexivity|]); (split; [reflexivity|]); (split; [reflexivity|]); repeat (apply Forall_cons; [auto|]); apply Forall_nil.
  - destruct I as (_ & _ & _ & -> & ->). exists []. eexists. split; [reflexivity|]. repeat split; constructor.
Qed.
Example C79_example : exists s, run_from a_step a_init [AReply true; ABroker; AReply true; ABroker; AReply true] = Some s /\ a_phase s = Held /\ a_queue s = true.
Proof. eexists. split; [reflexivity|]. split; reflexivity. Qed.
Example C79_early : exists s, run_from a_step a_init [AReply false] = Some s /\ over s /\ a_queue s = false.
Proof. eexists. split; [reflexivity|]. repeat split. Qed.
Print Assumptions C79_refuted.
Print Assumptions C79_iff_partial.
Print Assumptions C79_held.
Print Assumptions C79_can_succeed.
