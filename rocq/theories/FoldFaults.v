(** C05, continued: failures of the calls a fold makes itself (publishing, acknowledging, closing). *)
From Coq Require Import List NArith Bool Permutation Lia.
From Verif Require Import Base BaseFacts ContiguousModel FoldModel FoldSpec FoldProofs FoldLive FoldProps.
Import ListNotations.
Open Scope N_scope.

(** * Spec *)
(** Events in which a call of the fold's own returned an error. *)
Definition failed_call {O : Type} (e : fevent O) : bool :=
  match e with EvPublish _ false | EvResult _ false | EvFinal false => true | _ => false end.
(** [x] is how the failed call [e] is reported. A result that is itself an error is reported before it is acknowledged. *)
Definition reports {O E : Type} (e : fevent O) (x : ferr E) : Prop :=
  match e with
  | EvPublish _ false => x = ErrPublish
  | EvFinal false => x = ErrClose
  | EvResult _ false => x = ErrAck \/ exists y, x = ErrWorker y
  | _ => False
  end.

Section Faults.
  Context {A E O : Type} (comb : O -> A -> A -> res E A) (empty : A).

  Lemma failed_call_step : forall s e s', failed_call e = true -> fold_step comb empty s e = Some s' ->
    exists x, f_ret s' = Some (RetErr x) /\ reports e x.
  Proof.
    intros s e s' F H. unfold fold_step in H. destruct (f_ret s); [discriminate|].
    destruct e as [| |i [|]|i o|i [|]|[|]|i|i|i|i]; try discriminate F.
    - destruct (pick i (f_chan s)) as [[t c]|]; [|discriminate]. injection H as <-. exists ErrPublish. split; reflexivity.
    - destruct (2 <=? f_count s); [|discriminate]. destruct (pick i (f_results s)) as [[r rs]|]; [|discriminate]. injection H as <-.
      unfold on_result. destruct r as [it|y].
      + destruct (_ && _); exists ErrAck; split; cbn; auto.
      + exists (ErrWorker y). cbn. eauto.
    - destruct (f_final s); [|discriminate]. injection H as <-. exists ErrClose. split; reflexivity.
  Qed.

  Lemma returned_stops : forall tr s s' o, f_ret s = Some o -> run_from (fold_step comb empty) s tr = Some s' -> tr = [] /\ s' = s.
  Proof.
    intros [|e tr] s s' o R H; cbn in H; [injection H as <-; auto|]. unfold fold_step in H. rewrite R in H. discriminate.
  Qed.

  (** A call that fails makes the fold return, at once, the error that belongs to it. *)
  Theorem C05_failed_call_reported : forall inp tr s e,
    fold_run comb empty inp tr = Some s -> In e tr -> failed_call e = true ->
    exists x, f_ret s = Some (RetErr x) /\ reports e x.
  Proof.
    intros inp tr s e R I F. apply in_split in I. destruct I as (t1 & t2 & ->). unfold fold_run in R.
    apply run_from_app in R. destruct R as (s1 & R1 & R2). cbn in R2. destruct (fold_step comb empty s1 e) as [s2|] eqn:ST; [|discriminate].
    destruct (failed_call_step s1 e s2 F ST) as (x & X & P). destruct (returned_stops t2 s2 s (RetErr x) X R2) as [_ ->]. eauto.
  Qed.

  Lemma return_step : forall s e s' x, f_ret s = None -> fold_step comb empty s e = Some s' -> f_ret s' = Some (RetErr x) ->
    (exists y rest, x = ErrInput y /\ f_inp s = RErr y :: rest) \/ (exists y, x = ErrWorker y /\ In (RErr y) (f_results s)) \/
    (failed_call e = true /\ reports e x) \/ (x = ErrTxTaken /\ (exists i, e = EvResult i true) /\ exists it, f_final s = Some it).
  Proof.
    assert (TD : forall (s : fstate A E) it, f_ret (try_dispatch s it) = f_ret s).
    { intros s it. unfold try_dispatch. destruct (cq_acquire _ _ _ _) as [[[l r]|] q]; reflexivity. }
    intros s e s' x N H X. unfold fold_step in H. rewrite N in H.
    destruct e as [| |i ok|i o|i ack|ok|i|i|i|i].
    - destruct (f_inp s) as [|[it|y] rest]; [discriminate| |]; injection H as <-.
      + exfalso. unfold on_input in X. destruct (_ <? 2); [|rewrite TD in X]; cbn in X; congruence.
      + left. cbn in X. injection X as <-. eauto.
    - destruct (f_inp s); [|discriminate]. destruct (f_ended s); [discriminate|]. injection H as <-. exfalso. unfold on_input_end in X.
      destruct (_ =? 0); [discriminate X|]. destruct (_ =? 1); [|cbn in X; congruence].
      destruct (cq_dequeue _ _) as [[it|] q]; discriminate X.
    - destruct (pick i (f_chan s)) as [[t c]|]; [|discriminate]. destruct ok; injection H as <-; cbn in X; [congruence|].
      injection X as <-. right. right. left. split; reflexivity.
    - destruct (pick i (f_tasks s)) as [[t ts]|]; [|discriminate]. injection H as <-. cbn in X. congruence.
    - destruct (2 <=? f_count s); [|discriminate]. destruct (pick i (f_results s)) as [[r rs]|] eqn:PK; [|discriminate]. injection H as <-.
      unfold on_result in X. destruct r as [it|y].
      + destruct (f_ended _ && _); destruct ack.
        * cbn [f_final set_results] in X. destruct (f_final s) as [it'|] eqn:FF; cbn in X; [|congruence].
          injection X as <-. right. right. right. eauto 6.
        * cbn in X. injection X as <-. right. right. left. cbn. auto.
        * rewrite TD in X. cbn in X. congruence.
        * cbn in X. injection X as <-. right. right. left. cbn. auto.
      + cbn in X. injection X as <-. right. left. exists y. split; [reflexivity|]. eapply pick_in; exact PK.
    - destruct (f_final s); [|discriminate]. destruct ok; injection H as <-; cbn in X; [congruence|]. injection X as <-.
      right. right. left. split; reflexivity.
    - destruct (pick i (f_tasks s)) as [[t ts]|]; [|discriminate]. injection H as <-. cbn in X. congruence.
    - destruct (pick i (f_results s)) as [[t ts]|]; [|discriminate]. injection H as <-. cbn in X. congruence.
    - destruct (nth_error (f_tasks s) i); [|discriminate]. injection H as <-. cbn in X. congruence.
    - destruct (nth_error (f_results s) i); [|discriminate]. injection H as <-. cbn in X. congruence.
  Qed.

  Lemma inp_suffix : forall s e s', fold_step comb empty s e = Some s' -> exists pre, f_inp s = pre ++ f_inp s'.
  Proof.
    assert (TD : forall (s : fstate A E) it, f_inp (try_dispatch s it) = f_inp s).
    { intros s it. unfold try_dispatch. destruct (cq_acquire _ _ _ _) as [[[l r]|] q]; reflexivity. }
    intros s e s' H. unfold fold_step in H. destruct (f_ret s); [discriminate|].
    destruct e as [| |i ok|i o|i ack|ok|i|i|i|i].
    - destruct (f_inp s) as [|[it|y] rest]; [discriminate| |]; injection H as <-.
      + exists [ROk it]. unfold on_input. destruct (_ <? 2); [|rewrite TD]; reflexivity.
      + exists [RErr y]. reflexivity.
    - destruct (f_inp s) eqn:IN; [|discriminate]. destruct (f_ended s); [discriminate|]. injection H as <-. exists []. unfold on_input_end.
      destruct (_ =? 0); [exact (eq_sym IN)|]. destruct (_ =? 1); [|exact (eq_sym IN)].
      destruct (cq_dequeue _ _) as [[it|] q]; exact (eq_sym IN).
    - destruct (pick i (f_chan s)) as [[t c]|]; [|discriminate]. exists []. destruct ok; injection H as <-; reflexivity.
    - destruct (pick i (f_tasks s)) as [[t ts]|]; [|discriminate]. injection H as <-. now exists [].
    - destruct (2 <=? f_count s); [|discriminate]. destruct (pick i (f_results s)) as [[r rs]|]; [|discriminate]. injection H as <-. exists [].
      unfold on_result. destruct r as [it|y]; [|reflexivity].
      destruct (f_ended _ && _); destruct ack; try reflexivity; [|cbn [app]; now rewrite TD|cbn; now rewrite TD].
      cbn [f_final set_results]. destruct (f_final s); reflexivity.
    - destruct (f_final s); [|discriminate]. injection H as <-. now exists [].
    - destruct (pick i (f_tasks s)) as [[t ts]|]; [|discriminate]. injection H as <-. now exists [].
    - destruct (pick i (f_results s)) as [[t ts]|]; [|discriminate]. injection H as <-. now exists [].
    - destruct (nth_error (f_tasks s) i); [|discriminate]. injection H as <-. now exists [].
    - destruct (nth_error (f_results s) i); [|discriminate]. injection H as <-. now exists [].
  Qed.
  Lemma inp_suffix_run : forall tr s s', run_from (fold_step comb empty) s tr = Some s' -> exists pre, f_inp s = pre ++ f_inp s'.
  Proof.
    induction tr as [|e tr IH]; intros s s' H; cbn in H; [injection H as <-; now exists []|].
    destruct (fold_step comb empty s e) as [s1|] eqn:ST; [|discriminate].
    destruct (inp_suffix s e s1 ST) as (p & P). destruct (IH s1 s' H) as (q & Q). exists (p ++ q). now rewrite P, Q, app_assoc.
  Qed.

  (** Conversely an error that a fold returns has a cause: an input error, an operation that failed with it, one of the fold's own
      calls that failed (it is then the last thing that happened), or a second final result ([ErrTxTaken]). *)
  Theorem C05_error_attributed : forall inp tr s x,
    fold_run comb empty inp tr = Some s -> f_ret s = Some (RetErr x) ->
    (exists y, x = ErrInput y /\ In (RErr y) inp) \/
    (exists y, x = ErrWorker y /\ exists o a b, comb o a b = RErr y) \/
    (exists tr' e, tr = tr' ++ [e] /\ failed_call e = true /\ reports e x) \/
    (x = ErrTxTaken /\ exists tr' i s', tr = tr' ++ [EvResult i true] /\ fold_run comb empty inp tr' = Some s' /\ f_final s' <> None).
  Proof.
    intros inp tr s x R X. destruct tr as [|e0 tr0] using rev_ind; [|clear IHtr0; rename tr0 into tr', e0 into e].
    { cbn in R. injection R as <-. discriminate X. }
    pose proof R as R0. unfold fold_run in R. apply run_from_app in R. destruct R as (s1 & R1 & R2). cbn in R2.
    destruct (fold_step comb empty s1 e) as [s2|] eqn:ST; [|discriminate]. injection R2 as ->.
    assert (N : f_ret s1 = None) by (unfold fold_step in ST; destruct (f_ret s1); [discriminate|reflexivity]).
    destruct (return_step s1 e s x N ST X) as [(y & rest & -> & Y)|[(y & -> & Y)|[[F P]|(-> & (i & ->) & it & FI)]]].
    - left. exists y. split; [reflexivity|]. destruct (inp_suffix_run tr' (fold_init inp) s1 R1) as (pre & Q). cbn in Q. rewrite Q, Y.
      apply in_or_app. right. now left.
    - right. left. exists y. split; [reflexivity|]. eapply worker_error_real; eauto.
    - right. right. left. exists tr', e. auto.
    - right. right. right. split; [reflexivity|].
      exists tr', i, s1. split; [reflexivity|]. split; [exact R1|]. congruence.
  Qed.

  (** Without faults, with items under consecutive indices and an operation that succeeds, no error is returned. *)
  Theorem C05_no_error_without_fault : forall base l arr tr s x,
    base + N.of_nat (length l) <= usize_max -> Permutation arr (index_from base l) -> (forall o a b, exists c, comb o a b = ROk c) ->
    fault_free tr -> fold_run comb empty (map ROk arr) tr = Some s -> f_ret s <> Some (RetErr x).
  Proof.
    intros base l arr tr s x B P T F R X.
    destruct (live_run A E O comb empty base l B T tr (fold_init (map ROk arr)) s) as [[I|[(v & V & _)|(V & _)]] _]; [|exact F|exact R| | |].
    - left. now apply pinv_init.
    - rewrite (p_ret _ _ _ _ _ _ _ _ I) in X. discriminate.
    - congruence.
    - congruence.
  Qed.
End Faults.
Print Assumptions C05_failed_call_reported.
Print Assumptions C05_error_attributed.
Print Assumptions C05_no_error_without_fault.

(** A fold whose last call, closing the channel, fails; and one of which an acknowledgement fails. *)
Example C05_faults_example :
  (exists s, fold_run cat [] (map ROk (index_from 0 [[1]; [2]]%nat))
     [EvInput; EvInput; EvPublish 0 true; EvWork 0 tt; EvInputEnd; EvResult 0 true; EvFinal false] = Some s /\
     f_ret s = Some (RetErr ErrClose)) /\
  (exists s, fold_run cat [] (map ROk (index_from 0 [[1]; [2]]%nat))
     [EvInput; EvInput; EvPublish 0 true; EvWork 0 tt; EvResult 0 false] = Some s /\ f_ret s = Some (RetErr ErrAck)) /\
  (exists s, fold_run cat [] (map ROk (index_from 0 [[1]; [2]]%nat))
     [EvInput; EvInput; EvPublish 0 true; EvWork 0 tt; EvDupResult 0; EvInputEnd; EvResult 0 true; EvResult 0 true] = Some s /\
     f_ret s = Some (RetErr ErrTxTaken)).
Proof. split; [|split]; eexists; (split; [vm_compute; reflexivity|reflexivity]). Qed.
