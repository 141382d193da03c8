(** Every step of a joint run keeps what the clients know in line with the system. *)
From Coq Require Import List Arith NArith Lia Bool Permutation.
From Verif Require Import Base BaseFacts PublishModel MapModel MapSpec ContiguousModel FoldModel RetryModel WorkerModel WorkerSpec WorkerProofs WorkerFacts WorkerInv WorkerProps
  SystemModel SystemSpec SystemProofs SystemProps JointModel JointProofs.
Import ListNotations.
Open Scope nat_scope.

Section Joint.
Variable f : nat -> nat -> nat.
Variable g : nat -> nat -> nat -> nat.
Variable empty : nat -> nat.
Notation may := (may f g).
Notation step := (j_step f g empty).
Notation knows := (knows f g empty).

Definition jinv (s : joint) : Prop :=
  sinv may (j_sys s) /\ length (j_cl s) = length (y_dirs (j_sys s)) /\
  forall d dd c, nth_error (y_dirs (j_sys s)) d = Some dd -> nth_error (j_cl s) d = Some c -> knows (j_sys s) d dd c.

Lemma sinv_step : forall y e y', sinv may y -> y_step may y e = Some y' -> sinv may y'.
Proof.
  intros s e s' SI H. destruct e.
  - eapply sinv_lease; eauto.
  - eapply sinv_send; eauto.
  - eapply sinv_start; eauto.
  - eapply sinv_take; eauto.
  - eapply sinv_work; eauto.
  - eapply sinv_back; eauto.
  - eapply sinv_recv; eauto.
  - eapply sinv_release; eauto.
Qed.
Lemma old_sent : forall y n, sinv may y -> 0 < cnt (of_n n) (all_res y) -> n < length (y_sent y).
Proof.
  intros y n SI C. destruct (le_lt_dec (length (y_sent y)) n) as [G|]; [|assumption]. exfalso. assert (Z : cnt (of_n n) (all_res y) = 0); [|lia].
  apply cnt_zero. intros r I. destruct (res_origin _ _ _ SI I) as (d & x & dd & ws & o & S & _). apply Nat.eqb_neq. intros E.
  assert (nth_error (y_sent y) (r_n r) <> None) by (unfold dispatched in S; congruence). apply nth_error_Some in H. lia.
Qed.
Lemma frame_same : forall y y' d k, y_sent y' = y_sent y -> y_results y' = y_results y -> (forall h, cnt h (all_res y') = cnt h (all_res y)) -> (forall p, In p (y_back y) -> In p (y_back y')) -> frame y y' d k.
Proof.
  intros y y' d k S R A B. constructor.
  - intros n x. now rewrite S.
  - unfold queue_of. now rewrite R.
  - intros n x _. apply A.
  - intros N n x H. specialize (N n x). rewrite S in N. specialize (N H). apply cnt_zero. intros p I. exact (proj1 (cnt_zero _ _ _) N p (B _ I)).
Qed.
Lemma one_more : forall (S E : Type) (st : S -> E -> option S) tr s0 s e s', run_from st s0 tr = Some s -> st s e = Some s' -> run_from st s0 (tr ++ [e]) = Some s'.
Proof. intros S E st tr s0 s e s' R H. apply run_from_app. exists s. split; [exact R|]. cbn. now rewrite H. Qed.
Lemma no_dup_snoc : forall (O : Type) (tr : list (m_event O)) e, no_dup tr -> duplicates e = false -> no_dup (tr ++ [e]).
Proof. intros O tr e N D e' I. apply in_app_or in I. destruct I as [I|[<-|[]]]; auto. Qed.
Lemma no_loss_snoc : forall (O : Type) (tr : list (m_event O)) e, (forall e, In e tr -> loses e = false) -> loses e = false -> forall e', In e' (tr ++ [e]) -> loses e' = false.
Proof. intros O tr e N D e' I. apply in_app_or in I. destruct I as [I|[<-|[]]]; auto. Qed.

(** A step of one client, nothing else changing. *)
Lemma client_step : forall y cl d dd c c' y', jinv (mkJ y cl) -> sinv may y' -> nth_error (y_dirs y) d = Some dd -> nth_error cl d = Some c ->
  (exists dd', y_dirs y' = upd d dd' (y_dirs y) /\ d_key dd' = d_key dd /\ (forall d0 dd0, d0 <> d -> nth_error (y_dirs y) d0 = Some dd0 -> frame y y' d0 (d_key dd0)) /\ knows y' d dd' c') ->
  jinv (mkJ y' (upd d c' cl)).
Proof.
  intros y cl d dd c c' y' (SI & LN & KN) SI' D C (dd' & DS & K & FR & KN'). cbn in *. split; [exact SI'|]. cbn. split; [rewrite DS, !upd_length; exact LN|].
  intros d0 dd0 c0 D0 C0. rewrite DS in D0. destruct (Nat.eq_dec d d0) as [<-|NE].
  - rewrite upd_nth_same in D0 by (apply nth_error_Some; congruence). rewrite upd_nth_same in C0 by (apply nth_error_Some; congruence). injection D0 as <-. injection C0 as <-. exact KN'.
  - rewrite upd_nth_other in D0 by exact NE. rewrite upd_nth_other in C0 by exact NE. apply (knows_frame f g empty y y' d0 dd0 dd0 c0); auto.
Qed.
Lemma upd_id : forall (A : Type) i (l : list A) x, nth_error l i = Some x -> upd i x l = l.
Proof. intros A i. induction i as [|i IH]; intros [|y l] x H; cbn in *; try discriminate; [congruence|]. now rewrite IH. Qed.
Lemma client_local : forall y cl d dd c c', jinv (mkJ y cl) -> nth_error (y_dirs y) d = Some dd -> nth_error cl d = Some c -> knows y d dd c' -> jinv (mkJ y (upd d c' cl)).
Proof.
  intros y cl d dd c c' J D C K. eapply client_step; eauto; [apply J|]. exists dd. rewrite (upd_id _ _ _ _ D). split; [reflexivity|]. split; [reflexivity|]. split; [|exact K].
  intros d0 dd0 _ _. now apply frame_same.
Qed.

(** *** Dispatching *)
Lemma send_frame : forall y d x d0 k, d0 <> d -> frame y (mkY (y_dirs y) (y_sent y ++ [(d, x)]) (y_queue y ++ [length (y_sent y)]) (y_workers y) (y_results y) (y_lost y) (y_back y)) d0 k.
Proof.
  intros y d x d0 k NE. constructor; cbn.
  - intros n x0. split; intros H.
    + destruct (nth_app_new _ _ _ _ _ H) as [[_ Q]|Q]; [injection Q as -> _; congruence | exact Q].
    + now apply nth_app_old.
  - reflexivity.
  - reflexivity.
  - intros N n x0 H. cbn in N. apply (N n x0). now apply nth_app_old.
Qed.
Lemma send_jobs : forall y d x r, sinv may y -> In r (y_results y) ->
  job_of (mkY (y_dirs y) (y_sent y ++ [(d, x)]) (y_queue y ++ [length (y_sent y)]) (y_workers y) (y_results y) (y_lost y) (y_back y)) (r_n r) = job_of y (r_n r).
Proof.
  intros y d x r SI I. destruct (res_origin _ _ _ SI (proj2 (in_all y r) (or_introl I))) as (d' & x' & dd' & ws & o & S1 & _). unfold dispatched in S1. unfold job_of. cbn. now rewrite S1, (nth_app_old _ _ _ _ _ S1).
Qed.
Lemma send_map : forall y d dd op arr late en m m' e i a, sinv may y -> nth_error (y_dirs y) d = Some dd -> knows y d dd (CMap op arr late en m) ->
  m_step (exec f op) m (MEnv e) = Some m' -> m_tasks m' = m_tasks m ++ [(i, a)] -> m_results m' = m_results m ->
  knows (mkY (y_dirs y) (y_sent y ++ [(d, code (JobMap op i a))]) (y_queue y ++ [length (y_sent y)]) (y_workers y) (y_results y) (y_lost y) (y_back y)) d dd (CMap op arr late en m').
Proof.
  intros y d dd op arr late en m m' e i a SI D (K1 & K2) H T R. set (y' := mkY _ _ _ _ _ _ _).
  assert (OLD : forall n x, nth_error (y_sent y) n = Some (d, x) -> nth_error (y_sent y') n = Some (d, x)) by (intros n x S; cbn; now apply nth_app_old).
  split.
  - cbn [y_sent y']. intros n x S. destruct (nth_app_new _ _ _ _ _ S) as [[_ Q]|Q]; [|eauto]. apply (f_equal snd) in Q. cbn [snd] in Q. rewrite Q, decode_code. eauto.
  - intros NB. destruct K2 as (mtr & N1 & N2 & RN & M). { intros n x S. exact (NB n x (OLD n x S)). }
    exists (mtr ++ [MEnv e]). split; [now apply no_dup_snoc|]. split; [now apply no_loss_snoc|]. split; [now apply (one_more _ _ _ _ _ m)|].
    intros O. destruct (M O) as (RS & ns & D1 & D2 & D3). split.
    + rewrite R, RS. change (queue_of y' (d_key dd)) with (queue_of y (d_key dd)). apply map_ext_in. intros r I. apply filter_In in I. unfold mres, mtask. unfold y'. rewrite send_jobs; tauto.
    + exists (ns ++ [length (y_sent y)]). assert (FR : ~ In (length (y_sent y)) ns). { intros I. apply D3 in I. destruct I as [(x & S) _]. assert (nth_error (y_sent y) (length (y_sent y)) <> None) by congruence. apply nth_error_Some in H0. lia. }
      split; [now apply NoDup_rev_app|]. split.
      * rewrite T, map_app. apply Permutation_app.
        -- rewrite D2. erewrite map_ext_in; [reflexivity|]. intros n I. apply D3 in I. destruct I as [(x & S) _]. unfold mtask, job_of. now rewrite S, (OLD n x S).
        -- cbn [map]. unfold mtask, job_of. unfold y' at 1. cbn [y_sent]. rewrite nth_error_app2, Nat.sub_diag by lia. cbn [nth_error]. now rewrite decode_code.
      * intros n. rewrite in_app_iff, D3. change (all_res y') with (all_res y). split.
        -- intros [[(x & S) Z]|[<-|[]]]; [split; [exists x; auto | exact Z]|]. split.
           ++ eexists. cbn. rewrite nth_error_app2, Nat.sub_diag by lia. reflexivity.
           ++ destruct (cnt (of_n (length (y_sent y))) (all_res y)) eqn:C; [reflexivity|]. assert (length (y_sent y) < length (y_sent y)) by (apply (old_sent y _ SI); lia). lia.
        -- intros [(x & S) Z]. cbn in S. destruct (nth_app_new _ _ _ _ _ S) as [[-> _]|Q]; [right; now left|]. left. eauto.
Qed.
Lemma send_fold : forall y d dd op inp x i t c, sinv may y -> nth_error (y_dirs y) d = Some dd -> knows y d dd (CFold op inp x) -> f_ret x = None -> pick i (f_chan x) = Some (t, c) ->
  knows (mkY (y_dirs y) (y_sent y ++ [(d, code (JobFold op t))]) (y_queue y ++ [length (y_sent y)]) (y_workers y) (y_results y) (y_lost y) (y_back y)) d dd
    (CFold op inp (set_tasks (set_chan x c) (f_tasks x ++ [t]))).
Proof.
  intros y d dd op inp x i t c SI D (K1 & ftr & RN & M) NR P. set (y' := mkY _ _ _ _ _ _ _). split.
  - cbn [y_sent y']. intros n p S. destruct (nth_app_new _ _ _ _ _ S) as [[_ Q]|Q]; [|eauto]. apply (f_equal snd) in Q. cbn [snd] in Q. rewrite Q, decode_code. eauto.
  - exists (ftr ++ [EvPublish i true]). split.
    + unfold fold_run in *. apply (one_more _ _ _ _ _ x); [exact RN|]. unfold fold_step. now rewrite NR, P.
    + intros O NR'. destruct (M O NR) as [RS T]. split.
      * cbn [f_results set_tasks set_chan]. rewrite RS. change (queue_of y' (d_key dd)) with (queue_of y (d_key dd)). apply map_ext_in. intros r I. apply filter_In in I. unfold fres. unfold y'. rewrite send_jobs; tauto.
      * intros n p u S DC. unfold y' in S. cbn [y_sent] in S. cbn [f_tasks set_tasks]. apply in_or_app. destruct (nth_app_new _ _ _ _ _ S) as [[_ Q]|Q]; [|left; eauto].
        right. apply (f_equal snd) in Q. cbn [snd] in Q. rewrite Q, decode_code in DC. injection DC as ->. now left.
Qed.

(** *** Receiving *)
Lemma recv_all : forall y d dd j r rest h, nth_error (y_dirs y) d = Some dd -> pick j (y_results y) = Some (r, rest) ->
  cnt h (all_res (mkY (upd d (mkD (d_key dd) true (d_got dd ++ [r])) (y_dirs y)) (y_sent y) (y_queue y) (y_workers y) rest (y_lost y) (y_back y))) = cnt h (all_res y).
Proof.
  intros y d dd j r rest h D P. unfold all_res. cbn. rewrite !cnt_app, (cnt_pick _ h _ _ _ _ P). pose proof (flat_got_upd d dd (mkD (d_key dd) true (d_got dd ++ [r])) (y_dirs y) h D) as Q. cbn [d_got] in Q.
  rewrite cnt_app, cnt_one in Q. lia.
Qed.
Lemma recv_jinv : forall y cl d dd c c' i s', jinv (mkJ y cl) -> nth_error (y_dirs y) d = Some dd -> nth_error cl d = Some c -> recv f g y d dd c' cl i = Some s' ->
  (forall y' dd' r, nth_error (y_sent y') = nth_error (y_sent y) -> y_sent y' = y_sent y -> y_back y' = y_back y -> (forall h, cnt h (all_res y') = cnt h (all_res y)) -> d_key dd' = d_key dd -> d_open dd = true ->
     pick i (queue_of y (d_key dd)) = Some (r, queue_of y' (d_key dd)) -> knows y' d dd' c') ->
  jinv s'.
Proof.
  intros y cl d dd c c' i s' J D C H KK. unfold recv in H. destruct (place (d_key dd) i (y_results y)) as [j|] eqn:P; [|discriminate].
  destruct (place_pick _ _ _ _ P) as (r & rest & P1 & P2 & P3 & P4). destruct (y_step may y (YRecv d j)) as [y'|] eqn:Y; [|discriminate]. cbn in H. injection H as <-.
  pose proof (sinv_step _ _ _ (proj1 J) Y) as SI'. cbn in Y. rewrite D, P1 in Y. rewrite P2, Nat.eqb_refl, andb_true_r in Y. destruct (d_open dd) eqn:O; [|discriminate]. injection Y as <-.
  pose proof (fun h => recv_all y d dd j r rest h D P1) as CA. eapply client_step; eauto. eexists. split; [reflexivity|]. cbn [d_key]. split; [reflexivity|]. split.
  - intros d0 dd0 NE D0. constructor; cbn; try reflexivity; try tauto.
    + unfold queue_of. cbn. apply P4. intros E. apply NE. destruct J as [J _]. exact (keys_inj may _ _ _ _ _ J D0 D E).
    + intros n x _. apply CA.
  - apply (KK _ _ r); auto.
Qed.
Lemma recv_map : forall y d dd op arr late en m m' y' dd' r, sinv may y -> nth_error (y_dirs y) d = Some dd -> knows y d dd (CMap op arr late en m) -> m_step (exec f op) m MTake = Some m' ->
  y_sent y' = y_sent y -> y_back y' = y_back y -> (forall h, cnt h (all_res y') = cnt h (all_res y)) -> d_key dd' = d_key dd -> d_open dd = true -> pick 0 (queue_of y (d_key dd)) = Some (r, queue_of y' (d_key dd)) ->
  knows y' d dd' (CMap op arr late en m').
Proof.
  intros y d dd op arr late en m m' y' dd' r SI D (K1 & K2) H S B A K O P. unfold JointProofs.knows. rewrite S. split; [exact K1|]. intros NB.
  destruct K2 as (mtr & N1 & N2 & RN & M). { intros n x. unfold noback in NB. rewrite S, B in NB. apply NB. }
  exists (mtr ++ [MTake]). split; [now apply no_dup_snoc|]. split; [now apply no_loss_snoc|]. split; [now apply (one_more _ _ _ _ _ m)|].
  intros _. destruct (M O) as (RS & ns & D1 & D2 & D3). destruct (take_queues f _ _ _ H) as (q & Q1 & Q2). rewrite K.
  assert (J : forall n, mtask y' n = mtask y n) by (intros n; unfold mtask, job_of; now rewrite S). split.
  - destruct (queue_of y (d_key dd)) as [|r0 l] eqn:QE; [discriminate|]. cbn in P. injection P as -> P. rewrite Q1 in RS. cbn in RS. injection RS as _ RS. rewrite RS, <- P. apply map_ext. intros r1. unfold mres. now rewrite J.
  - exists ns. split; [exact D1|]. split; [rewrite Q2, D2; erewrite map_ext; [reflexivity|]; intros n; now rewrite J|]. intros n. rewrite D3, S, A. reflexivity.
Qed.
Lemma recv_fold : forall y d dd op inp x x' y' dd' r i ack, sinv may y -> nth_error (y_dirs y) d = Some dd -> knows y d dd (CFold op inp x) -> fold_step (comb g op) (empty op) x (EvResult i ack) = Some x' ->
  y_sent y' = y_sent y -> d_key dd' = d_key dd -> d_open dd = true -> pick i (queue_of y (d_key dd)) = Some (r, queue_of y' (d_key dd)) ->
  knows y' d dd' (CFold op inp x').
Proof.
  intros y d dd op inp x x' y' dd' r i ack SI D (K1 & ftr & RN & M) H S K O P. unfold JointProofs.knows. rewrite S. split; [exact K1|].
  exists (ftr ++ [EvResult i ack]). split; [now apply (one_more _ _ _ _ _ x)|]. intros _ NR. unfold fold_step in H. destruct (f_ret x) eqn:FR; [discriminate|].
  destruct (M O eq_refl) as [RS T]. destruct (2 <=? f_count x)%N; [|discriminate]. destruct (pick i (f_results x)) as [[q rs]|] eqn:PQ; [|discriminate]. injection H as <-.
  destruct (on_result_queues (set_results x rs) q ack) as [Q1 Q2]. rewrite K. split.
  - rewrite Q2. cbn. rewrite RS, (pick_map _ _ _ _ _ _ _ P) in PQ. injection PQ as _ <-. apply map_ext. intros r1. unfold fres, job_of. now rewrite S.
  - intros n p t. rewrite Q1, S. cbn. apply T.
Qed.

(** *** A result arrives *)
Lemma answer_map : forall y y' d dd op arr late en m r x, sinv may y -> sinv may y' -> nth_error (y_dirs y) d = Some dd -> d_open dd = true -> knows y d dd (CMap op arr late en m) ->
  y_dirs y' = y_dirs y -> y_sent y' = y_sent y -> y_lost y' = y_lost y -> y_back y' = y_back y -> y_results y' = y_results y ++ [r] -> nth_error (y_sent y) (r_n r) = Some (d, x) -> r_key r = d_key dd ->
  knows y' d dd (answer (CMap op arr late en m) (decode x) (r_out r)).
Proof.
  intros y y' d dd op arr late en m r x SI SI' D O (K1 & K2) DS S L B R SN RK. destruct (K1 _ _ SN) as (i & a & DC). rewrite DC. cbn [answer]. unfold JointProofs.knows. rewrite S. split; [exact K1|]. intros NB.
  assert (NB0 : noback y d). { intros n x0. unfold noback in NB. rewrite S, B in NB. apply NB. }
  destruct (K2 NB0) as (mtr & N1 & N2 & RN & M). destruct (M O) as (RS & ns & D1 & D2 & D3).
  assert (CA : forall h, cnt h (all_res y') = cnt h (all_res y) + b2n (h r)). { intros h. unfold all_res. rewrite R, DS, L, !cnt_app, cnt_one. lia. }
  assert (Z : cnt (of_n (r_n r)) (all_res y) = 0).
  { assert (cnt (of_n (r_n r)) (all_res y') <= 1). { apply (once f g _ _ SI'). rewrite B. exact (NB0 _ _ SN). } rewrite CA in H. unfold of_n at 2 in H. rewrite Nat.eqb_refl in H. cbn in H. lia. }
  assert (IN : In (r_n r) ns) by (apply D3; eauto).
  assert (J : forall n, mtask y' n = mtask y n) by (intros n; unfold mtask, job_of; now rewrite S).
  assert (MT : mtask y (r_n r) = (i, a)) by (eapply mtask_sent; eauto).
  assert (IT : In (i, a) (m_tasks m)). { rewrite D2, <- MT. now apply in_map. }
  destruct (first_pick _ _ _ IT) as (j & PJ).
  assert (EX : exists o, exec f op o a = answer_of (r_out r)).
  { assert (RI : In r (y_results y')) by (rewrite R; apply in_or_app; right; now left). assert (SN' : nth_error (y_sent y') (r_n r) = Some (d, x)) by now rewrite S.
    pose proof (queue_value f g y' r d x SI' RI SN') as V. destruct (r_out r) as [v|er]; [exists None; rewrite DC in V; cbn in *; now rewrite V | exists (Some er); reflexivity]. }
  destruct EX as (o & EX). exists (mtr ++ [MWork j o]). split; [now apply no_dup_snoc|]. split; [now apply no_loss_snoc|]. split.
  - apply (one_more _ _ _ _ _ m); [exact RN|]. cbn [m_step]. rewrite PJ. cbn [snd]. now rewrite EX.
  - intros _. split.
    + unfold deliver. cbn [m_results set_queues]. rewrite RS. unfold queue_of. rewrite R, filter_app. cbn [filter]. unfold on_key at 3. rewrite RK, Nat.eqb_refl, map_app. cbn [map]. f_equal.
      * apply map_ext. intros r1. unfold mres. now rewrite J.
      * unfold mres. now rewrite J, MT.
    + apply in_split in IN. destruct IN as (l1 & l2 & ->). exists (l1 ++ l2). split; [now apply NoDup_remove_1 in D1|]. split.
      * unfold deliver. cbn [m_tasks set_queues]. rewrite (map_ext (mtask y') (mtask y) J). apply (Permutation_cons_inv (a := (i, a))). rewrite <- (pick_perm _ _ _ _ _ PJ), D2, !map_app. cbn [map]. rewrite MT. symmetry. apply Permutation_middle.
      * intros n. specialize (D3 n). rewrite S, CA. unfold of_n at 2. apply NoDup_remove_2 in D1. destruct (Nat.eqb_spec (r_n r) n) as [<-|NE].
        -- cbn [b2n]. split; [tauto|]. intros [_ Q]. lia.
        -- cbn [b2n]. rewrite Nat.add_0_r. rewrite <- D3, !in_app_iff. cbn. tauto.
Qed.
Lemma answer_fold : forall y y' d dd op inp xs r x, sinv may y -> sinv may y' -> nth_error (y_dirs y) d = Some dd -> d_open dd = true -> knows y d dd (CFold op inp xs) ->
  y_sent y' = y_sent y -> y_results y' = y_results y ++ [r] -> nth_error (y_sent y) (r_n r) = Some (d, x) -> r_key r = d_key dd ->
  knows y' d dd (answer (CFold op inp xs) (decode x) (r_out r)).
Proof.
  intros y y' d dd op inp xs r x SI SI' D O (K1 & ftr & RN & M) S R SN RK. destruct (K1 _ _ SN) as (t & DC). rewrite DC. cbn [answer].
  destruct (f_ret xs) as [rt|] eqn:FR.
  - unfold JointProofs.knows. rewrite S. split; [exact K1|]. exists ftr. split; [exact RN|]. intros _ Q. congruence.
  - unfold JointProofs.knows. rewrite S. split; [exact K1|]. destruct (M O eq_refl) as [RS T]. pose proof (T _ _ _ SN DC) as IT. apply In_nth_error in IT. destruct IT as (i & IT).
    assert (EX : exists o, comb g op o (ft_l t) (ft_r t) = answer_of (r_out r)).
    { assert (RI : In r (y_results y')) by (rewrite R; apply in_or_app; right; now left). assert (SN' : nth_error (y_sent y') (r_n r) = Some (d, x)) by now rewrite S.
      pose proof (queue_value f g y' r d x SI' RI SN') as V. destruct (r_out r) as [v|er]; [exists None; rewrite DC in V; cbn in *; now rewrite V | exists (Some er); reflexivity]. }
    destruct EX as (o & EX). exists (ftr ++ [EvDupTask i; EvWork (length (f_tasks xs)) o]). split.
    + unfold fold_run in *. apply run_from_app. exists xs. split; [exact RN|]. cbn [run_from]. unfold fold_step at 1. rewrite FR, IT. unfold fold_step. cbn [f_ret set_tasks]. rewrite FR. change (f_tasks (set_tasks xs (f_tasks xs ++ [t]))) with (f_tasks xs ++ [t]). rewrite pick_last.
      cbn zeta. rewrite EX. destruct xs. reflexivity.
    + intros _ _. split.
      * cbn [f_results set_results]. rewrite RS. unfold queue_of. rewrite R, filter_app. cbn [filter]. unfold on_key at 3. rewrite RK, Nat.eqb_refl, map_app. cbn [map]. f_equal.
        -- apply map_ext. intros r1. unfold fres, job_of. now rewrite S.
        -- unfold fres, job_of. now rewrite S, SN, DC.
      * intros n p u. rewrite S. cbn [f_tasks set_results]. apply T.
Qed.
Lemma arrive_jinv : forall y cl y' r, jinv (mkJ y cl) -> sinv may y' -> y_dirs y' = y_dirs y -> y_sent y' = y_sent y -> y_lost y' = y_lost y -> y_back y' = y_back y -> y_results y' = y_results y ++ [r] ->
  jinv (mkJ y' (arrive y' cl r)).
Proof.
  intros y cl y' r (SI & LN & KN) SI' DS S L B R. cbn in *.
  assert (RI : In r (y_results y')) by (rewrite R; apply in_or_app; right; now left).
  destruct (res_origin _ _ _ SI' (proj2 (in_all y' r) (or_introl RI))) as (d & x & dd & ws & o & S1 & D1 & RK & _). unfold dispatched in S1. rewrite S in S1. rewrite DS in D1.
  unfold arrive. rewrite S, S1, DS, D1.
  assert (CA : forall h, cnt h (all_res y') = cnt h (all_res y) + b2n (h r)). { intros h. unfold all_res. rewrite R, DS, L, !cnt_app, cnt_one. lia. }
  assert (FR : forall d0 dd0, d0 <> d -> nth_error (y_dirs y) d0 = Some dd0 -> frame y y' d0 (d_key dd0)).
  { intros d0 dd0 NE D0. constructor.
    - intros n x0. now rewrite S.
    - unfold queue_of. rewrite R, filter_app. cbn [filter]. unfold on_key at 2. destruct (Nat.eqb_spec (r_key r) (d_key dd0)) as [E|_]; [|now rewrite app_nil_r].
      exfalso. apply NE. apply (keys_inj may _ _ _ _ _ SI D0 D1). congruence.
    - intros n x0 H. rewrite CA. unfold of_n at 2. destruct (Nat.eqb_spec (r_n r) n) as [<-|_]; [|cbn; lia]. rewrite S1 in H. injection H as -> _. congruence.
    - intros N n x0. unfold noback in N. rewrite S, B in N. apply N. }
  destruct (nth_error cl d) as [c|] eqn:C.
  2: { exfalso. apply nth_error_None in C. assert (nth_error (y_dirs y) d <> None) by congruence. apply nth_error_Some in H. lia. }
  destruct (d_open dd) eqn:O.
  - apply (client_step y cl d dd c _ y'); auto; [now split|]. exists dd. rewrite DS, (upd_id _ _ _ _ D1). do 2 (split; [reflexivity|]). split; [exact FR|].
    specialize (KN _ _ _ D1 C). destruct c as [op arr late en m|op inp xs]; [now apply (answer_map y) | now apply (answer_fold y)].
  - rewrite <- (upd_id _ _ _ _ C). apply (client_step y cl d dd c _ y'); auto; [now split|]. exists dd. rewrite DS, (upd_id _ _ _ _ D1). do 2 (split; [reflexivity|]). split; [exact FR|].
    specialize (KN _ _ _ D1 C). destruct c as [op arr late en m|op inp xs]; destruct KN as [K1 K2]; unfold JointProofs.knows; rewrite S; (split; [exact K1|]).
    + intros NB. destruct K2 as (mtr & N1 & N2 & RN & _). { intros n x0. unfold noback in NB. rewrite S, B in NB. apply NB. } exists mtr. do 3 (split; [assumption|]). congruence.
    + destruct K2 as (ftr & RN & _). exists ftr. split; [exact RN | congruence].
Qed.

(** *** Leasing *)
Lemma lease_jinv : forall y cl k y' c, jinv (mkJ y cl) -> y_step may y (YLease k) = Some y' ->
  (match c with CMap op arr late en m => m = m_init arr late en | CFold op inp x => x = fold_init inp end) -> jinv (mkJ y' (cl ++ [c])).
Proof.
  intros y cl k y' c (SI & LN & KN) H HC. pose proof (sinv_step _ _ _ SI H) as SI'. cbn in *. destruct (existsb _ _) eqn:EX; [discriminate|]. injection H as <-. split; [exact SI'|]. cbn [j_cl j_sys y_dirs].
  split; [rewrite !app_length; cbn; lia|]. intros d dd c0 D C.
  assert (AR : forall h, cnt h (all_res (mkY (y_dirs y ++ [mkD k true []]) (y_sent y) (y_queue y) (y_workers y) (y_results y) (y_lost y) (y_back y))) = cnt h (all_res y)).
  { intros h. unfold all_res. cbn. rewrite flat_map_app. cbn. now rewrite app_nil_r. }
  destruct (nth_app_new _ _ _ _ _ D) as [[-> ->]|D0].
  - rewrite <- LN, nth_error_app2, Nat.sub_diag in C by lia. cbn in C. injection C as <-.
    assert (NS : forall n x, ~ nth_error (y_sent y) n = Some (length (y_dirs y), x)). { intros n x S. pose proof (si_sent _ _ SI _ _ _ S). lia. }
    assert (QE : filter (on_key k) (y_results y) = []).
    { destruct (filter (on_key k) (y_results y)) as [|r l] eqn:Q; [reflexivity|]. exfalso. assert (I : In r (filter (on_key k) (y_results y))) by (rewrite Q; now left). apply filter_In in I. destruct I as [I E]. apply Nat.eqb_eq in E.
      destruct (res_origin _ _ _ SI (proj2 (in_all y r) (or_introl I))) as (d' & x' & dd' & ws & o & _ & D' & K' & _).
      assert (X : existsb (fun d => Nat.eqb (d_key d) k) (y_dirs y) = true). { apply existsb_exists. exists dd'. split; [eapply nth_error_In; eauto|]. apply Nat.eqb_eq. congruence. } congruence. }
    destruct c as [op arr late en m|op inp x]; subst; cbn; (split; [intros n x S; destruct (NS _ _ S)|]).
    + intros _. exists []. split; [intros e []|]. split; [intros e []|]. split; [reflexivity|]. intros _. split; [unfold queue_of; cbn; now rewrite QE|]. exists []. split; [constructor|]. split; [constructor|].
      intros n. split; [intros []|]. intros [(x & S) _]. destruct (NS _ _ S).
    + exists []. split; [reflexivity|]. intros _ _. split; [unfold queue_of; cbn; now rewrite QE|]. intros n p t S. destruct (NS _ _ S).
  - assert (C0 : nth_error cl d = Some c0). { destruct (nth_app_new _ _ _ _ _ C) as [[-> _]|Q]; [|exact Q]. assert (nth_error (y_dirs y) (length cl) <> None) by congruence. apply nth_error_Some in H. lia. }
    apply (knows_frame f g empty y _ d dd dd c0); auto. now apply frame_same.
Qed.

(** *** All steps *)
Lemma local_map : forall y d dd op arr late en m m' e, knows y d dd (CMap op arr late en m) -> m_step (exec f op) m e = Some m' -> local_m e = true -> knows y d dd (CMap op arr late en m').
Proof.
  intros y d dd op arr late en m m' e (K1 & K2) H L. split; [exact K1|]. intros NB. destruct (K2 NB) as (mtr & N1 & N2 & RN & M). exists (mtr ++ [e]).
  split; [apply no_dup_snoc; [exact N1 | destruct e; easy]|]. split; [apply no_loss_snoc; [exact N2 | destruct e; easy]|]. split; [now apply (one_more _ _ _ _ _ m)|].
  intros O. destruct (local_queues _ _ _ _ _ H L) as [Q1 Q2]. destruct (M O) as (RS & ns & D). split; [now rewrite Q2|]. exists ns. now rewrite Q1.
Qed.
Lemma local_fold : forall y d dd op inp x x' e, knows y d dd (CFold op inp x) -> fold_step (comb g op) (empty op) x e = Some x' -> local_f e = true -> knows y d dd (CFold op inp x').
Proof.
  intros y d dd op inp x x' e (K1 & ftr & RN & M) H L. split; [exact K1|]. exists (ftr ++ [e]). split; [now apply (one_more _ _ _ _ _ x)|]. intros O _.
  destruct (local_f_queues _ _ _ _ _ _ H L) as [Q1 Q2]. destruct M as [RS T]; [exact O | unfold fold_step in H; destruct (f_ret x); [discriminate|reflexivity]|].
  split; [now rewrite Q2|]. intros n p t. rewrite Q1. apply T.
Qed.
Lemma jinv_all : forall y cl y', jinv (mkJ y cl) -> sinv may y' -> y_dirs y' = y_dirs y -> (forall d k, frame y y' d k) -> jinv (mkJ y' cl).
Proof.
  intros y cl y' (SI & LN & KN) SI' DS FR. split; [exact SI'|]. cbn in *. rewrite DS. split; [exact LN|]. intros d dd c D C. apply (knows_frame f g empty y y' d dd dd c); auto.
Qed.
Lemma send_jinv : forall y cl d dd c c' j s', jinv (mkJ y cl) -> nth_error (y_dirs y) d = Some dd -> nth_error cl d = Some c -> send f g y d c' cl j = Some s' ->
  knows (mkY (y_dirs y) (y_sent y ++ [(d, code j)]) (y_queue y ++ [length (y_sent y)]) (y_workers y) (y_results y) (y_lost y) (y_back y)) d dd c' -> jinv s'.
Proof.
  intros y cl d dd c c' j s' J D C H K. unfold send in H. destruct (y_step may y (YSend d (code j))) as [y'|] eqn:Y; [|discriminate]. cbn [option_map] in H. injection H as <-.
  pose proof (sinv_step _ _ _ (proj1 J) Y) as SI'. cbn [y_step j_sys] in Y. rewrite D in Y. injection Y as <-. apply (client_step y cl d dd c c'); auto.
  exists dd. cbn [y_dirs]. rewrite (upd_id _ _ _ _ D). do 2 (split; [reflexivity|]). split; [|exact K]. intros d0 dd0 NE _. now apply send_frame.
Qed.
Lemma jinv_step : forall s e s', jinv s -> step s e = Some s' -> jinv s'.
Proof.
  intros [y cl] e s' J H. pose proof J as (SI & LN & KN). cbn [j_sys j_cl] in *. unfold j_step in H. cbn [j_sys j_cl] in H. destruct e as [op k arr late en|op k inp|d e|d e|e].
  - destruct (y_step may y (YLease k)) as [y'|] eqn:Y; [|discriminate]. cbn [option_map] in H. injection H as <-. now apply (lease_jinv y cl k).
  - destruct (y_step may y (YLease k)) as [y'|] eqn:Y; [|discriminate]. cbn [option_map] in H. injection H as <-. now apply (lease_jinv y cl k).
  - unfold open_dir in H. destruct (nth_error (y_dirs y) d) as [dd|] eqn:D; [|discriminate]. destruct (d_open dd) eqn:O; [|discriminate]. destruct (nth_error cl d) as [c|] eqn:C; [|discriminate].
    pose proof (KN _ _ _ D C) as K. destruct c as [op arr late en m|op inp x]; [|discriminate]. destruct (m_step (exec f op) m e) as [m'|] eqn:M; [|discriminate].
    assert (LOC : local_m e = true -> jinv (mkJ y (upd d (CMap op arr late en m') cl))). { intros L. apply (client_local y cl d dd (CMap op arr late en m)); auto. eapply local_map; eauto. }
    assert (ACC : forall e0, e = MEnv e0 -> match e0 with PaAccept _ | PaAcceptDropped _ => True | _ => False end ->
      match skipn (length (m_tasks m)) (m_tasks m') with [(i, a)] => send f g y d (CMap op arr late en m') cl (JobMap op i a) | _ => None end = Some s' -> jinv s').
    { intros e0 -> A Q. destruct (accept_queues _ _ _ _ _ M A) as ([i a] & T & R). rewrite T, skipn_app, skipn_all, Nat.sub_diag in Q. cbn [skipn app] in Q.
      eapply send_jinv; eauto. eapply send_map; eauto. }
    destruct e as [|e0| | | | | | | |e0|ok|i o|i|i|i|i]; try discriminate; try (injection H as <-; now apply LOC).
    + eapply recv_jinv; eauto. intros y' dd' r _ S B A DK _ P. eapply recv_map; eauto.
    + destruct (place _ _ _); [discriminate|]. injection H as <-. now apply LOC.
    + destruct e0; try (injection H as <-; now apply LOC); eapply ACC; eauto; exact Logic.I.
  - unfold open_dir in H. destruct (nth_error (y_dirs y) d) as [dd|] eqn:D; [|discriminate]. destruct (d_open dd) eqn:O; [|discriminate]. destruct (nth_error cl d) as [c|] eqn:C; [|discriminate].
    pose proof (KN _ _ _ D C) as K. destruct c as [op arr late en m|op inp x]; [discriminate|]. destruct (fold_step (comb g op) (empty op) x e) as [x'|] eqn:M; [|discriminate].
    assert (LOC : local_f e = true -> jinv (mkJ y (upd d (CFold op inp x') cl))). { intros L. apply (client_local y cl d dd (CFold op inp x)); auto. eapply local_fold; eauto. }
    destruct e as [| |i ok| |i ack| | | | |]; try discriminate; try (injection H as <-; now apply LOC).
    + destruct ok; [|injection H as <-; now apply LOC]. unfold fold_step in M. destruct (f_ret x) eqn:FR; [discriminate|]. destruct (pick i (f_chan x)) as [[t c]|] eqn:P; [|discriminate]. injection M as <-.
      eapply send_jinv; eauto. eapply send_fold; eauto.
    + eapply recv_jinv; eauto. intros y' dd' r _ S B A DK _ P. eapply recv_fold; eauto.
  - destruct e as [k|d x|ident|w j|w e|w i|d j|d]; try discriminate.
    + destruct (y_step may y (YStart ident)) as [y'|] eqn:Y; [|discriminate]. cbn [option_map] in H. injection H as <-. pose proof (sinv_step _ _ _ SI Y) as SI'. cbn in Y. injection Y as <-.
      apply (jinv_all y); auto. intros d k. now apply frame_same.
    + destruct (y_step may y (YTake w j)) as [y'|] eqn:Y; [|discriminate]. cbn [option_map] in H. injection H as <-. pose proof (sinv_step _ _ _ SI Y) as SI'. cbn [y_step] in Y.
      destruct (nth_error (y_workers y) w) as [ws|]; [|discriminate]. destruct (pick j (y_queue y)) as [[n q]|]; [|discriminate]. destruct (nth_error (y_sent y) n) as [[d x]|]; [|discriminate].
      destruct (nth_error (y_dirs y) d) as [dd|]; [|discriminate]. destruct (w_step ws _) as [ws'|]; [|discriminate]. injection Y as <-.
      apply (jinv_all y); auto. intros d0 k. now apply frame_same.
    + destruct (y_step may y (YWork w e)) as [y'|] eqn:Y; [|discriminate]. injection H as <-. pose proof (sinv_step _ _ _ SI Y) as SI'. destruct (work_results f g _ _ _ _ Y) as (E1 & E2 & E3 & E4 & [E5|(r & E5)]); rewrite E5.
      * rewrite skipn_all. cbn [fold_left]. apply (jinv_all y); auto. intros d k. apply frame_same; auto; [intros h; unfold all_res; now rewrite E1, E3, E5 | rewrite E4; auto].
      * rewrite skipn_app, skipn_all, Nat.sub_diag. cbn [skipn app fold_left]. now apply (arrive_jinv y).
    + destruct (y_step may y (YBack w i)) as [y'|] eqn:Y; [|discriminate]. cbn [option_map] in H. injection H as <-. pose proof (sinv_step _ _ _ SI Y) as SI'. cbn [y_step] in Y.
      destruct (nth_error (y_workers y) w) as [ws|]; [|discriminate]. destruct (body_of i (w_log ws)) as [n|]; [|discriminate]. destruct (_ || _); [discriminate|]. injection Y as <-.
      apply (jinv_all y); auto. intros d0 k. apply frame_same; auto. cbn. auto.
    + destruct (y_step may y (YRelease d)) as [y'|] eqn:Y; [|discriminate]. cbn [option_map] in H. injection H as <-. pose proof (sinv_step _ _ _ SI Y) as SI'. cbn [y_step] in Y.
      destruct (nth_error (y_dirs y) d) as [dd|] eqn:D; [|discriminate]. destruct (d_open dd) eqn:O; [|discriminate]. injection Y as <-.
      destruct (nth_error cl d) as [c|] eqn:C. 2: { exfalso. apply nth_error_None in C. assert (nth_error (y_dirs y) d <> None) by congruence. apply nth_error_Some in H. lia. }
      rewrite <- (upd_id _ _ _ _ C). apply (client_step y cl d dd c c); auto. eexists. split; [reflexivity|]. split; [reflexivity|]. split.
      * intros d0 dd0 NE D0. constructor; cbn; try reflexivity; try tauto.
        -- unfold queue_of. cbn. assert (KE : d_key dd0 <> d_key dd) by (intros E; apply NE; exact (keys_inj may _ _ _ _ _ SI D0 D E)). clear - KE.
           induction (y_results y) as [|r l IH]; [reflexivity|]. cbn. destruct (Nat.eqb_spec (r_key r) (d_key dd)) as [E|E]; cbn; [|now rewrite IH].
           unfold on_key at 2. destruct (Nat.eqb_spec (r_key r) (d_key dd0)); [congruence | exact IH].
        -- intros n x _. unfold all_res. cbn. rewrite !cnt_app. pose proof (flat_got_upd d dd (mkD (d_key dd) false (d_got dd)) (y_dirs y) (of_n n) D) as Q. cbn [d_got] in Q.
           assert (SP : forall p l, cnt (of_n n) (filter (fun r => negb (p r)) l) + cnt (of_n n) (filter p l) = cnt (of_n n) l).
           { clear. intros p l. induction l as [|r l IH]; [reflexivity|]. cbn [filter]. destruct (p r); cbn [negb]; rewrite !cnt_cons; lia. }
           specialize (SP (fun r => Nat.eqb (r_key r) (d_key dd)) (y_results y)). cbn beta in SP. lia.
      * specialize (KN _ _ _ D C). destruct c as [op arr late en m|op inp xs]; destruct KN as [K1 K2]; (split; [exact K1|]).
        -- intros NB. destruct (K2 NB) as (mtr & N1 & N2 & RN & _). exists mtr. split; [exact N1|]. split; [exact N2|]. split; [exact RN|]. discriminate.
        -- destruct K2 as (ftr & RN & _). exists ftr. split; [exact RN | discriminate].
Qed.
Theorem jinv_run : forall tr s, j_run f g empty tr = Some s -> jinv s.
Proof.
  intros tr s H. refine (run_from_inv _ _ step jinv jinv_step tr j_init s _ H). split; [apply sinv_init|]. split; [reflexivity|]. intros [|d] dd c D; discriminate.
Qed.
End Joint.
