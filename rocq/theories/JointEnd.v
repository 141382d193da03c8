(** C98, continued: the mapped stream ends. *)
From Coq Require Import List Arith NArith Lia Bool Permutation.
From Verif Require Import Base BaseFacts PublishModel PublishSpec MapModel MapSpec MapProofs MapLive MapMeasure MapProps MapEndProps ContiguousModel FoldModel RetryModel
  WorkerModel WorkerSpec WorkerProofs WorkerFacts WorkerInv WorkerProps SystemModel SystemSpec SystemProofs SystemProps JointModel JointProofs JointInv JointProps JointDone PoolLive PoolProps JointLive.
Import ListNotations.
Open Scope nat_scope.

(** * A map without failures does not report any *)
Section NoFailure.
Context {A B E O : Type}.
Variable exec : O -> A -> Base.res E B.
Variable h : A -> B.
Hypothesis exec_ok : forall o x y, exec o x = ROk y -> y = h x.
Definition sane (s : mstate A B E) : Prop :=
  failed (m_log s) = false /\ (forall r, In r (m_results s) -> exists y, snd r = ROk y) /\ (forall r a, m_then s = Some (r, a) -> exists y, snd r = ROk y).
Lemma side_log : forall (s : mstate A B E) sd k r, failed (m_log (side_done s sd k r)) = match r with SItem x => failed (x :: m_log s) | _ => failed (m_log s) end.
Proof. intros s sd k r. destruct r, k as [|[]|]; reflexivity. Qed.
Lemma side_rest : forall (s : mstate A B E) sd k r, m_results (side_done s sd k r) = m_results s /\ m_then (side_done s sd k r) = m_then s /\ pa_ret (m_pa (side_done s sd k r)) = pa_ret (m_pa s).
Proof. intros s sd k r. destruct r as [x| |], k as [|[]|]; try (repeat split; reflexivity); destruct x; repeat split; reflexivity. Qed.
Lemma sane_side : forall (s : mstate A B E) sd k r, sane s -> (forall e, r <> SItem (MErr e)) -> sane (side_done s sd k r).
Proof.
  intros s sd k r (S1 & S2 & S3) NE. unfold sane. rewrite side_log. destruct (side_rest s sd k r) as (-> & -> & _). split; [|auto]. destruct r as [x| |]; auto. destruct x; try exact S1. destruct (NE e eq_refl).
Qed.
Lemma sane_left : forall (s : mstate A B E) k p, sane s -> (pa_ret (m_pa (left_done s k p)) = None \/ pa_ret (m_pa (left_done s k p)) = Some PaOk) -> sane (left_done s k p).
Proof.
  intros s k p S G. unfold left_done in *. destruct (pa_ret p) as [[|e|n]|] eqn:R.
  - apply sane_side; [exact S|discriminate].
  - exfalso. destruct (side_rest (sender_done s p) L k (SItem (MErr (EInput e)))) as (_ & _ & Q). rewrite Q in G. cbn in G. rewrite R in G. destruct G; discriminate.
  - exfalso. destruct (side_rest (sender_done s p) L k (SItem (MErr (EPublish n)))) as (_ & _ & Q). rewrite Q in G. cbn in G. rewrite R in G. destruct G; discriminate.
  - exact S.
Qed.
Arguments side_done : simpl never.
Arguments left_done : simpl never.
Lemma sane_step : forall (s : mstate A B E) e s', sane s -> MapLive.good s -> MapLive.good s' -> MapSpec.duplicates e = false -> MapSpec.loses e = false -> (forall j o, e = MWork j o -> forall x, exists y, exec o x = ROk y) ->
  m_step exec s e = Some s' -> sane s'.
Proof.
  intros s e s' S G G' ND NL W H. pose proof (g_ret _ G') as GR. pose proof S as (S1 & S2 & S3). destruct e as [| e | | | | | | | | e | ok | i o | i | i | i | i]; try discriminate; cbn [m_step] in H.
  - destruct (m_poll s); [|discriminate]. destruct (m_ldone _), (m_rdone _); injection H as <-; exact S.
  - destruct (m_poll s) as [|[|] k]; try discriminate. destruct (_ || _); [discriminate|]. destruct e; try (destruct (pa_step (m_pa s) _) as [p|]; [|discriminate]; injection H as <-; now apply sane_left).
    + destruct (pa_inreg _); [discriminate|]. destruct (pa_step (m_pa s) _) as [p|]; [|discriminate]. injection H as <-. now apply sane_left.
    + destruct (m_closed s); [discriminate|]. destruct (pa_step (m_pa s) _) as [p|]; [|discriminate]. injection H as <-. exact S.
    + destruct (m_closed s); [|discriminate]. destruct (pa_step (m_pa s) _) as [p|]; [|discriminate]. injection H as <-. exact S.
  - destruct (m_poll s) as [|[|] k]; try discriminate. destruct (_ && _); [|discriminate]. injection H as <-. apply sane_side; [exact S|discriminate].
  - destruct (m_poll s) as [|[|] k]; try discriminate. destruct (m_sent s); [|discriminate]. injection H as <-. apply sane_side; [exact S|discriminate].
  - destruct (m_poll s) as [|[|] k]; try discriminate. destruct (m_then s); [discriminate|]. destruct (m_results s) as [|r rs] eqn:RS; [discriminate|]. injection H as <-. split; [exact S1|]. split.
    + intros r0 I. apply S2. now right.
    + intros r0 a Q. cbn in Q. injection Q as <- _. apply S2. now left.
  - destruct (m_poll s) as [|[|] k]; try discriminate. destruct (m_then s) eqn:T; [discriminate|]. destruct (m_results s) as [|r rs] eqn:RS; [|discriminate]. injection H as <-. apply sane_side; [|destruct (_ && _); discriminate].
    split; [exact S1|]. split; [intros r []|]. intros r a Q. discriminate Q.
  - destruct (m_poll s) as [|[|] k]; try discriminate. destruct (m_then s) as [[r [|b|b]]|] eqn:T; try discriminate. injection H as <-. split; [exact S1|]. split; [exact S2|]. intros r0 a Q. cbn in Q. injection Q as <- _. exact (S3 _ _ eq_refl).
  - destruct (m_poll s) as [|[|] k]; try discriminate. destruct (m_then s) as [[r [|b|b]]|] eqn:T; try discriminate. injection H as <-. apply sane_side; [|discriminate].
    split; [exact S1|]. split; [exact S2|]. intros r0 a Q. cbn in Q. injection Q as <- _. exact (S3 _ _ eq_refl).
  - destruct (m_poll s) as [|[|] k]; try discriminate. destruct (m_then s) as [[r [|b|[|]]]|] eqn:T; try discriminate.
    + injection H as <-. destruct (S3 _ _ eq_refl) as (y & ->). apply sane_side; [|discriminate]. split; [exact S1|]. split; [exact S2|]. intros r0 a Q. discriminate Q.
    + exfalso. exact (g_then _ G _ T).
  - destruct (poll_event e); [discriminate|]. destruct (pa_step (m_pa s) e) as [p|]; [|discriminate]. injection H as <-. exact S.
  - destruct (m_then s) as [[r [|b|b]]|] eqn:T; try discriminate. injection H as <-. split; [exact S1|]. split; [exact S2|]. intros r0 a Q. cbn in Q. injection Q as <- _. exact (S3 _ _ eq_refl).
  - destruct (pick i (m_tasks s)) as [[t ts]|]; [|discriminate]. injection H as <-. split; [exact S1|]. split; [|exact S3]. intros r I. cbn in I. apply in_app_or in I. destruct I as [I|[<-|[]]]; [exact (S2 _ I)|]. cbn. exact (W _ _ eq_refl _).
Qed.
Lemma sane_run : forall arr late en tr s, no_errors (arr ++ late) -> (N.of_nat (length (arr ++ late)) < usize_max)%N -> no_fault tr -> (forall j o, In (MWork j o) tr -> forall x, exists y, exec o x = ROk y) ->
  run_from (m_step exec) (m_init arr late en) tr = Some s -> failed (m_log s) = false.
Proof.
  intros arr late en tr s NE SH NF W H. assert (K : sane s); [|exact (proj1 K)]. revert s NF W H. induction tr as [|e tr IH] using rev_ind; intros s NF W H.
  - cbn in H. injection H as <-. split; [reflexivity|]. split; [intros r []|discriminate].
  - pose proof (good_run exec h exec_ok arr late en _ s NE SH NF H) as G'. apply run_from_app in H as (s1 & H1 & H2). cbn in H2. destruct (m_step exec s1 e) as [s2|] eqn:S; [|discriminate]. injection H2 as ->.
    assert (NF1 : no_fault tr) by (intros x X; apply NF, in_or_app; auto). pose proof (good_run exec h exec_ok arr late en _ s1 NE SH NF1 H1) as G.
    assert (W1 : forall j o, In (MWork j o) tr -> forall x, exists y, exec o x = ROk y) by (intros j o I; apply (W j o), in_or_app; auto).
    destruct (NF e) as (F1 & F2 & _); [apply in_or_app; right; now left|].
    apply (sane_step s1 e s (IH _ NF1 W1 H1) G G' F1 F2); [|exact S]. intros j o ->. apply (W j o), in_or_app. right. now left.
Qed.
End NoFailure.

(** An unhurt worker reported no error. *)
Lemma no_err_step : forall s e s', (unhurt (w_log s) -> fine s /\ forall tm i k v, ~ In (tm, AErr i k v) (w_log s)) -> w_step s e = Some s' -> unhurt (w_log s') ->
  fine s' /\ forall tm i k v, ~ In (tm, AErr i k v) (w_log s').
Proof.
  intros s e s' IH H U. destruct (step_acts _ _ _ H) as (new & L & X). assert (U0 : unhurt (w_log s)) by (rewrite L in U; now apply unhurt_app in U). destruct (IH U0) as [F NE].
  split; [exact (fine_step _ _ _ (fun _ => F) H U)|]. intros tm i k v I. rewrite L in I. apply in_app_or in I. destruct I as [I|I]; [|exact (NE _ _ _ _ I)].
  destruct (X _ _ I) as [_ E]. cbn in E. destruct E as (_ & t & fs & a & ab & M & _). pose proof (f_main _ F) as P. rewrite M in P. exact P.
Qed.
Lemma no_err_run : forall ident tr ws, reaches ident tr ws -> unhurt (w_log ws) -> forall tm i k v, ~ In (tm, AErr i k v) (w_log ws).
Proof.
  intros ident tr ws R U. refine (proj2 (run_from_inv _ _ w_step (fun s => unhurt (w_log s) -> fine s /\ forall tm i k v, ~ In (tm, AErr i k v) (w_log s)) no_err_step tr (w_init ident) ws _ R U)).
  intros _. split; [constructor; cbn; auto; intros tm i []|intros tm i k v []].
Qed.
Lemma fine_able : forall ws, fine ws -> stopped ws = false -> able ws.
Proof. intros ws [_ F _ M] S. split; [exact F|]. unfold stopped, plain in *. destruct (w_main ws); auto. discriminate. Qed.

Section End1.
Variable f : nat -> nat -> nat.
Variable g : nat -> nat -> nat -> nat.
Variable empty : nat -> nat.
Variable dead : nat -> bool.
Notation step := (j_step f g empty).
Notation may := (may f g).

(** The workers that are gone were done with the tasks of directive [d] that they took. *)
Definition tidy (d : nat) (y : sys) : Prop := forall w ws i n x, nth_error (y_workers y) w = Some ws -> gone dead w ws = true -> took ws i n -> dispatched y n d x -> settled i (w_log ws) = true.

Lemma gone_back : forall y e y', sinv may y -> clean dead y -> calm dead y e -> y_step may y e = Some y' -> length (y_workers y') = length (y_workers y) /\
  forall w ws', nth_error (y_workers y') w = Some ws' -> exists ws, nth_error (y_workers y) w = Some ws /\ (gone dead w ws' = true -> gone dead w ws = true /\ w_log ws' = w_log ws).
Proof.
  intros y e y' SI CL C H. destruct e as [k|d x|ident|w j|w e|w i|d j|d]; try (destruct C; fail); cbn [y_step] in H.
  - destruct (nth_error (y_workers y) w) as [ws|] eqn:W; [|discriminate]. destruct (pick j (y_queue y)) as [[n q]|] eqn:PK; [|discriminate]. destruct (nth_error (y_sent y) n) as [[d x]|]; [|discriminate].
    destruct (nth_error (y_dirs y) d) as [dd|]; [|discriminate]. destruct (w_step ws _) as [ws'|] eqn:WS; [|discriminate]. injection H as <-. cbn [y_workers]. split; [apply upd_length|]. intros w0 ws0 W0.
    destruct (upd_nth _ _ _ _ _ _ W0) as [[-> ->]|[NE W1]]; [|exists ws0; auto]. exists ws. split; [exact W|]. intros G. exfalso. unfold gone in G. cbn in C. rewrite C in G. cbn [orb] in G. unfold w_step in WS. destruct (w_main ws); try discriminate. injection WS as <-. discriminate G.
  - destruct C as [DW G]. destruct (nth_error (y_workers y) w) as [ws|] eqn:W; [|discriminate]. destruct (possible may y ws e); [|discriminate]. destruct (w_step ws e) as [ws'|] eqn:WS; [|discriminate]. injection H as <-.
    cbn [y_workers]. split; [apply upd_length|]. intros w0 ws0 W0. destruct (upd_nth _ _ _ _ _ _ W0) as [[-> ->]|[NE W1]]; [|exists ws0; auto]. exists ws. split; [exact W|]. destruct (CL _ _ W) as [U _].
    unfold gone. rewrite DW. cbn [orb]. intros ST. destruct (si_work _ _ SI _ _ W) as (ident & wtr & WR). destruct (stopped ws) eqn:S0; [|rewrite (well_stops _ _ _ G WS (fine_run _ _ _ WR U) S0) in ST; discriminate ST].
    split; [reflexivity|exact (stopped_log _ _ _ G WS S0)].
  - destruct (nth_error (y_workers y) w) as [ws|] eqn:W; [|discriminate]. destruct (body_of i (w_log ws)) as [n|] eqn:BO; [|discriminate]. destruct (_ || _) eqn:AC; [discriminate|]. injection H as <-. split; [reflexivity|]. intros w0 ws0 W0. exists ws0. auto.
  - destruct (nth_error (y_dirs y) d) as [dd|] eqn:D; [|discriminate]. destruct (pick j (y_results y)) as [[r rest]|]; [|discriminate]. destruct (_ && _) eqn:O; [|discriminate]. injection H as <-. split; [reflexivity|]. intros w0 ws0 W0. exists ws0. auto.
Qed.
Lemma able_is : forall y, sinv may y -> clean dead y -> (some_able dead y <-> exists w ws, nth_error (y_workers y) w = Some ws /\ gone dead w ws = false).
Proof.
  intros y SI CL. split.
  - intros (w & ws & W & D & F & M). exists w, ws. split; [exact W|]. unfold gone, stopped. rewrite D. destruct (w_main ws); auto. destruct M.
  - intros (w & ws & W & G). unfold gone in G. apply orb_false_iff in G. destruct G as [D S]. exists w, ws. split; [exact W|]. split; [exact D|]. destruct (si_work _ _ SI _ _ W) as (ident & wtr & WR).
    apply fine_able; [|exact S]. exact (fine_run _ _ _ WR (proj1 (CL _ _ W))).
Qed.
Lemma calm_keeps : forall y e y' d, sinv may y -> clean dead y -> some_able dead y -> tidy d y -> noback y d -> calm dead y e -> y_step may y e = Some y' ->
  sinv may y' /\ clean dead y' /\ some_able dead y' /\ tidy d y' /\ noback y' d.
Proof.
  intros y e y' d SI CL AB TI NB C H. pose proof (sinv_any _ _ _ _ SI H) as SI'. pose proof (clean_step _ _ _ _ _ SI C H CL) as CL'. destruct (gone_back _ _ _ SI CL C H) as [LN GB]. destruct (calm_dirs _ _ _ _ _ C H) as [SE _].
  split; [exact SI'|]. split; [exact CL'|]. split; [|split].
  - apply able_is; auto. apply able_is in AB; auto. destruct AB as (w & ws & W & G). destruct (nth_error (y_workers y') w) as [ws'|] eqn:W'; [|exfalso; apply nth_error_None in W'; assert (nth_error (y_workers y) w <> None) by congruence; apply nth_error_Some in H0; lia].
    exists w, ws'. split; [exact W'|]. destruct (GB _ _ W') as (ws0 & W0 & K). assert (ws0 = ws) by congruence. subst ws0. destruct (gone dead w ws') eqn:Q; [|reflexivity]. destruct (K eq_refl). congruence.
  - intros w ws' i n x W' G' T D. destruct (GB _ _ W') as (ws & W & K). destruct (K G') as [G L]. unfold took in T. rewrite L in *. unfold dispatched in D. rewrite SE in D. exact (TI _ _ _ _ _ W G T D).
  - intros n x S. rewrite SE in S. destruct e as [k|d0 x0|ident|w j|w e|w i|d0 j|d0]; try (destruct C; fail); cbn [y_step] in H.
    + destruct (nth_error (y_workers y) w) as [ws|] eqn:W; [|discriminate]. destruct (pick j (y_queue y)) as [[n0 q]|] eqn:PK; [|discriminate]. destruct (nth_error (y_sent y) n0) as [[d1 x1]|]; [|discriminate].
      destruct (nth_error (y_dirs y) d1) as [dd|]; [|discriminate]. destruct (w_step ws _) as [ws'|] eqn:WS; [|discriminate]. injection H as <-. exact (NB _ _ S).
    + destruct (nth_error (y_workers y) w) as [ws|] eqn:W; [|discriminate]. destruct (possible may y ws e); [|discriminate]. destruct (w_step ws e) as [ws'|] eqn:WS; [|discriminate]. injection H as <-. exact (NB _ _ S).
    + destruct C as (ws & W & G & NS). rewrite W in H. destruct (body_of i (w_log ws)) as [n0|] eqn:BO; [|discriminate]. destruct (_ || _) eqn:AC; [discriminate|]. injection H as <-. cbn [y_back]. rewrite cnt_cons, (NB _ _ S). unfold back_n. cbn [snd].
      destruct (Nat.eqb_spec n0 n) as [->|]; [exfalso|reflexivity]. destruct (body_in _ _ _ BO) as (tm & t & I & E). rewrite (TI _ _ i n x W G (ex_intro _ tm (ex_intro _ t (conj I E))) S) in NS. discriminate NS.
    + destruct (nth_error (y_dirs y) d0) as [dd|] eqn:D; [|discriminate]. destruct (pick j (y_results y)) as [[r rest]|]; [|discriminate]. destruct (_ && _) eqn:O; [|discriminate]. injection H as <-. exact (NB _ _ S).
Qed.
(** When the pool has caught up, every task has a result. *)
Lemma caught_up : forall y n d x, sinv may y -> winv2 y -> clean dead y -> worked_off dead y -> dispatched y n d x -> cnt (of_n n) (all_res y) <> 0.
Proof.
  intros y n d x SI [_ PL] CL (QE & WI & ST) D. destruct (PL n) as [I|(w & ws & i & W & TK & CB)]; [apply nth_error_Some; unfold dispatched in D; congruence|rewrite QE in I; destruct I|].
  destruct (si_work _ _ SI _ _ W) as (ident & wtr & WR). pose proof (WorkerProofs.winv_run _ _ _ WR) as [WB _ _]. assert (IL : i < w_taken ws) by (destruct TK as (u & t & I & _); apply (WB _ _ I eq_refl)).
  assert (SE : settled i (w_log ws) = true). { destruct (WI _ _ W) as [M|S]; [exact (wait_settled _ _ _ _ WR IL M)|]. destruct (ST _ _ _ _ W S TK) as [E|E]; [exact E|congruence]. }
  destruct (CL _ _ W) as [U K]. pose proof (fine_run _ _ _ WR U) as [_ _ NN _]. unfold settled in SE. apply existsb_exists in SE. destruct SE as ([tm a] & I & E). cbn in E.
  assert (IA : In (tm, AAck i) (w_log ws)) by (destruct a; try discriminate E; apply Nat.eqb_eq in E; subst; [exact I|destruct (NN _ _ I)]). clear a I E.
  assert (OK : 0 < tally COk i (w_log ws)).
  { destruct (WI _ _ W) as [M|G].
    - assert (AK : 0 < tally CAck i (w_log ws)). { unfold tally. destruct (cnt _ (w_log ws)) eqn:Z; [|lia]. rewrite cnt_zero in Z. specialize (Z _ IA). cbn in Z. rewrite Nat.eqb_refl in Z. discriminate Z. }
      destruct (C35_answers _ _ _ WR) as (_ & A & _). assert (EN : S i < w_taken ws \/ S i = w_taken ws /\ w_main ws = WpWait) by (destruct (Nat.eq_dec (S i) (w_taken ws)); [auto|left; lia]).
      rewrite (A i COk EN). rewrite (A i CAck EN) in AK. destruct (outcome_of i (w_log ws)) as [[y0|[|] msg|]|]; cbn in *; lia.
    - destruct (K G _ _ IA) as (tm' & k & v & I'). unfold tally. destruct (cnt _ (w_log ws)) eqn:Z; [|lia]. rewrite cnt_zero in Z. specialize (Z _ I'). cbn in Z. rewrite Nat.eqb_refl in Z. discriminate Z. }
  pose proof (si_wi _ _ SI _ _ i W) as CN. destruct (cnt_some _ (of_wi w i) (all_res y) ltac:(lia)) as (r & A & OW).
  unfold of_wi in OW. apply andb_prop in OW. destruct OW as [O1 O2]. apply Nat.eqb_eq in O1, O2. subst w i.
  destruct (res_origin _ _ _ SI A) as (d0 & x0 & dd0 & ws0 & o0 & S1 & S2 & KK & W0 & T0 & _). assert (ws0 = ws) by congruence. subst ws0.
  destruct TK as (u & t & T1 & T2). destruct T0 as (u0 & t0 & T3 & T4). destruct (proj2 (C35_one_execution _ _ _ WR) _ _ _ _ _ T1 T3) as [-> _].
  assert (ER : r_n r = n) by congruence. intros Z. rewrite cnt_zero in Z. specialize (Z _ A). unfold of_n in Z. apply Nat.eqb_neq in Z. congruence.
Qed.

(** * The continuation *)
(** Workers that are not gone go on without failures, what gone workers had not settled may come back, and the operations of directive [d] itself do not fail. *)
Inductive steadily (d : nat) : joint -> list j_event -> joint -> Prop :=
| st_nil : forall s, steadily d s [] s
| st_sys : forall s e s1 tr s2, calm dead (j_sys s) e -> step s (JSys e) = Some s1 -> steadily d s1 tr s2 -> steadily d s (JSys e :: tr) s2
| st_own : forall s e s1 tr s2, MapSpec.fails e = false -> step s (JOfMap d e) = Some s1 -> steadily d s1 tr s2 -> steadily d s (JOfMap d e :: tr) s2.
Lemma steadily_run : forall d s tr s', steadily d s tr s' -> run_from step s tr = Some s' /\ forall e, In (JOfMap d e) tr -> MapSpec.fails e = false.
Proof.
  intros d s tr s' H. induction H as [s|s e s1 tr s2 C S _ [IH1 IH2]|s e s1 tr s2 C S _ [IH1 IH2]].
  - split; [reflexivity|]. intros e [].
  - split; [cbn [run_from]; now rewrite S|]. intros e0 [E|I]; [discriminate|auto].
  - split; [cbn [run_from]; now rewrite S|]. intros e0 [E|I]; [injection E as <-; exact C|auto].
Qed.
Lemma steadily_app : forall d s tr s1 tr2 s2, steadily d s tr s1 -> steadily d s1 tr2 s2 -> steadily d s (tr ++ tr2) s2.
Proof. intros d s tr s1 tr2 s2 H K. induction H as [s|s e s1 tr s0 C S _ IH|s e s1 tr s0 C S _ IH]; [exact K| |]; cbn [app]; [eapply st_sys|eapply st_own]; eauto. Qed.

Record ready (s : joint) (d op : nat) (arr late : list (Base.res nat (N * nat))) (en : bool) (m : mstate nat nat nat) : Prop := {
  rd_run : exists tr, j_run f g empty tr = Some s;
  rd_map : map_at s d op arr late en m;
  rd_back : noback (j_sys s) d;
  rd_open : exists dd, nth_error (y_dirs (j_sys s)) d = Some dd /\ d_open dd = true;
  rd_clean : clean dead (j_sys s);
  rd_able : some_able dead (j_sys s);
  rd_tidy : tidy d (j_sys s)
}.
Lemma one_step : forall tr s e s', j_run f g empty tr = Some s -> step s e = Some s' -> j_run f g empty (tr ++ [e]) = Some s'.
Proof. intros tr s e s' R S. unfold j_run. apply run_from_app. exists s. split; [exact R|]. cbn [run_from]. now rewrite S. Qed.
Lemma noback_return : forall s d, noback (j_sys s) d -> no_return s d.
Proof. intros s d H n x D. exact (H n x D). Qed.

(** A step of the map itself. *)
Lemma own_step : forall s d op arr late en m e m', ready s d op arr late en m -> m_step (exec f op) m e = Some m' -> fresh_event e -> exists s', step s (JOfMap d e) = Some s' /\ ready s' d op arr late en m'.
Proof.
  intros s d op arr late en m e m' [(tr & R) C NB (dd & D & O) CL AB TI] M F.
  destruct (C66_map_free f g empty tr s d op arr late en m e m' dd R C (noback_return _ _ NB) D O M) as (s' & S & C'); [destruct e; exact F|]. exists s'. split; [exact S|].
  pose proof (jinv_run f g empty tr s R) as (SI & _ & _).
  destruct (jsys_step f g empty _ _ _ S) as [E|(ye & [(x & ->)|(j & ->)] & Y)].
  - constructor; try rewrite E; auto; [exists (tr ++ [JOfMap d e]); exact (one_step _ _ _ _ R S)|exists dd; auto].
  - cbn [y_step] in Y. rewrite D in Y. injection Y as Y. constructor; try rewrite <- Y; auto.
    + exists (tr ++ [JOfMap d e]). exact (one_step _ _ _ _ R S).
    + intros n x0 Z. cbn [y_sent y_back] in *. destruct (Nat.lt_ge_cases n (length (y_sent (j_sys s)))) as [L|L].
      * rewrite nth_error_app1 in Z by exact L. exact (NB _ _ Z).
      * apply cnt_zero. intros [[w i] n0] I. unfold back_n. cbn [snd]. pose proof (si_back _ _ SI _ _ _ I). apply Nat.eqb_neq. lia.
    + exists dd. auto.
    + intros w ws i n x0 W G T DS. cbn [y_workers] in W. destruct T as (tm & t & I & E). destruct (si_take _ _ SI _ _ _ _ _ W I) as (d1 & x1 & _ & S1 & _). rewrite E in S1. unfold dispatched in DS. cbn [y_sent] in DS.
      rewrite nth_error_app1 in DS by (apply nth_error_Some; congruence). exact (TI _ _ _ _ _ W G (ex_intro _ tm (ex_intro _ t (conj I E))) DS).
  - cbn [y_step] in Y. rewrite D in Y. destruct (pick j (y_results (j_sys s))) as [[r rest]|]; [|discriminate]. destruct (_ && _); [|discriminate]. injection Y as Y. constructor; try rewrite <- Y; auto.
    + exists (tr ++ [JOfMap d e]). exact (one_step _ _ _ _ R S).
    + eexists. cbn [y_dirs]. rewrite upd_nth_same by (apply nth_error_Some; congruence). split; reflexivity.
Qed.
(** Steps of the workers. *)
Lemma sys_steps : forall y tr y', calmly may dead y tr y' -> forallb (fun e => negb (is_recv e)) tr = true -> forall s d op arr late en m, j_sys s = y -> ready s d op arr late en m ->
  exists s' m' mtr, steadily d s (map JSys tr) s' /\ j_sys s' = y' /\ ready s' d op arr late en m' /\ run_from (m_step (exec f op)) m mtr = Some m' /\ forall e, In e mtr -> exists j o, e = MWork j o.
Proof.
  intros y tr y' C. induction C as [y|y e y1 tr y2 P S _ IH]; intros NR s d op arr late en m E RD.
  - exists s, m, []. split; [constructor|]. split; [exact E|]. split; [exact RD|]. split; [reflexivity|]. intros e [].
  - cbn [forallb] in NR. apply andb_prop in NR. destruct NR as [NR1 NR2]. subst y. pose proof RD as [(tr0 & R) CM NB (dd & D & O) CL AB TI]. pose proof (jinv_run f g empty tr0 s R) as J. pose proof J as (SI & _ & _).
    assert (ST : exists s1, step s (JSys e) = Some s1 /\ j_sys s1 = y1).
    { unfold j_step. destruct e as [k|d0 x|ident|w j|w e|w i|d0 j|d0]; try (destruct P; fail); try discriminate NR1; rewrite S; cbn [option_map]; eexists; split; reflexivity. }
    destruct ST as (s1 & ST & E1). destruct (map_step f g empty _ _ _ _ _ _ _ _ _ J ST CM NB) as (m1 & CM1 & FO). destruct (calm_keeps _ _ _ d SI CL AB TI NB P S) as (_ & CL1 & AB1 & TI1 & NB1).
    destruct (calm_dirs _ _ _ _ _ P S) as [_ DK]. destruct (DK _ _ D) as (dd1 & D1 & _ & O1).
    assert (RD1 : ready s1 d op arr late en m1). { constructor; try rewrite E1; auto; [exists (tr0 ++ [JSys e]); exact (one_step _ _ _ _ R ST)|exists dd1; split; [exact D1|congruence]]. }
    destruct (IH NR2 s1 d op arr late en m1 E1 RD1) as (s' & m' & mtr & SD & E2 & RD2 & MR & MW). assert (SD' : steadily d s (map JSys (e :: tr)) s') by (cbn [map]; exact (st_sys _ _ _ _ _ _ P ST SD)).
    destruct FO as [-> _|me Q _ _|ye j o _ M _]; [exists s', m', mtr; auto|discriminate Q|]. exists s', m', (MWork j o :: mtr). split; [exact SD'|]. split; [exact E2|]. split; [exact RD2|]. split; [cbn [run_from]; now rewrite M|].
    intros e0 [<-|I]; [eauto|auto].
Qed.
Lemma total : forall x, exists y, may x (OcOk y) = true.
Proof. intros x. exists (value f g (decode x)). cbn. apply Nat.eqb_refl. Qed.
Lemma works_none : forall (mtr : list (m_event (option nat))) op (m : mstate nat nat nat), (forall e, In e mtr -> exists j o, e = MWork j o) -> spurious_polls (exec f op) m mtr = 0 /\ no_fault mtr.
Proof.
  intros mtr op. induction mtr as [|e mtr IH]; intros m H; [split; [reflexivity|intros e []]|]. destruct (H e (or_introl eq_refl)) as (j & o & ->). assert (H' : forall e, In e mtr -> exists j o, e = MWork j o) by (intros e I; apply H; now right). split.
  - cbn [spurious_polls]. change (spurious m (MWork j o)) with 0. destruct (m_step (exec f op) m (MWork j o)) as [m1|]; [exact (proj1 (IH m1 H'))|reflexivity].
  - intros e [<-|I]; [repeat split|exact (proj2 (IH m H') e I)].
Qed.
(** The workers do what there is to do for the map. *)
Lemma all_done : forall s d op arr late en m, ready s d op arr late en m -> exists tr s' m' mtr, steadily d s tr s' /\ ready s' d op arr late en m' /\ run_from (m_step (exec f op)) m mtr = Some m' /\
  (forall e, In e mtr -> exists j o, e = MWork j o) /\ m_tasks m' = [].
Proof.
  intros s d op arr late en m RD. pose proof RD as [(tr0 & R) CM NB _ CL AB TI]. pose proof (jinv_run f g empty tr0 s R) as (SI & _ & _).
  destruct (catch_up may dead total (j_sys s) SI AB) as (tr & y' & C & NR & WO). destruct (sys_steps _ _ _ C NR s d op arr late en m eq_refl RD) as (s' & m' & mtr & SD & E & RD' & MR & MW).
  exists (map JSys tr), s', m', mtr. split; [exact SD|]. split; [exact RD'|]. split; [exact MR|]. split; [exact MW|].
  destruct RD' as [(tr1 & R1) CM1 NB1 (dd1 & D1 & O1) CL1 _ _]. pose proof (jinv_run f g empty tr1 s' R1) as (SI1 & _ & KN). destruct (KN _ _ _ D1 CM1) as [_ K]. destruct (K NB1) as (_ & _ & _ & _ & FL). destruct (FL O1) as (_ & ns & _ & NT & NI).
  destruct ns as [|n ns]; [apply Permutation_sym, Permutation_nil in NT; exact NT|]. exfalso. destruct (proj1 (NI n) (or_introl eq_refl)) as [(x & S) Z]. rewrite <- E in WO.
  exact (caught_up _ _ _ _ SI1 (jwinv_run f g empty _ _ R1) CL1 WO S Z).
Qed.
(** So the map comes to rest. *)
Lemma settle : forall w s d op arr late en m, MapMeasure.work m = w -> (N.of_nat (length (arr ++ late)) < usize_max)%N -> ready s d op arr late en m ->
  exists tr s' m' mtr, steadily d s tr s' /\ ready s' d op arr late en m' /\ run_from (m_step (exec f op)) m mtr = Some m' /\ quiescent (exec f op) m'.
Proof.
  intros w. induction w as [w IH] using lt_wf_ind. intros s d op arr late en m W SH RD. pose proof RD as [(tr0 & R) CM NB _ _ _ _].
  destruct (follow_run f g empty _ _ _ _ _ _ _ _ R CM NB) as (mtr0 & MR0 & P0). assert (ND0 : MapSpec.no_dup mtr0) by (intros e I; exact (proj1 (P0 e I))).
  destruct (C14_progress (exec f op) (f op) (exec_is f op) arr late en mtr0 m None SH ND0 MR0) as [Q|(e & m1 & X & M)]; [exists [], s, m, []; split; [constructor|auto]|].
  assert (CASES : (exists i o, e = MWork i o) \/ (fresh_event e /\ MapSpec.duplicates e = false /\ MapSpec.fails e = false /\ spurious m e = 0)).
  { destruct X as [X|[X|(-> & X)]]; [| |right; cbn; rewrite X; auto].
    - destruct e as [| | | | | | | | |e|ok|i o| | | |]; try discriminate; [right|right|left; eauto]; cbn; [|destruct ok; auto; discriminate].
      destruct e; auto. destruct ok; auto; discriminate.
    - right. destruct e; try discriminate; cbn; auto. }
  destruct CASES as [(i & o & ->)|(F & DU & FA & SP)].
  - destruct (all_done _ _ _ _ _ _ _ RD) as (tr1 & s1 & m2 & mtr1 & SD1 & RD1 & MR1 & MW & TE). destruct (works_none mtr1 op m MW) as [SP NF].
    pose proof (work_run (exec f op) mtr1 m m2 (no_fault_dup _ NF) MR1) as WR. rewrite SP in WR.
    assert (NZ : 0 < length mtr1). { destruct mtr1 as [|z mtr1]; [exfalso|cbn; lia]. cbn in MR1. injection MR1 as <-. cbn [m_step] in M. rewrite TE in M. destruct i; discriminate M. }
    destruct (IH (MapMeasure.work m2) ltac:(lia) s1 d op arr late en m2 eq_refl SH RD1) as (tr2 & s2 & m3 & mtr2 & SD2 & RD2 & MR2 & Q). exists (tr1 ++ tr2), s2, m3, (mtr1 ++ mtr2).
    split; [exact (steadily_app _ _ _ _ _ _ SD1 SD2)|]. split; [exact RD2|]. split; [|exact Q]. apply run_from_app. eauto.
  - pose proof (work_step (exec f op) m e m1 DU M) as WS. rewrite SP in WS. destruct (own_step _ _ _ _ _ _ _ _ _ RD M F) as (s1 & S1 & RD1).
    destruct (IH (MapMeasure.work m1) ltac:(lia) s1 d op arr late en m1 eq_refl SH RD1) as (tr2 & s2 & m3 & mtr2 & SD2 & RD2 & MR2 & Q). exists (JOfMap d e :: tr2), s2, m3, (e :: mtr2).
    split; [exact (st_own _ _ _ _ _ _ FA S1 SD2)|]. split; [exact RD2|]. split; [|exact Q]. cbn [run_from]. now rewrite M.
Qed.
End End1.

Theorem C98_comes_to_rest : forall f g empty dead tr s d op arr late en m dd, j_run f g empty tr = Some s -> map_at s d op arr late en m -> no_return s d ->
  nth_error (y_dirs (j_sys s)) d = Some dd -> d_open dd = true -> (N.of_nat (length (arr ++ late)) < usize_max)%N ->
  clean dead (j_sys s) -> some_able dead (j_sys s) -> tidy dead d (j_sys s) ->
  exists tr' s' m', steadily f g empty dead d s tr' s' /\ map_at s' d op arr late en m' /\ quiescent (exec f op) m' /\ no_return s' d.
Proof.
  intros f g empty dead tr s d op arr late en m dd R C NR D O SH CL AB TI.
  assert (RD : ready f g empty dead s d op arr late en m) by (constructor; eauto using no_return_back).
  destruct (settle f g empty dead _ s d op arr late en m eq_refl SH RD) as (tr' & s' & m' & _ & SD & RD' & _ & Q). exists tr', s', m'. split; [exact SD|]. split; [exact (rd_map _ _ _ _ _ _ _ _ _ _ _ RD')|]. split; [exact Q|].
  exact (noback_return _ _ (rd_back _ _ _ _ _ _ _ _ _ _ _ RD')).
Qed.
Theorem C98_ends : forall f g empty dead tr s d op arr late en m dd xs, j_run f g empty tr = Some s -> map_at s d op arr late en m -> no_return s d ->
  nth_error (y_dirs (j_sys s)) d = Some dd -> d_open dd = true -> (N.of_nat (length (arr ++ late)) < usize_max)%N -> arr ++ late = map ROk xs -> (forall e, In (JOfMap d e) tr -> MapSpec.fails e = false) ->
  clean dead (j_sys s) -> some_able dead (j_sys s) -> tidy dead d (j_sys s) ->
  exists tr' s' m', steadily f g empty dead d s tr' s' /\ map_at s' d op arr late en m' /\
    MapSpec.ended (m_log m') = true /\ failed (m_log m') = false /\ Permutation (yielded (m_log m')) (map (image (f op)) xs).
Proof.
  intros f g empty dead tr s d op arr late en m dd xs R C NR D O SH IX FA CL AB TI.
  assert (RD : ready f g empty dead s d op arr late en m) by (constructor; eauto using no_return_back).
  assert (GO : forall tr' s' m', steadily f g empty dead d s tr' s' -> ready f g empty dead s' d op arr late en m' -> exists mtr, run_from (m_step (exec f op)) (m_init arr late en) mtr = Some m' /\ no_fault mtr /\
    forall j o, In (MWork j o) mtr -> forall x, exists y, exec f op o x = ROk y).
  { intros tr' s' m' SD [_ C' NB' _ CL' _ _]. destruct (steadily_run _ _ _ _ _ _ _ _ SD) as [RN NF]. assert (R' : j_run f g empty (tr ++ tr') = Some s') by (unfold j_run; apply run_from_app; eauto).
    destruct (follow_run f g empty _ _ _ _ _ _ _ _ R' C' NB') as (mtr & MR & P). exists mtr. split; [exact MR|]. split.
    - intros e I. destruct (P e I) as (P1 & P2 & P3 & _). split; [exact P1|]. split; [exact P2|]. destruct (MapSpec.fails e) eqn:F; [|reflexivity]. specialize (P3 eq_refl). apply in_app_or in P3. destruct P3 as [P3|P3]; [specialize (FA _ P3)|specialize (NF _ P3)]; congruence.
    - intros j o I x. destruct o as [er|]; [exfalso|eexists; reflexivity]. destruct (P _ I) as (_ & _ & _ & P4). destruct (P4 j er eq_refl) as (w & ws & tm & i & k & W & L).
      pose proof (jinv_run f g empty _ s' R') as (SI' & _ & _). destruct (si_work _ _ SI' _ _ W) as (ident & wtr & WR). exact (no_err_run _ _ _ WR (proj1 (CL' _ _ W)) _ _ _ _ L). }
  destruct (settle f g empty dead _ s d op arr late en m eq_refl SH RD) as (tr1 & s1 & m1 & _ & SD1 & RD1 & _ & Q1). destruct (GO _ _ _ SD1 RD1) as (mtr1 & MR1 & NF1 & _).
  destruct (C14_delivered_partial (exec f op) (f op) (exec_is f op) arr late en mtr1 m1 xs None SH NF1 IX MR1 Q1) as [_ EN].
  assert (X : exists m2, m_step (exec f op) m1 MPoll = Some m2). { destruct Q1 as (PI & _). cbn [m_step]. rewrite PI. destruct (m_ldone _), (m_rdone _); eauto. }
  destruct X as (m2 & M2). destruct (own_step f g empty dead _ _ _ _ _ _ _ _ _ RD1 M2 Logic.I) as (s2 & S2 & RD2).
  destruct (settle f g empty dead _ s2 d op arr late en m2 eq_refl SH RD2) as (tr3 & s3 & m3 & mtr3 & SD3 & RD3 & MR3 & Q3).
  assert (SD : steadily f g empty dead d s (tr1 ++ JOfMap d MPoll :: tr3) s3) by (apply (steadily_app _ _ _ _ _ _ _ _ _ _ SD1); eapply st_own; [|exact S2|exact SD3]; reflexivity).
  destruct (GO _ _ _ SD RD3) as (mtr & MR & NF & WO). exists (tr1 ++ JOfMap d MPoll :: tr3), s3, m3. split; [exact SD|]. split; [exact (rd_map _ _ _ _ _ _ _ _ _ _ _ RD3)|].
  assert (E3 : MapSpec.ended (m_log m3) = true) by (apply (EN mtr3); [cbn [run_from]; now rewrite M2|exact (proj1 Q3)]).
  assert (NE : no_errors (arr ++ late)). { intros x I. rewrite IX in I. apply in_map_iff in I as (y & Y & _). discriminate. }
  pose proof (sane_run (exec f op) (f op) (exec_is f op) arr late en mtr m3 NE SH NF WO MR) as F3. split; [exact E3|]. split; [exact F3|].
  destruct (C12_exactly_once (exec f op) (f op) (exec_is f op) arr late en mtr m3 SH (no_fault_dup _ NF) MR E3 F3) as (xs' & IX' & P). rewrite IX in IX'.
  assert (xs = xs') as ->; [|exact P]. clear -IX'. revert xs' IX'. induction xs as [|x xs IH]; intros [|x' xs'] E; try discriminate; [reflexivity|]. cbn in E. injection E as -> E. now rewrite (IH _ E).
Qed.
Print Assumptions C98_comes_to_rest.
Print Assumptions C98_ends.

(** What [clean] is for: a task of the map that a worker acked, crashing before it published the result, keeps the stream from ending, whoever goes on. *)
Lemma alone_run : forall f g empty dead d s tr s' w ws i n, steadily f g empty dead d s tr s' -> sinv (may f g) (j_sys s) -> nth_error (y_workers (j_sys s)) w = Some ws -> dead w = true -> took ws i n ->
  settled i (w_log ws) = true -> cnt (back_n n) (y_back (j_sys s)) = 0 -> sinv (may f g) (j_sys s') /\ nth_error (y_workers (j_sys s')) w = Some ws /\ cnt (back_n n) (y_back (j_sys s')) = 0.
Proof.
  intros f g empty dead d s tr s' w ws i n H. induction H as [s|s e s1 tr s2 C S _ IH|s e s1 tr s2 C S _ IH]; intros SI W DW T SE B; [auto| |].
  - destruct (jsys_step f g empty _ _ _ S) as [E|(ye & OE & Y)].
    + apply IH; try rewrite E; auto.
    + cbn in OE. subst ye. destruct (calm_alone _ _ _ _ _ _ _ _ _ SI C Y W DW T SE B) as [W1 B1]. apply IH; auto. exact (sinv_any _ _ _ _ SI Y).
  - destruct (jsys_step f g empty _ _ _ S) as [E|(ye & OE & Y)]; [apply IH; try rewrite E; auto|]. pose proof (sinv_any _ _ _ _ SI Y) as SI1. assert (K : y_workers (j_sys s1) = y_workers (j_sys s) /\ y_back (j_sys s1) = y_back (j_sys s)).
    { destruct OE as [(x & ->)|(j & ->)]; cbn [y_step] in Y.
      - destruct (nth_error (y_dirs (j_sys s)) d); [|discriminate]. injection Y as <-. auto.
      - destruct (nth_error (y_dirs (j_sys s)) d) as [dd|]; [|discriminate]. destruct (pick j (y_results (j_sys s))) as [[r rest]|]; [|discriminate]. destruct (_ && _); [|discriminate]. injection Y as <-. auto. }
    destruct K as [K1 K2]. apply IH; try rewrite K1; try rewrite K2; auto.
Qed.
Theorem C98_lost : forall f g empty dead tr s d op arr late en w ws i n x, j_run f g empty tr = Some s -> (N.of_nat (length (arr ++ late)) < usize_max)%N ->
  dispatched (j_sys s) n d x -> returned n (j_sys s) = 0 -> nth_error (y_workers (j_sys s)) w = Some ws -> dead w = true -> took ws i n -> settled i (w_log ws) = true ->
  (forall tm k v, ~ In (tm, AOk i k v) (w_log ws) /\ ~ In (tm, AErr i k v) (w_log ws)) ->
  forall tr' s' m', steadily f g empty dead d s tr' s' -> no_return s' d -> map_at s' d op arr late en m' -> MapSpec.ended (m_log m') = false.
Proof.
  intros f g empty dead tr s d op arr late en w ws i n x R SH D RT W DW T SE NP tr' s' m' SD NR' C'. destruct (MapSpec.ended (m_log m')) eqn:EN; [exfalso|reflexivity].
  destruct (steadily_run _ _ _ _ _ _ _ _ SD) as [RN _]. assert (R' : j_run f g empty (tr ++ tr') = Some s') by (unfold j_run; apply run_from_app; eauto). pose proof (jinv_run f g empty tr s R) as (SI & _ & _).
  destruct (alone_run _ _ _ _ _ _ _ _ _ _ _ _ SD SI W DW T SE RT) as (SI' & W' & B').
  assert (D' : dispatched (j_sys s') n d x).
  { clear -SD D. induction SD as [s|s e s1 tr s2 C S _ IH|s e s1 tr s2 C S _ IH]; [exact D| |]; apply IH; unfold dispatched in *; destruct (jsys_step f g empty _ _ _ S) as [->|(ye & _ & Y)]; auto; exact (proj1 (ysent_step f g _ _ _ Y) _ _ _ D). }
  destruct (C96_map f g empty _ _ _ _ _ _ _ _ _ _ R' C' NR' SH EN D') as (dd & r & DD & I & E).
  assert (A : In r (all_res (j_sys s'))) by (apply in_all; right; left; eauto). destruct (si_res _ _ SI' _ A) as (ws1 & W1 & BO & tm & L). rewrite E in BO. destruct (body_in _ _ _ BO) as (tt & t & I1 & E1).
  destruct (took_single _ _ _ _ _ _ _ _ _ SI' B' W' T W1 (ex_intro _ tt (ex_intro _ t (conj I1 E1)))) as [Ew Ei]. assert (ws1 = ws) by congruence. subst ws1.
  destruct (NP tm (r_key r) 0) as [N1 N2]. unfold act_of in L. destruct (r_out r) as [v|v]; rewrite <- Ei in L; [exact (proj1 (NP _ _ _) L)|exact (proj2 (NP _ _ _) L)].
Qed.
Print Assumptions C98_lost.

(** *** Runs *)
(** Two items are published. The second worker answered one task and crashed; the first has taken the other. The stream can end, with both results. *)
Definition second_dead (w : nat) : bool := Nat.eqb w 1.
Definition half_way : list j_event :=
  [JMap 0 7 two_in [] true] ++ sys1 [YStart 20; YStart 21] ++ m1 0 publish_two ++ sys1 ([YTake 0 1; YTake 1 0] ++ work 1 (OcOk 1) (resolve 0) ++ [YWork 0 WFlag; YWork 0 WCheck; YWork 0 (WPoll true None)]).
Definition half_state : joint := match j_run inc plus zero half_way with Some s => s | None => j_init end.
Example C98_ex : exists m, j_run inc plus zero half_way = Some half_state /\ map_at half_state 0 0 two_in [] true m /\ no_return half_state 0 /\
  option_map d_open (nth_error (y_dirs (j_sys half_state)) 0) = Some true /\ (N.of_nat (length (two_in ++ [])) < usize_max)%N /\ two_in ++ [] = map ROk [(0%N, 0); (1%N, 1)] /\
  (forall e, In (JOfMap 0 e) half_way -> MapSpec.fails e = false) /\ clean second_dead (j_sys half_state) /\ some_able second_dead (j_sys half_state) /\ tidy second_dead 0 (j_sys half_state) /\
  MapSpec.ended (m_log m) = false /\ yielded (m_log m) = [] /\ m_tasks m = [(1%N, 1)].
Proof.
  eexists. split; [vm_compute; reflexivity|]. split; [vm_compute; reflexivity|]. split; [apply show_no_return; vm_compute; reflexivity|]. split; [vm_compute; reflexivity|]. split; [vm_compute; reflexivity|]. split; [reflexivity|].
  split; [intros e I; vm_compute in I; repeat (destruct I as [I|I]; [try discriminate I; injection I as <-; reflexivity|]); destruct I|]. split; [|split; [|split; [|split; [reflexivity|split; reflexivity]]]].
  - intros w ws W. vm_compute in W. destruct w as [|[|w]]; [| |destruct w; discriminate W]; injection W as <-; (split; [intros tm; split; intros z I; cbn in I; repeat (destruct I as [I|I]; [discriminate I|]); destruct I|]).
    + discriminate.
    + intros _ tm i I. cbn in I. repeat (destruct I as [I|I]; [try discriminate I; injection I as <- <-; do 3 eexists; cbn; eauto|]); destruct I.
  - exists 0. eexists. split; [vm_compute; reflexivity|]. split; [reflexivity|]. split; [reflexivity|exact Logic.I].
  - intros w ws i n x W G (tm & t & I & E) D. vm_compute in W. destruct w as [|[|w]]; [| |destruct w; discriminate W]; injection W as <-; [discriminate G|]. cbn in I. repeat (destruct I as [I|I]; [try discriminate I; injection I as <- <- <-; reflexivity|]); destruct I.
Qed.
(** One way to get there. *)
Definition other_half : list j_event := sys1 ([YWork 0 (WPoll true (Some (OcOk 2)))] ++ map (YWork 0) (resolve 0)) ++ m1 0 read_two.
Example C98_ex_end : option_map (fun s => (show_map s 0, map w_main (y_workers (j_sys s)))) (j_run inc plus zero (half_way ++ other_half)) =
  Some (Some (0, two_in, [], true, [(1%N, 2); (0%N, 1)], true, false), [WpWait; WpWait]).
Proof. vm_compute. reflexivity. Qed.
(** The second worker crashed between acking and publishing. *)
Definition torn_off : list j_event :=
  [JMap 0 7 two_in [] true] ++ sys1 [YStart 20; YStart 21] ++ m1 0 publish_two ++ sys1 [YTake 1 0; YWork 1 WFlag; YWork 1 WCheck; YWork 1 (WPoll true (Some (OcOk 1))); YWork 1 (WEffect SAck)].
Definition torn_state : joint := match j_run inc plus zero torn_off with Some s => s | None => j_init end.
Example C98_lost_ex : exists m ws x, j_run inc plus zero torn_off = Some torn_state /\ map_at torn_state 0 0 two_in [] true m /\ dispatched (j_sys torn_state) 0 0 x /\ returned 0 (j_sys torn_state) = 0 /\
  nth_error (y_workers (j_sys torn_state)) 1 = Some ws /\ second_dead 1 = true /\ took ws 0 0 /\ settled 0 (w_log ws) = true /\
  (forall tm k v, ~ In (tm, AOk 0 k v) (w_log ws) /\ ~ In (tm, AErr 0 k v) (w_log ws)).
Proof.
  do 3 eexists. split; [vm_compute; reflexivity|]. split; [vm_compute; reflexivity|]. split; [vm_compute; reflexivity|]. split; [vm_compute; reflexivity|]. split; [vm_compute; reflexivity|]. split; [reflexivity|].
  split; [exists 0%N, (mkT 7 0); split; [cbn; tauto|reflexivity]|]. split; [reflexivity|]. intros tm k v; split; intros I; cbn in I; repeat (destruct I as [I|I]; [discriminate I|]); destruct I.
Qed.
