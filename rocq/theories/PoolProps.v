(** C97, continued: if no worker failed, was told to stop or crashed between acknowledging and publishing, every task of every open directive can be
    answered, whatever else happened to the workers. *)
From Coq Require Import List Arith NArith Lia Bool.
From Verif Require Import Base BaseFacts RetryModel WorkerModel WorkerSpec WorkerProofs WorkerFacts WorkerInv WorkerProps SystemModel SystemSpec SystemProofs SystemProps JointDone PoolLive.
Import ListNotations.
Open Scope nat_scope.

(** No job was marked terminated and no waiter saw abort-all. *)
Definition unhurt (l : wlog) : Prop := forall tm, (forall k, ~ In (tm, AMark k) l) /\ (forall i, ~ In (tm, ASignal i) l).
(** The workers are unhurt, and those that are gone published what they acked. *)
Definition clean (dead : nat -> bool) (s : sys) : Prop := forall w ws, nth_error (y_workers s) w = Some ws ->
  unhurt (w_log ws) /\ (gone dead w ws = true -> forall tm i, In (tm, AAck i) (w_log ws) -> exists tm' k v, In (tm', AOk i k v) (w_log ws)).

Lemma unhurt_app : forall a b, unhurt (a ++ b) <-> unhurt a /\ unhurt b.
Proof.
  intros a b. split.
  - intros H. split; intros tm; destruct (H tm) as [P Q]; (split; [intros k I; apply (P k)|intros i I; apply (Q i)]); apply in_or_app; auto.
  - intros [P Q] tm. destruct (P tm) as [P1 P2], (Q tm) as [Q1 Q2]. split; [intros k I|intros k I]; apply in_app_or in I; destruct I as [I|I]; [exact (P1 _ I)|exact (Q1 _ I)|exact (P2 _ I)|exact (Q2 _ I)].
Qed.
Lemma unhurt_mark : forall tm k l, ~ unhurt ((tm, AMark k) :: l).
Proof. intros tm k l H. apply (proj1 (H tm) k). now left. Qed.
Lemma unhurt_signal : forall tm i l, ~ unhurt ((tm, ASignal i) :: l).
Proof. intros tm i l H. apply (proj2 (H tm) i). now left. Qed.
Lemma unhurt_tail : forall p l, unhurt (p :: l) -> unhurt l.
Proof. intros p l H. change (p :: l) with ([p] ++ l) in H. now apply unhurt_app in H. Qed.

(** Such a worker only succeeds. *)
Definition plain (p : wphase) : Prop := match p with WpSkip _ _ | WpFail _ _ _ _ _ | WpTerm _ _ | WpSleep _ _ => False | _ => True end.
Definition no_nack (l : wlog) : Prop := forall tm i, ~ In (tm, ANack i) l.
Record fine (s : wstate) : Prop := { f_jobs : w_jobs s = []; f_flag : w_flag s = false; f_nack : no_nack (w_log s); f_main : plain (w_main s) }.
Lemma no_nack_cons : forall tm a l, (forall i, a <> ANack i) -> no_nack l -> no_nack ((tm, a) :: l).
Proof. intros tm a l H N tm' i [E|I]; [injection E as _ ->; exact (H i eq_refl)|exact (N _ _ I)]. Qed.
Lemma fine_exec : forall s t sn st r, fine s -> w_main s = WpRun t sn st -> unhurt (w_log (poll_exec s t sn st r)) -> fine (poll_exec s t sn st r).
Proof.
  intros s t sn st r [J F NN M] MR U.
  assert (A : fine (start s t sn st)) by (unfold start; destruct st; constructor; cbn; auto; apply no_nack_cons; [discriminate|exact NN]).
  unfold poll_exec in *. destruct r as [o|]; [|exact A]. destruct A as [J1 F1 N1 M1]. unfold finish in *. destruct o as [y|fs msg|].
  - constructor; cbn; auto. apply no_nack_cons; [discriminate|exact N1].
  - exfalso. unfold mark in U. cbn [log w_jobs] in U. rewrite J1 in U. cbn [marked existsb fst set_main log w_log w_now] in U. exact (unhurt_mark _ _ _ U).
  - constructor; cbn; auto. apply no_nack_cons; [discriminate|exact N1].
Qed.
Lemma fine_signal : forall s t sn st, fine s -> w_main s = WpRun t sn st -> unhurt (w_log (poll_signal s t sn st)) -> fine (poll_signal s t sn st).
Proof.
  intros s t sn st [J F NN M] MR U. unfold poll_signal in *. destruct (_ && _); [exfalso; exact (unhurt_signal _ _ _ U)|]. destruct (w_lis s); constructor; cbn; auto.
Qed.
Lemma fine_step : forall s e s', (unhurt (w_log s) -> fine s) -> w_step s e = Some s' -> unhurt (w_log s') -> fine s'.
Proof.
  intros s e s' IH H U. destruct (step_acts _ _ _ H) as (new & L & _). assert (FI : fine s) by (apply IH; rewrite L in U; now apply unhurt_app in U). clear IH new L. destruct FI as [J F NN M].
  destruct e as [d| |k| | |t| | | |sf r|sl|sl ok|ok|ok| |]; unfold w_step in H.
  - injection H as <-. constructor; auto.
  - destruct (w_main s) eqn:MM; try discriminate; (destruct (_ <=? _)%N; [|discriminate]); injection H as <-; constructor; cbn [w_jobs w_flag w_log w_main]; try rewrite J; auto; rewrite MM; exact M.
  - exfalso. unfold mark in H. cbn [log w_jobs] in H. rewrite J in H. cbn [marked existsb] in H. destruct (w_main s); try discriminate; destruct (w_lis s); try discriminate; injection H as <-; exact (unhurt_mark _ _ _ U).
  - destruct (w_main s) eqn:MM; try discriminate; destruct (w_lis s); try discriminate; injection H as <-; constructor; cbn [w_jobs w_flag w_log w_main]; auto; rewrite MM; exact M.
  - destruct (w_main s) eqn:MM; try discriminate; destruct (w_lis s); try discriminate; injection H as <-; constructor; cbn [w_jobs w_flag w_log w_main]; auto; rewrite MM; exact M.
  - destruct (w_main s) eqn:MM; try discriminate. injection H as <-. constructor; cbn; auto. apply no_nack_cons; [discriminate|exact NN].
  - destruct (w_main s) eqn:MM; try discriminate. injection H as <-. constructor; cbn; auto.
  - destruct (w_main s) eqn:MM; try discriminate. injection H as <-. rewrite F. constructor; cbn; auto.
  - destruct (w_main s) eqn:MM; try discriminate. injection H as <-. rewrite J. cbn [marked existsb]. constructor; cbn; auto.
  - destruct (w_main s) as [|t1|t1|t1 a|t1 sn1 st1|t1 y a d|t1 fs msg a d|t1 a|t1 u|en] eqn:MM; try discriminate. injection H as <-. assert (FI : fine s) by (constructor; auto; now rewrite MM). unfold poll_select in *. destruct sf.
    + destruct (signal_main s t1 sn1 st1 MM) as (_ & _ & _ & _ & [(S4 & _ & _ & LG)|(_ & LG & [S6|[S6 _]])]).
      * exfalso. rewrite S4 in U. cbn iota in U. rewrite LG in U. exact (unhurt_signal _ _ _ U).
      * rewrite S6 in U |- *. apply fine_exec; [|exact S6|exact U]. apply fine_signal; [exact FI|exact MM|]. rewrite LG.
        destruct (step_acts s (WPoll true r) (poll_exec (poll_signal s t1 sn1 st1) t1 (w_ver s) st1 r)) as (new & L & _); [unfold w_step; rewrite MM; unfold poll_select; rewrite S6; reflexivity|]. rewrite L in U. now apply unhurt_app in U.
      * rewrite S6 in U |- *. apply fine_signal; [exact FI|exact MM|exact U].
    + destruct (exec_main s t1 sn1 st1 r MM) as (_ & _ & _ & _ & Y). rewrite Y in U |- *. destruct r as [o|].
      * destruct o; cbn [finished] in *; apply fine_exec; auto.
      * assert (LG : unhurt (w_log (poll_exec s t1 sn1 st1 None))).
        { unfold poll_signal in U. destruct (_ && _) in U; [exfalso; exact (unhurt_signal _ _ _ U)|]. destruct (w_lis _) in U; exact U. }
        apply fine_signal; [apply fine_exec; auto|exact Y|exact U].
  - destruct sl; destruct (w_main s) as [|t1|t1|t1 a|t1 sn1 st1|t1 y a d|t1 fs msg a d|t1 a|t1 u|en] eqn:MM; try discriminate; try (destruct M; fail).
    + destruct a; try discriminate. injection H as <-. constructor; cbn; auto. apply no_nack_cons; [discriminate|exact NN].
    + destruct d as [|p| |]; try discriminate. destruct p; try discriminate. injection H as <-. constructor; cbn; auto. apply no_nack_cons; [discriminate|exact NN].
  - destruct sl; destruct (w_main s) as [|t1|t1|t1 a|t1 sn1 st1|t1 y a d|t1 fs msg a d|t1 a|t1 u|en] eqn:MM; try discriminate; try (destruct M; fail).
    + destruct a, ok; try discriminate; injection H as <-; constructor; cbn; auto.
    + destruct d as [|p| |]; try discriminate. destruct ok; [destruct p; try discriminate|]; injection H as <-; constructor; cbn; auto.
  - destruct (w_main s) as [|t1|t1|t1 a|t1 sn1 st1|t1 y a d|t1 fs msg a d|t1 a|t1 u|en] eqn:MM; try discriminate; try (destruct M; fail). destruct d; try discriminate. injection H as <-. destruct ok; constructor; cbn; auto.
  - destruct (w_main s) as [|t1|t1|t1 a|t1 sn1 st1|t1 y a d|t1 fs msg a d|t1 a|t1 u|en] eqn:MM; try discriminate; try (destruct M; fail). destruct d; try discriminate. injection H as <-. destruct ok; constructor; cbn; auto.
  - destruct (w_main s) as [|t1|t1|t1 a|t1 sn1 st1|t1 y a d|t1 fs msg a d|t1 a|t1 u|en] eqn:MM; try discriminate; try (destruct M; fail). destruct a; try discriminate; destruct d; try discriminate. injection H as <-. constructor; cbn; auto.
  - destruct (w_main s) eqn:MM; try discriminate. destruct M.
Qed.
Lemma fine_run : forall ident tr ws, reaches ident tr ws -> unhurt (w_log ws) -> fine ws.
Proof.
  intros ident tr ws R. apply (run_from_inv _ _ w_step (fun s => unhurt (w_log s) -> fine s) fine_step tr (w_init ident) ws); [|exact R]. intros _. constructor; cbn; auto. intros tm i [].
Qed.

(** While the pool catches up nobody is hurt, and nobody stops. *)
Lemma well_unhurt : forall ws e ws', goes_well e = true -> w_step ws e = Some ws' -> unhurt (w_log ws) -> unhurt (w_log ws').
Proof.
  intros ws e ws' G H U. destruct (step_acts _ _ _ H) as (new & L & X). rewrite L. apply unhurt_app. split; [|exact U]. intros tm. split; [intros k I|intros i I].
  - destruct (X _ _ I) as [_ E]. cbn in E. destruct E as (_ & [->|(t & sn & st & sf & fs & msg & _ & -> & _)]); [discriminate G|]. destruct sf; discriminate G.
  - destruct e as [d| |k| | |t| | | |sf r|sl|sl ok|ok|ok| |]; try discriminate G; try (destruct (X _ _ I) as [_ E]; cbn in E; repeat (match goal with Y : exists _, _ |- _ => destruct Y | Y : _ /\ _ |- _ => destruct Y end); discriminate).
    destruct sf; [discriminate G|]. destruct r as [[y| |]|]; try discriminate G. unfold w_step in H. destruct (w_main ws) as [|t1|t1|t1 a|t1 sn1 st1|t1 y1 a d|t1 fs msg a d|t1 a|t1 u|en] eqn:M; try discriminate. injection H as <-.
    assert (Q : exists pre, w_log (poll_select ws t1 sn1 st1 false (Some (OcOk y))) = pre ++ w_log ws /\ forall i, ~ In (tm, ASignal i) pre).
    { unfold poll_select, poll_exec, finish, start. destruct st1.
      - exists [(w_now ws, AFinish (cur ws) (OcOk y))]. split; [reflexivity|]. intros j [E|[]]. discriminate E.
      - eexists [_; _]. split; [reflexivity|]. intros j [E|[E|[]]]; discriminate E. }
    destruct Q as (pre & Q & NS). assert (E0 : new = pre) by (apply (app_inv_tail (w_log ws)); rewrite <- L; exact Q). subst pre. exact (NS _ I).
Qed.
Lemma well_stops : forall ws e ws', goes_well e = true -> w_step ws e = Some ws' -> fine ws -> stopped ws = false -> stopped ws' = false.
Proof.
  intros ws e ws' G H [J F NN M] ST. unfold stopped in *. destruct e as [d| |k| | |t| | | |sf r|sl|sl ok|ok|ok| |]; try discriminate G; unfold w_step in H.
  - injection H as <-. exact ST.
  - destruct (w_main ws); try discriminate. injection H as <-. rewrite F. reflexivity.
  - destruct (w_main ws); try discriminate. injection H as <-. destruct (marked _ _); reflexivity.
  - destruct sf; [discriminate G|]. destruct r as [[y| |]|]; try discriminate G. destruct (w_main ws); try discriminate. injection H as <-. reflexivity.
  - destruct sl; destruct (w_main ws) as [|t1|t1|t1 a|t1 sn1 st1|t1 y a d|t1 fs msg a d|t1 a|t1 u|en]; try discriminate; try (destruct M; fail); try (destruct a; try discriminate; injection H as <-; reflexivity). destruct d as [|p| |]; try discriminate. destruct p; try discriminate. injection H as <-. reflexivity.
  - cbn in G. subst ok. destruct sl; destruct (w_main ws) as [|t1|t1|t1 a|t1 sn1 st1|t1 y a d|t1 fs msg a d|t1 a|t1 u|en]; try discriminate; try (destruct M; fail); try (destruct a; try discriminate; injection H as <-; reflexivity). destruct d as [|p| |]; try discriminate. destruct p; try discriminate. injection H as <-. reflexivity.
  - cbn in G. subst ok. destruct (w_main ws) as [|t1|t1|t1 a|t1 sn1 st1|t1 y a d|t1 fs msg a d|t1 a|t1 u|en]; try discriminate; try (destruct M; fail). destruct d; try discriminate. injection H as <-. reflexivity.
  - cbn in G. subst ok. destruct (w_main ws) as [|t1|t1|t1 a|t1 sn1 st1|t1 y a d|t1 fs msg a d|t1 a|t1 u|en]; try discriminate; try (destruct M; fail). destruct d; try discriminate. injection H as <-. reflexivity.
  - destruct (w_main ws) as [|t1|t1|t1 a|t1 sn1 st1|t1 y a d|t1 fs msg a d|t1 a|t1 u|en]; try discriminate; try (destruct M; fail). destruct a; try discriminate; destruct d; try discriminate. injection H as <-. reflexivity.
  - destruct (w_main ws) as [|t1|t1|t1 a|t1 sn1 st1|t1 y a d|t1 fs msg a d|t1 a|t1 u|en]; try discriminate. destruct M.
Qed.
Lemma stopped_log : forall ws e ws', goes_well e = true -> w_step ws e = Some ws' -> stopped ws = true -> w_log ws' = w_log ws.
Proof.
  intros ws e ws' G H ST. unfold stopped in ST. destruct (w_main ws) eqn:M; try discriminate ST.
  destruct e as [d| |k| | |t| | | |sf r|sl|sl ok|ok|ok| |]; try discriminate G; unfold w_step in H; rewrite ?M in H; try discriminate H; [injection H as <-; reflexivity|destruct sl; discriminate H|destruct sl; discriminate H].
Qed.
Lemma clean_step : forall may dead s e s', sinv may s -> calm dead s e -> y_step may s e = Some s' -> clean dead s -> clean dead s'.
Proof.
  intros may dead s e s' SI C H CL. destruct e as [k|d x|ident|w j|w e|w i|d j|d]; try (destruct C; fail); cbn [y_step] in H.
  - destruct (nth_error (y_workers s) w) as [ws|] eqn:W; [|discriminate]. destruct (pick j (y_queue s)) as [[n q]|] eqn:PK; [|discriminate]. destruct (nth_error (y_sent s) n) as [[d x]|]; [|discriminate].
    destruct (nth_error (y_dirs s) d) as [dd|]; [|discriminate]. destruct (w_step ws _) as [ws'|] eqn:WS; [|discriminate]. injection H as <-. intros w0 ws0 W0. cbn [y_workers] in W0.
    destruct (upd_nth _ _ _ _ _ _ W0) as [[-> ->]|[NE W1]]; [|exact (CL _ _ W1)]. destruct (CL _ _ W) as [U _]. pose proof (take_step _ _ _ WS) as L. split.
    + rewrite L. intros tm. destruct (U tm) as [U1 U2]. split; intros z [E|I]; try discriminate E; [exact (U1 _ I)|exact (U2 _ I)].
    + intros G. exfalso. unfold gone in G. cbn in C. rewrite C in G. cbn [orb] in G. unfold w_step in WS. destruct (w_main ws); try discriminate. injection WS as <-. discriminate G.
  - destruct C as [DW G]. destruct (nth_error (y_workers s) w) as [ws|] eqn:W; [|discriminate]. destruct (possible may s ws e); [|discriminate]. destruct (w_step ws e) as [ws'|] eqn:WS; [|discriminate]. injection H as <-.
    intros w0 ws0 W0. cbn [y_workers] in W0. destruct (upd_nth _ _ _ _ _ _ W0) as [[-> ->]|[NE W1]]; [|exact (CL _ _ W1)]. destruct (CL _ _ W) as [U K]. split; [exact (well_unhurt _ _ _ G WS U)|].
    unfold gone in *. rewrite DW in *. cbn [orb] in *. intros ST. destruct (si_work _ _ SI _ _ W) as (ident & wtr & WR). destruct (stopped ws) eqn:S0; [|rewrite (well_stops _ _ _ G WS (fine_run _ _ _ WR U) S0) in ST; discriminate ST].
    rewrite (stopped_log _ _ _ G WS S0). exact (K eq_refl).
  - destruct (nth_error (y_workers s) w) as [ws|] eqn:W; [|discriminate]. destruct (body_of i (w_log ws)) as [n|] eqn:BO; [|discriminate]. destruct (_ || _) eqn:AC; [discriminate|]. injection H as <-. exact CL.
  - destruct (nth_error (y_dirs s) d) as [dd|] eqn:D; [|discriminate]. destruct (pick j (y_results s)) as [[r rest]|]; [|discriminate]. destruct (_ && _) eqn:O; [|discriminate]. injection H as <-. exact CL.
Qed.
Lemma sinv_any : forall may s e s', sinv may s -> y_step may s e = Some s' -> sinv may s'.
Proof. intros may s e s' SI H. destruct e; [eapply sinv_lease|eapply sinv_send|eapply sinv_start|eapply sinv_take|eapply sinv_work|eapply sinv_back|eapply sinv_recv|eapply sinv_release]; eauto. Qed.
Lemma clean_run : forall may dead s tr s', calmly may dead s tr s' -> sinv may s -> clean dead s -> clean dead s'.
Proof. intros may dead s tr s' C. induction C as [s|s e s1 tr s2 P S _ IH]; [auto|]. intros SI CL. apply IH; [exact (sinv_any _ _ _ _ SI S)|exact (clean_step _ _ _ _ _ SI P S CL)]. Qed.

Theorem C97_all_answered : forall may dead tr s, sys_reaches may tr s -> (forall x, exists y, may x (OcOk y) = true) -> some_able dead s -> clean dead s ->
  exists tr' s', calmly may dead s tr' s' /\ dirs_kept s s' /\
    forall n d x dd, dispatched s n d x -> nth_error (y_dirs s') d = Some dd -> d_open dd = true -> exists r o, In r (d_got dd) /\ r_n r = n /\ may x o = true /\ result_of o = Some (r_out r).
Proof.
  intros may dead tr s R TO AB CL. destruct (C97_catch_up may dead tr s R TO AB) as (tr' & s' & C & WO & HO & DK). exists tr', s'. split; [exact C|]. split; [exact DK|].
  intros n d x dd D DD O. pose proof (sinv_run _ _ _ R) as SI. pose proof (clean_run _ _ _ _ _ C SI CL) as CL'.
  assert (R' : sys_reaches may (tr ++ tr') s'). { unfold sys_reaches. apply run_from_app. exists s. split; [exact R|exact (calmly_run _ _ _ _ _ C)]. }
  assert (D' : dispatched s' n d x) by (unfold dispatched in *; rewrite (proj1 DK); exact D). pose proof (sinv_run _ _ _ R') as SI'.
  destruct (C97_answered _ _ _ _ _ _ _ _ R' WO HO D' DD O) as [(r & I & E)|(w & ws & i & W & T & SE & NP)].
  - assert (A : In r (all_res s')) by (apply in_all; right; left; eauto). destruct (res_origin _ _ _ SI' A) as (d0 & x0 & dd0 & ws0 & o & S1 & _ & _ & _ & _ & _ & M & RO). rewrite E in S1. unfold dispatched in *. rewrite D' in S1. injection S1 as <- <-. exists r, o. auto.
  - exfalso. destruct (CL' _ _ W) as [U K]. destruct (si_work _ _ SI' _ _ W) as (ident & wtr & WR). pose proof (fine_run _ _ _ WR U) as [_ _ NN _]. unfold settled in SE. apply existsb_exists in SE. destruct SE as ([tm a] & I & E). cbn in E.
    destruct a; try discriminate E; apply Nat.eqb_eq in E; subst i0; [|exact (NN _ _ I)].
    destruct (proj1 (proj2 WO) _ _ W) as [M|G]; [|destruct (K G _ _ I) as (tm' & k & v & I'); exact (proj1 (NP tm' k v) I')].
    assert (OK : tally COk i (w_log ws) = 0). { apply cnt_zero. intros [tm' b] I'. cbn. destruct b; try reflexivity. destruct (Nat.eqb_spec i0 i) as [->|]; [|reflexivity]. exfalso. exact (proj1 (NP _ _ _) I'). }
    assert (AK : 0 < tally CAck i (w_log ws)). { unfold tally. destruct (cnt _ (w_log ws)) eqn:Z; [|lia]. rewrite cnt_zero in Z. specialize (Z _ I). cbn in Z. rewrite Nat.eqb_refl in Z. discriminate Z. }
    pose proof (winv_run _ _ _ WR) as [WB _ _]. destruct T as (u & t & TI & _). pose proof (WB _ _ TI eq_refl) as IL. cbn in IL.
    destruct (C35_answers _ _ _ WR) as (_ & A & _). assert (EN : S i < w_taken ws \/ S i = w_taken ws /\ w_main ws = WpWait) by (destruct (Nat.eq_dec (S i) (w_taken ws)); [auto|left; lia]).
    rewrite (A i COk EN) in OK. rewrite (A i CAck EN) in AK. destruct (outcome_of i (w_log ws)) as [[y|[|] msg|]|]; cbn in *; lia.
Qed.
(** The exception is one: a task that a worker acked and crashed before publishing its result is not answered, whoever catches up. *)
Lemma took_single : forall may y n w ws i w' ws' i', sinv may y -> cnt (back_n n) (y_back y) = 0 -> nth_error (y_workers y) w = Some ws -> took ws i n ->
  nth_error (y_workers y) w' = Some ws' -> took ws' i' n -> w = w' /\ i = i'.
Proof.
  intros may y n w ws i w' ws' i' SI B W T W' T'. pose proof (si_count _ _ SI n) as C. rewrite B in C.
  assert (LE : wsum (fun ws => takes n (w_log ws)) (y_workers y) <= 1) by (destruct (n <? length (y_sent y)); lia). clear C.
  destruct (Nat.eq_dec w w') as [<-|NW].
  - split; [reflexivity|]. assert (ws' = ws) by congruence. subst ws'. destruct (Nat.eq_dec i i') as [<-|NI]; [reflexivity|exfalso].
    pose proof (wsum_in (fun ws => takes n (w_log ws)) _ _ _ W) as X. cbn beta in X. destruct T as (tm & t & I & Q), T' as (tm' & t' & I' & Q').
    assert (2 <= takes n (w_log ws)); [|lia]. apply (cnt_two _ _ _ (tm, ATake i t) (tm', ATake i' t')); auto; [congruence| |]; unfold take_of; cbn; apply Nat.eqb_eq; assumption.
  - exfalso. pose proof (wsum_two (fun ws => takes n (w_log ws)) _ _ _ _ _ W W' NW) as X. cbn beta in X. pose proof (took_takes _ _ _ T). pose proof (took_takes _ _ _ T'). lia.
Qed.
Lemma calm_alone : forall may dead s e s' w ws i n, sinv may s -> calm dead s e -> y_step may s e = Some s' -> nth_error (y_workers s) w = Some ws -> dead w = true -> took ws i n -> settled i (w_log ws) = true ->
  cnt (back_n n) (y_back s) = 0 -> nth_error (y_workers s') w = Some ws /\ cnt (back_n n) (y_back s') = 0.
Proof.
  intros may dead s e s' w0 ws0 i0 n0 SI C H W0 DW T SE B. destruct e as [k|d x|ident|w j|w e|w i|d j|d]; try (destruct C; fail); cbn [y_step] in H.
  - destruct (nth_error (y_workers s) w) as [ws|] eqn:W; [|discriminate]. destruct (pick j (y_queue s)) as [[n q]|] eqn:PK; [|discriminate]. destruct (nth_error (y_sent s) n) as [[d x]|]; [|discriminate].
    destruct (nth_error (y_dirs s) d) as [dd|]; [|discriminate]. destruct (w_step ws _) as [ws'|] eqn:WS; [|discriminate]. injection H as <-. cbn [y_workers y_back]. split; [|exact B]. rewrite upd_nth_other; [exact W0|]. cbn in C. congruence.
  - destruct C as [DW1 G]. destruct (nth_error (y_workers s) w) as [ws|] eqn:W; [|discriminate]. destruct (possible may s ws e); [|discriminate]. destruct (w_step ws e) as [ws'|] eqn:WS; [|discriminate]. injection H as <-.
    cbn [y_workers y_back]. split; [|exact B]. rewrite upd_nth_other; [exact W0|]. congruence.
  - destruct C as (ws & W & G & NS). rewrite W in H. destruct (body_of i (w_log ws)) as [n|] eqn:BO; [|discriminate]. destruct (_ || _) eqn:AC; [discriminate|]. injection H as <-. cbn [y_workers y_back]. split; [exact W0|].
    rewrite cnt_cons, B. unfold back_n. cbn [snd]. destruct (Nat.eqb_spec n n0) as [->|]; [exfalso|reflexivity].
    destruct (body_in _ _ _ BO) as (tm & t & I & E). destruct (took_single _ _ _ _ _ _ _ _ _ SI B W0 T W (ex_intro _ tm (ex_intro _ t (conj I E)))) as [-> ->]. congruence.
  - destruct (nth_error (y_dirs s) d) as [dd|] eqn:D; [|discriminate]. destruct (pick j (y_results s)) as [[r rest]|]; [|discriminate]. destruct (_ && _) eqn:O; [|discriminate]. injection H as <-. auto.
Qed.
Theorem C97_lost : forall may dead tr s w ws i n, sys_reaches may tr s -> nth_error (y_workers s) w = Some ws -> dead w = true -> took ws i n -> settled i (w_log ws) = true ->
  (forall tm k v, ~ In (tm, AOk i k v) (w_log ws) /\ ~ In (tm, AErr i k v) (w_log ws)) -> returned n s = 0 ->
  forall tr' s' d dd r, calmly may dead s tr' s' -> nth_error (y_dirs s') d = Some dd -> In r (d_got dd) -> r_n r <> n.
Proof.
  intros may dead tr s w ws i n R W DW T SE NP RT tr' s' d dd r C D I E. pose proof (sinv_run _ _ _ R) as SI. change (returned n s) with (cnt (back_n n) (y_back s)) in RT.
  assert (K : sinv may s' /\ nth_error (y_workers s') w = Some ws /\ cnt (back_n n) (y_back s') = 0).
  { clear R D. induction C as [s|s e s1 tr0 s2 P S _ IH]; [auto|]. destruct (calm_alone _ _ _ _ _ _ _ _ _ SI P S W DW T SE RT) as [W1 B1]. apply IH; auto. exact (sinv_any _ _ _ _ SI S). }
  destruct K as (SI' & W' & B'). assert (A : In r (all_res s')) by (apply in_all; right; left; eauto). destruct (si_res _ _ SI' _ A) as (ws1 & W1 & BO & tm & L). rewrite E in BO. destruct (body_in _ _ _ BO) as (tt & t & I1 & E1).
  destruct (took_single _ _ _ _ _ _ _ _ _ SI' B' W' T W1 (ex_intro _ tt (ex_intro _ t (conj I1 E1)))) as [Ew Ei]. assert (ws1 = ws) by congruence. subst ws1.
  unfold act_of in L. rewrite <- Ei in L. destruct (r_out r) as [v|v]; [exact (proj1 (NP _ _ _) L)|exact (proj2 (NP _ _ _) L)].
Qed.
Print Assumptions C97_lost.
Print Assumptions C97_catch_up.
Print Assumptions C97_answered.
Print Assumptions C97_all_answered.

(** Three workers: the first crashed while it executed a task, the second panicked in one, the third waits; one task is in the queue. All three tasks can be answered. *)
Definition succeeds (x : nat) (o : outcome) : bool := match o with OcOk y => Nat.eqb y (x + 100) | OcPanic => true | _ => false end.
Definition first_dead (w : nat) : bool := Nat.eqb w 0.
Definition torn : list y_event := [YLease 7; YStart 20; YStart 21; YStart 22; YSend 0 1; YSend 0 2; YSend 0 3; YTake 0 0; YTake 1 0;
  YWork 0 WFlag; YWork 0 WCheck; YWork 0 (WPoll true None); YWork 1 WFlag; YWork 1 WCheck; YWork 1 (WPoll true (Some OcPanic))].
Example C97_ex : exists s, sys_reaches succeeds torn s /\ (forall x, exists y, succeeds x (OcOk y) = true) /\ some_able first_dead s /\ clean first_dead s /\
  map w_main (y_workers s) = [WpRun (mkT 7 0) 0 true; WpStop EndPanic; WpWait] /\ y_queue s = [2] /\ map d_got (y_dirs s) = [[]].
Proof.
  eexists. split; [vm_compute; reflexivity|]. split; [intros x; exists (x + 100); apply Nat.eqb_refl|]. split; [exists 2; eexists; split; [reflexivity|]; split; [reflexivity|]; split; [reflexivity|exact Logic.I]|].
  split; [|split; [reflexivity|split; reflexivity]]. intros w ws W. destruct w as [|[|[|w]]]; [| | |destruct w; discriminate W]; cbn [nth_error y_workers] in W; injection W as <-; (split; [intros tm; split; intros z I; cbn in I; repeat (destruct I as [I|I]; [discriminate I|]); destruct I|]);
    intros _ tm i I; cbn in I; repeat (destruct I as [I|I]; [discriminate I|]); destruct I.
Qed.
(** One way to do it. *)
Definition mended : list y_event := [YTake 2 0] ++ work 2 (OcOk 103) (resolve 0) ++ [YBack 0 0; YTake 2 0] ++ work 2 (OcOk 101) (resolve 0) ++ [YBack 1 0; YTake 2 0] ++ work 2 (OcOk 102) (resolve 0) ++ [YRecv 0 0; YRecv 0 0; YRecv 0 0].
Example C97_ex_done : option_map (fun s => (map (fun d => map (fun r => (r_n r, r_out r)) (d_got d)) (y_dirs s), y_queue s, map w_main (y_workers s))) (run_from (y_step succeeds) y_init (torn ++ mended)) =
  Some ([[(2, inl 103); (0, inl 101); (1, inl 102)]], [], [WpRun (mkT 7 0) 0 true; WpStop EndPanic; WpWait]).
Proof. vm_compute. reflexivity. Qed.
(** The first worker crashed between acking and publishing: its task is lost. *)
Definition hole : list y_event := [YLease 7; YStart 20; YStart 21; YSend 0 1; YTake 0 0; YWork 0 WFlag; YWork 0 WCheck; YWork 0 (WPoll true (Some (OcOk 101))); YWork 0 (WEffect SAck)].
Example C97_lost_ex : exists s ws, sys_reaches succeeds hole s /\ nth_error (y_workers s) 0 = Some ws /\ first_dead 0 = true /\ took ws 0 0 /\ settled 0 (w_log ws) = true /\
  (forall tm k v, ~ In (tm, AOk 0 k v) (w_log ws) /\ ~ In (tm, AErr 0 k v) (w_log ws)) /\ returned 0 s = 0 /\ some_able first_dead s.
Proof.
  eexists. eexists. split; [vm_compute; reflexivity|]. split; [reflexivity|]. split; [reflexivity|]. split; [exists 0%N, (mkT 7 0); split; [cbn; tauto|reflexivity]|]. split; [reflexivity|].
  split; [intros tm k v; split; intros I; cbn in I; repeat (destruct I as [I|I]; [discriminate I|]); destruct I|]. split; [reflexivity|]. exists 1. eexists. split; [reflexivity|]. split; [reflexivity|]. split; [reflexivity|exact Logic.I].
Qed.
(** What [C97_answered] is about: the state above, and the one of the lost task, with everything else done. *)
Example C97_answered_ex : exists s, sys_reaches succeeds (torn ++ mended) s /\ worked_off first_dead s /\ handed_out s.
Proof.
  eexists. split; [vm_compute; reflexivity|]. split; [|intros r d dd []]. split; [reflexivity|]. split.
  - intros w ws W. destruct w as [|[|[|w]]]; [| | |destruct w; discriminate W]; cbn [nth_error y_workers] in W; injection W as <-; [right; reflexivity|right; reflexivity|left; reflexivity].
  - intros w ws i n W G (tm & t & I & E). destruct w as [|[|[|w]]]; [| | |destruct w; discriminate W]; cbn [nth_error y_workers] in W; injection W as <-; [right|right|discriminate G]; cbn in I;
      repeat (destruct I as [I|I]; [try discriminate I; injection I as <- <- <-; reflexivity|]); destruct I.
Qed.
