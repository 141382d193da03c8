(** C14: does a mapped stream end once its input has ended and all results were read? *)
From Coq Require Import List Arith NArith Bool Lia Permutation.
From Verif Require Import Base BaseFacts CoordModel PublishModel PublishSpec PublishProofs MapModel MapSpec MapProofs MapLive MapMeasure MapProps.
Import ListNotations.
Open Scope nat_scope.

(** Nothing will ever happen again: no poll is under way, the consumer was not woken, no event but an unasked-for poll is possible. *)
Definition stuck {A B E O : Type} (exec : O -> A -> res E B) (s : mstate A B E) : Prop :=
  m_poll s = MIdle /\ pa_woken (m_pa s) = false /\ forall e, e <> MPoll -> m_step exec s e = None.

(** First run: two inputs that arrive late, an input that ends later still, and a publisher that never suspends. The sixth poll
    begins with the result stream, which waits because the channel is open; then the sending side closes the channel and wakes
    nobody. *)
Definition late_trace : list (m_event unit) :=
  [MPoll; MLeft PaPull; MLeftPend; MEmpty;
   MEnv PaArrive; MEnv PaArrive;
   MPoll; MEmpty; MLeft PaPull; MLeft PaPull; MLeft PaPull;
     MLeft (PaStart 0); MEnv (PaAccept 0); MEnv (PaReply 0 true); MLeft (PaFinish 0);
     MLeft (PaStart 0); MEnv (PaAccept 0); MEnv (PaReply 0 true); MLeft (PaFinish 0); MLeftPend;
   MWork 0 tt; MWork 0 tt;
   MPoll; MLeftPend; MTake; MAckStart; MAckReply true; MAckFinish;
   MPoll; MTake; MAckStart; MAckReply true; MAckFinish;
   MPoll; MLeftPend; MEmpty;
   MEnv PaEnd;
   MPoll; MEmpty; MLeft PaPull; MLeft PaReturn].

(** Second run: the input is there from the start, but the broker answers the publish after the result was read. *)
Definition slow_trace : list (m_event unit) :=
  [MPoll; MLeft PaPull; MLeft PaPull; MLeft (PaStart 0); MLeft (PaCheck 0); MLeftPend; MEmpty;
   MEnv (PaAccept 0); MWork 0 tt;
   MPoll; MTake; MAckStart; MAckReply true; MAckFinish;
   MPoll; MLeftPend; MEmpty;
   MEnv (PaReply 0 true);
   MPoll; MEmpty; MLeft (PaFinish 0); MLeft PaReturn].

Ltac no_events :=
  let e := fresh in intros e; destruct e as [| e | | | | | | | | e | ? | i o | i | i | i | i]; try congruence; intros _;
  try reflexivity; try (now destruct i); destruct e as [|i|i|i|i| | | |i|i ok|i]; try reflexivity; now destruct i.

(** C14 is false: the consumer polls whenever it is woken, the input ends, every task is executed and every result read, and yet the
    consumer never sees the end. *)
Theorem C14_late_input_refuted : exists tr s,
  no_fault tr /\ run_from (m_step dbl) (m_init [] two_inputs false) tr = Some s /\
  (forall i, ~ In (MLeft (PaCheck i)) tr) /\
  stuck dbl s /\ quiescent dbl s /\ ended (m_log s) = false /\
  Permutation (yielded (m_log s)) [(0, 10); (1, 14)]%N /\ spurious_polls dbl (m_init [] two_inputs false) tr = 0.
Proof.
  exists late_trace. eexists.
  assert (H : forall P : Prop, P -> P) by auto.
  split; [intros e I; cbn in I; repeat destruct I as [<-|I]; try contradiction; repeat split|].
  split; [vm_compute; reflexivity|].
  split; [intros i I; cbn in I; repeat destruct I as [I|I]; try discriminate; contradiction|].
  assert (S : forall s, s = match run_from (m_step dbl) (m_init [] two_inputs false) late_trace with Some s => s | None => m_init [] [] true end -> stuck dbl s).
  { intros s ->. split; [vm_compute; reflexivity|]. split; [vm_compute; reflexivity|]. vm_compute. no_events. }
  split; [apply S; vm_compute; reflexivity|].
  split; [split; [reflexivity|]; split; [reflexivity|]; intros e He; apply S; [vm_compute; reflexivity|intros ->; discriminate]|].
  split; [reflexivity|]. split; [apply perm_swap|vm_compute; reflexivity].
Qed.

Theorem C14_slow_publisher_refuted : exists tr s,
  no_fault tr /\ run_from (m_step dbl) (m_init [ROk (0, 5)%N] [] true) tr = Some s /\
  stuck dbl s /\ quiescent dbl s /\ ended (m_log s) = false /\
  yielded (m_log s) = [(0, 10)]%N /\ spurious_polls dbl (m_init [ROk (0, 5)%N] [] true) tr = 0.
Proof.
  exists slow_trace. eexists.
  split; [intros e I; cbn in I; repeat destruct I as [<-|I]; try contradiction; repeat split|].
  split; [vm_compute; reflexivity|].
  assert (S : forall s, s = match run_from (m_step dbl) (m_init [ROk (0, 5)%N] [] true) slow_trace with Some s => s | None => m_init [] [] true end -> stuck dbl s).
  { intros s ->. split; [vm_compute; reflexivity|]. split; [vm_compute; reflexivity|]. vm_compute. no_events. }
  split; [apply S; vm_compute; reflexivity|].
  split; [split; [reflexivity|]; split; [reflexivity|]; intros e He; apply S; [vm_compute; reflexivity|intros ->; discriminate]|].
  split; [reflexivity|]. split; [reflexivity|vm_compute; reflexivity].
Qed.

Section Ends.
Context {A B E O : Type}.
Variable exec : O -> A -> res E B.
Variable f : A -> B.
Hypothesis exec_ok : forall o x y, exec o x = ROk y -> y = f x.
Notation step := (m_step exec).

(** What does hold. (1) When nothing more happens every result was delivered, and one further poll, even an unasked-for one, finds the
    end of the stream. Missing for C14: that poll need not come. *)
Theorem C14_delivered_partial : forall arr late en tr s xs (o0 : O),
  (N.of_nat (length (arr ++ late)) < usize_max)%N -> no_fault tr -> arr ++ late = map ROk xs ->
  run_from step (m_init arr late en) tr = Some s -> quiescent exec s ->
  (failed (m_log s) = false -> Permutation (yielded (m_log s)) (map (image f) xs)) /\
  (forall tr' s', run_from step s (MPoll :: tr') = Some s' -> m_poll s' = MIdle -> ended (m_log s') = true).
Proof.
  intros arr late en tr s xs o0 SH NF IX H Q.
  pose proof (minv_run exec f exec_ok arr late en tr s SH (no_fault_dup _ NF) H) as M.
  assert (NE : no_errors (arr ++ late)).
  { intros x X. rewrite IX in X. apply in_map_iff in X as (y & Y & _). discriminate. }
  pose proof (good_run exec f exec_ok arr late en tr s NE SH NF H) as G.
  pose proof (quiet_settled exec f (arr ++ late) s o0 M (winv_run exec arr late en tr s H) G Q) as ST.
  split.
  - intros F. destruct M as [PA (errs & FL & FE) VA PE BO SE CS RE RD LD NO KO].
    assert (errs = []) as -> by (destruct errs; [reflexivity|]; rewrite FE in F; [discriminate|congruence]).
    destruct ST as [S1 S2 S3 S4 S5 S6 S7 S8 S9]. unfold then_list in FL. rewrite S7, S8, S9, (g_lost _ G) in FL. cbn [map app] in FL. rewrite !app_nil_r in FL.
    destruct (g_ret _ G) as [R|R]; [congruence|]. destruct (pi_ok _ _ PA R) as (Ar & En & Dr). pose proof (pi_end _ _ PA En) as Lt.
    destruct (pi_count _ _ PA) as (rest & CT & RS).
    assert (rest = []) as ->.
    { destruct rest as [|x rest]; [reflexivity|]. destruct RS as [X|(r & X & Y)]; [discriminate| |]; [rewrite S4 in X; discriminate|congruence]. }
    rewrite Dr, S4 in CT. change (unacc []) with (@nil (nat * (N * A))) in CT. cbn [app] in CT. rewrite app_nil_r in CT.
    assert (xs = pa_pulled (m_pa s)) as ->.
    { pose proof (pi_split _ _ PA) as SP. rewrite IX, R, Ar, Lt in SP. cbn in SP. rewrite app_nil_r in SP. clear -SP.
      revert SP. generalize (pa_pulled (m_pa s)) as l. induction xs as [|x xs IH]; intros [|y l] SP; cbn in SP; try discriminate; [reflexivity|].
      injection SP as -> SP. f_equal. auto. }
    symmetry. eapply Permutation_trans; [|exact FL].
    rewrite <- (numbered_snd _ (pa_pulled (m_pa s))) at 1. rewrite map_map. now apply Permutation_map.
  - intros tr' s' H' P'. exact (settled_ends exec s tr' s' ST (proj1 Q) H' P').
Qed.

(** (2) If the input is there from the start and the publisher never suspends, as the in-memory one (in_memory.rs:483-490), the
    consumer does see the end. *)
Theorem C14_in_memory_partial : forall arr tr s xs (o0 : O),
  (N.of_nat (length arr) < usize_max)%N -> no_fault tr -> arr = map ROk xs ->
  (forall i, ~ In (MLeft (PaCheck i)) tr) ->
  run_from step (m_init arr [] true) tr = Some s -> quiescent exec s -> ended (m_log s) = true.
Proof.
  intros arr tr s xs o0 SH NF IX NS H Q. rewrite <- (app_nil_r arr) in SH.
  pose proof (minv_run exec f exec_ok arr [] true tr s SH (no_fault_dup _ NF) H) as M.
  assert (NE : no_errors (arr ++ [])).
  { rewrite app_nil_r. intros x X. rewrite IX in X. apply in_map_iff in X as (y & Y & _). discriminate. }
  pose proof (good_run exec f exec_ok arr [] true tr s NE SH NF H) as G.
  destruct (quiet_settled exec f (arr ++ []) s o0 M (winv_run exec arr [] true tr s H) G Q) as [S1 S2 S3 S4 S5 S6 S7 S8 S9].
  destruct (jinv_run exec arr tr s NS H) as (J1 & J2 & J3). destruct Q as (Q1 & Q2 & Q3). rewrite S1, Q1 in J3.
  destruct J3 as [X|[X|[(_ & _ & _ & X)|(r & X)]]]; congruence.
Qed.

(** (3) Runs are finite but for polls nobody asked for. *)
Theorem C14_finite : forall arr late en tr s, no_dup tr ->
  run_from step (m_init arr late en) tr = Some s ->
  length tr <= 136 * length arr + 144 * length late + 28 + 3 * spurious_polls exec (m_init arr late en) tr.
Proof.
  intros arr late en tr s ND H. pose proof (work_run exec tr _ s ND H) as W.
  unfold work at 2 in W. unfold pm in W. cbn in W. destruct late, en; cbn in W |- *; lia.
Qed.

Definition micro (e : m_event O) : bool :=
  match e with MLeft _ | MLeftPend | MLeftNone | MTake | MEmpty | MAckStart | MAckCheck | MAckFinish => true | _ => false end.

(** (4) And they do not stop before the state is quiescent: otherwise the environment, the poll under way or a poll that was asked
    for can go on. *)
Theorem C14_progress : forall arr late en tr s (o0 : O),
  (N.of_nat (length (arr ++ late)) < usize_max)%N -> no_dup tr ->
  run_from step (m_init arr late en) tr = Some s ->
  quiescent exec s \/
  exists e s', (helpful e = true \/ micro e = true \/ (e = MPoll /\ pa_woken (m_pa s) = true)) /\ step s e = Some s'.
Proof.
  intros arr late en tr s o0 SH ND H. pose proof (minv_run exec f exec_ok arr late en tr s SH ND H) as M.
  pose proof (mi_pa _ _ _ M) as PA.
  destruct (m_poll s) as [|[|] k] eqn:P.
  - destruct (pa_woken (m_pa s)) eqn:W.
    { right. exists MPoll. cbn. rewrite P. destruct (m_ldone s), (m_rdone s); eexists; (split; [auto|reflexivity]). }
    destruct (m_tasks s) as [|t ts] eqn:T.
    2: { right. exists (MWork 0 o0). eexists. split; [now left|]. cbn. rewrite T. reflexivity. }
    assert (TN : (exists r b, m_then s = Some (r, AWait b)) \/ forall ok, step s (MAckReply ok) = None).
    { cbn. destruct (m_then s) as [[r [|b|b]]|]; eauto. }
    destruct TN as [(r & b & TN)|TN].
    { right. exists (MAckReply true). cbn. rewrite TN. eexists. split; [now left|reflexivity]. }
    assert (PE : (exists e p, helpful (MEnv e : m_event O) = true /\ poll_event e = false /\ pa_step (m_pa s) e = Some p) \/
      forall e, helpful (MEnv e : m_event O) = true -> poll_event e = false -> pa_step (m_pa s) e = None).
    { unfold pa_step. destruct (pa_ret (m_pa s)) as [r|] eqn:R.
      - destruct (pa_dropped (m_pa s)) as [|d ds].
        + right. intros [] X Y; try reflexivity. now destruct i.
        + left. exists (PaAcceptDropped 0). eexists. cbn. auto.
      - destruct (pa_late (m_pa s)) as [|x lt] eqn:Lt.
        2: { left. exists PaArrive. eexists. cbn. auto. }
        destruct (pa_end (m_pa s)) eqn:En.
        2: { left. exists PaEnd. eexists. cbn. auto. }
        destruct (existsb (fun x => match snd x with FWait _ _ => true | _ => false end) (pa_futs (m_pa s))) eqn:X.
        + left. apply existsb_exists in X as ([[n x] u] & I & X). apply In_nth_error in I as (i & I). destruct u as [|[|] b|b]; try discriminate.
          * exists (PaReply i true). rewrite I. eexists. cbn. auto.
          * exists (PaAccept i). rewrite I. eexists. cbn. auto.
        + right. intros e X1 X2.
          assert (Z : forall i n x a b, nth_error (pa_futs (m_pa s)) i = Some (n, x, FWait a b) -> False).
          { intros i n x a b I. apply nth_error_In in I. assert (Y : existsb (fun x => match snd x with FWait _ _ => true | _ => false end) (pa_futs (m_pa s)) = true).
            { apply existsb_exists. eexists. split; [exact I|reflexivity]. } congruence. }
          destruct e; try discriminate; try reflexivity;
            destruct (nth_error (pa_futs (m_pa s)) i) as [[[n x] [|a b|b]]|] eqn:I; try reflexivity; exfalso; eauto. }
    destruct PE as [(e & p & X1 & X2 & X3)|PE].
    { right. exists (MEnv e). cbn [m_step]. rewrite X2, X3. eexists. split; [now left|reflexivity]. }
    left. split; [exact P|]. split; [exact W|]. intros e He.
    destruct e as [| e | | | | | | | | e | ok | i o | i | i | i | i]; try discriminate; auto.
    + cbn [m_step]. destruct (poll_event e) eqn:PV; [reflexivity|]. now rewrite (PE e He PV).
    + cbn. rewrite T. now destruct i.
  - right. destruct (m_sent s) eqn:Sn.
    { exists MLeftNone. cbn. rewrite P, Sn. eexists. split; [auto|reflexivity]. }
    assert (R : pa_ret (m_pa s) = None).
    { destruct (pa_ret (m_pa s)) eqn:R; [|reflexivity]. assert (X : m_sent s = true) by (apply (mi_sent _ _ _ M); congruence). congruence. }
    pose proof (mi_closed _ _ _ M) as CS. rewrite Sn in CS.
    assert (GO : forall e, poll_event e = true -> (forall i, e <> PaRefuse i) -> pa_inreg (m_pa s) = false \/ e <> PaPull -> pa_step (m_pa s) e <> None ->
      exists e0 s', (helpful e0 = true \/ micro e0 = true \/ (e0 = MPoll /\ pa_woken (m_pa s) = true)) /\ step s e0 = Some s').
    { intros e X1 X2 X3 X4. destruct (pa_step (m_pa s) e) as [p|] eqn:X; [|congruence]. exists (MLeft e). cbn [m_step]. rewrite P, Sn, X1, CS. cbn.
      destruct e; try discriminate; rewrite ?X; try (eexists; split; [auto|reflexivity]).
      - destruct X3 as [-> |X3]; [|congruence]. eexists. split; [auto|reflexivity].
      - exfalso. now apply (X2 i). }
    destruct (pa_idle (m_pa s)) eqn:I.
    { exists MLeftPend. cbn. rewrite P, Sn, I. eexists. split; [auto|reflexivity]. }
    unfold pa_idle in I. rewrite R in I. cbn [andb] in I. apply andb_false_iff in I as [I|I].
    + assert (X : exists i n x u, nth_error (pa_futs (m_pa s)) i = Some (n, x, u) /\ match u with FWait _ true => False | _ => True end).
      { clear -I. induction (pa_futs (m_pa s)) as [|[[n x] u] l IH]; [discriminate|]. cbn in I.
        destruct u as [|a [|]|b]; try (exists 0; eexists _, _, _; split; [reflexivity|exact Logic.I]).
        destruct (IH I) as (i & X). exists (S i). exact X. }
      destruct X as (i & n & x & u & X & Y). destruct u as [|a [|]|b]; [|contradiction| |].
      * apply (GO (PaStart i)); try reflexivity; try discriminate; [right; discriminate|]. unfold pa_step. rewrite R, X. discriminate.
      * apply (GO (PaCheck i)); try reflexivity; try discriminate; [right; discriminate|]. unfold pa_step. rewrite R, X. discriminate.
      * apply (GO (PaFinish i)); try reflexivity; try discriminate; [right; discriminate|]. unfold pa_step. rewrite R.
        destruct (pick_some _ i (pa_futs (m_pa s))) as (y & rr & PK); [apply nth_error_Some; congruence|].
        pose proof (pick_nth _ _ _ _ _ PK) as PN. rewrite PK. rewrite X in PN. injection PN as <-. destruct b; discriminate.
    + apply orb_false_iff in I as [I I3]. apply orb_false_iff in I as [I1 I2]. apply negb_false_iff in I2.
      destruct (pa_open (m_pa s)) eqn:Op.
      * apply (GO PaPull); try reflexivity; try discriminate; [now left|]. unfold pa_step. rewrite R, Op, I2. cbn.
        destruct (pa_arr (m_pa s)) as [|[x|x] ar]; [destruct (pa_end (m_pa s))| |]; discriminate.
      * destruct (pa_futs (m_pa s)) eqn:Fu; [|discriminate]. apply (GO PaReturn); try reflexivity; try discriminate; [right; discriminate|].
        unfold pa_step. rewrite R, Op, Fu. discriminate.
  - right. destruct (m_then s) as [[r [|b|[|]]]|] eqn:Tn.
    + exists MAckStart. cbn. rewrite P, Tn. eexists. split; [auto|reflexivity].
    + exists MAckCheck. cbn. rewrite P, Tn. eexists. split; [auto|reflexivity].
    + exists MAckFinish. cbn. rewrite P, Tn. eexists. split; [auto|reflexivity].
    + exists MAckFinish. cbn. rewrite P, Tn. eexists. split; [auto|reflexivity].
    + destruct (m_results s) eqn:Rs.
      * exists MEmpty. cbn [m_step]. rewrite P, Tn, Rs. eexists. split; [auto|reflexivity].
      * exists MTake. cbn. rewrite P, Tn, Rs. eexists. split; [auto|reflexivity].
Qed.

(** (5) So from every state a quiescent one is reached, without faults and without unasked-for polls, by whatever is done next. *)
Theorem C14_quiesces : forall arr late en tr s (o0 : O),
  (N.of_nat (length (arr ++ late)) < usize_max)%N -> no_dup tr ->
  run_from step (m_init arr late en) tr = Some s ->
  exists tr' s', run_from step s tr' = Some s' /\ quiescent exec s' /\ no_fault tr' /\ spurious_polls exec s tr' = 0.
Proof.
  intros arr late en tr s o0 SH. remember (work s) as w eqn:W. revert tr s W.
  induction w as [w IH] using lt_wf_ind. intros tr s W ND H.
  destruct (C14_progress arr late en tr s o0 SH ND H) as [Q|(e & s1 & X & S)].
  - exists [], s. split; [reflexivity|]. split; [exact Q|]. split; [intros e []|reflexivity].
  - assert (D : duplicates e = false /\ loses e = false /\ fails e = false /\ spurious s e = 0).
    { destruct X as [X|[X|(-> & X)]]; [| |cbn; rewrite X; auto].
      - destruct e as [| | | | | | | | |e|ok| | | | |]; try discriminate; cbn; auto.
        + destruct e; auto. destruct ok; auto; discriminate.
        + destruct ok; auto; discriminate.
      - destruct e; try discriminate; auto. }
    destruct D as (D1 & D2 & D3 & D4). pose proof (work_step exec s e s1 D1 S) as WS. rewrite D4 in WS.
    destruct (IH (work s1) ltac:(lia) (tr ++ [e]) s1 eq_refl) as (tr' & s' & R & Q & NF & SP).
    + intros x I. apply in_app_or in I as [I|[<-|[]]]; auto.
    + apply run_from_app. exists s. split; [exact H|]. cbn. rewrite S. reflexivity.
    + exists (e :: tr'), s'. cbn [run_from spurious_polls]. rewrite S. split; [exact R|]. split; [exact Q|]. split; [|lia].
      intros x [<-|I]; auto.
Qed.
End Ends.

(** A case of (2): the run of C12, which reaches a quiescent state. *)
Example C14_example : exists s, run_two = Some s /\ quiescent dbl s /\ ended (m_log s) = true /\ no_fault two_trace /\
  (forall i, ~ In (MLeft (PaCheck i)) two_trace).
Proof.
  eexists. split; [vm_compute; reflexivity|]. split.
  - split; [reflexivity|]. split; [reflexivity|]. intros e He.
    destruct e as [| e | | | | | | | | e | ? | i o | i | i | i | i]; try discriminate; try reflexivity; try (now destruct i). destruct e as [|i|i|i|i| | | |i|i ok|i]; try reflexivity; now destruct i.
  - split; [reflexivity|]. split.
    + intros e I. cbn in I. repeat destruct I as [<-|I]; try contradiction; repeat split.
    + intros i I. cbn in I. repeat destruct I as [I|I]; try discriminate; contradiction.
Qed.

Print Assumptions C14_late_input_refuted.
Print Assumptions C14_slow_publisher_refuted.
Print Assumptions C14_delivered_partial.
Print Assumptions C14_in_memory_partial.
Print Assumptions C14_finite.
Print Assumptions C14_progress.
Print Assumptions C14_quiesces.
