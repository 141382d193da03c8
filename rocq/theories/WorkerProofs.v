(** Invariants of the worker. *)
From Coq Require Import List Arith NArith Bool Lia.
From Verif Require Import Base BaseFacts RetryModel WorkerModel WorkerSpec.
Import ListNotations.
Open Scope nat_scope.

Definition inst (a : wact) : option nat :=
  match a with
  | ATake i _ | ASkip i | AStart i | AFinish i _ | ASignal i | AAck i | ANack i | AOk i _ _ | AErr i _ _ | AAbortAll i => Some i
  | AMark _ | ACommand _ => None
  end.

Lemma tally_cons : forall c i p l, tally c i (p :: l) = b2n (is c i (snd p)) + tally c i l.
Proof. intros. unfold tally. now rewrite cnt_cons. Qed.
Lemma tally_app : forall c i a l, tally c i (a ++ l) = tally c i a + tally c i l.
Proof. intros. unfold tally. now rewrite cnt_app. Qed.
Lemma outcome_app : forall i a l, outcome_of i (a ++ l) = match outcome_of i a with Some o => Some o | None => outcome_of i l end.
Proof.
  intros i a l. induction a as [|[n x] a IH]; [reflexivity|]. destruct x; cbn; auto. now destruct (Nat.eqb i0 i).
Qed.
Lemma tally_other : forall c i l, (forall p, In p l -> inst (snd p) <> Some i) -> tally c i l = 0.
Proof.
  intros c i l F. unfold tally. apply cnt_zero. intros [n a] I. specialize (F _ I). cbn in *. destruct c, a; cbn in *; try reflexivity; apply Nat.eqb_neq; congruence.
Qed.
Lemma outcome_other : forall i l, (forall p, In p l -> inst (snd p) <> Some i) -> outcome_of i l = None.
Proof.
  intros i l F. induction l as [|[n a] l IH]; [reflexivity|]. specialize (IH (fun p I => F p (or_intror I))). pose proof (F _ (or_introl eq_refl)) as H.
  destruct a; cbn in *; auto. destruct (Nat.eqb_spec i0 i); [congruence|auto].
Qed.

(** A step adds to the log only actions of the current task, and those without a task. *)
Lemma mark_log : forall s k, exists new, w_log (fst (mark s k)) = new ++ w_log s /\ (forall p, In p new -> snd p = AMark k) /\
  w_taken (fst (mark s k)) = w_taken s.
Proof.
  intros s k. unfold mark. destruct (marked k (w_jobs s)); cbn.
  - exists []. repeat split. contradiction.
  - exists [(w_now s, AMark k)]. repeat split. intros p [<-|[]]. reflexivity.
Qed.

Definition extends (s s' : wstate) (new : wlog) : Prop := w_log s' = new ++ w_log s /\ forall p, In p new -> inst (snd p) = None \/ inst (snd p) = Some (cur s').

Lemma ext_refl : forall s s', w_log s' = w_log s -> extends s s' [].
Proof. intros s s' H. split; [exact H|contradiction]. Qed.
Lemma ext_one : forall s s' n a, w_log s' = (n, a) :: w_log s -> inst a = None \/ inst a = Some (cur s') -> extends s s' [(n, a)].
Proof. intros s s' n a H I. split; [exact H|]. intros p [<-|[]]. exact I. Qed.
Lemma ext_trans : forall s1 s2 s3 a b, extends s1 s2 a -> extends s2 s3 b -> cur s2 = cur s3 -> extends s1 s3 (b ++ a).
Proof.
  intros s1 s2 s3 a b [L1 F1] [L2 F2] C. split; [rewrite L2, L1; apply app_assoc|].
  intros p I. apply in_app_or in I. destruct I as [I|I]; auto. rewrite <- C. auto.
Qed.
Lemma signal_ext : forall s t seen st, exists new, extends s (poll_signal s t seen st) new /\ w_taken (poll_signal s t seen st) = w_taken s.
Proof.
  intros s t seen st. unfold poll_signal. destruct (_ && _).
  - exists [(w_now s, ASignal (cur s))]. split; [|reflexivity]. apply ext_one; [reflexivity|]. right. reflexivity.
  - destruct (w_lis s); exists []; split; try reflexivity; apply ext_refl; reflexivity.
Qed.
Lemma start_ext : forall s t seen st, exists new, extends s (start s t seen st) new /\ w_taken (start s t seen st) = w_taken s.
Proof.
  intros s t seen st. unfold start. destruct st.
  - exists []. split; [apply ext_refl|]; reflexivity.
  - exists [(w_now s, AStart (cur s))]. split; [|reflexivity]. apply ext_one; [reflexivity|]. right. reflexivity.
Qed.
Lemma finish_ext : forall s t o, exists new, extends s (finish s t o) new /\ w_taken (finish s t o) = w_taken s.
Proof.
  intros s t o. unfold finish. destruct o as [y|fs msg|].
  - exists [(w_now s, AFinish (cur s) (OcOk y))]. split; [|reflexivity]. apply ext_one; [reflexivity|]. right. reflexivity.
  - destruct (mark_log (log s (AFinish (cur s) (OcErr fs msg))) (t_key t)) as (new & L & F & T).
    exists (new ++ [(w_now s, AFinish (cur s) (OcErr fs msg))]). split; [|exact T]. split.
    + cbn [set_main w_log]. rewrite L. cbn. now rewrite <- app_assoc.
    + intros p I. apply in_app_or in I. destruct I as [I|[<-|[]]].
      * left. rewrite (F p I). reflexivity.
      * right. symmetry. exact (f_equal (fun n => Some (pred n)) T).
  - exists [(w_now s, AFinish (cur s) OcPanic)]. split; [|reflexivity]. apply ext_one; [reflexivity|]. right. reflexivity.
Qed.
Lemma exec_ext : forall s t seen st r, exists new, extends s (poll_exec s t seen st r) new /\ w_taken (poll_exec s t seen st r) = w_taken s.
Proof.
  intros s t seen st r. unfold poll_exec. destruct (start_ext s t seen st) as (n1 & X1 & T1). destruct r as [o|]; [|eauto].
  destruct (finish_ext (start s t seen st) t o) as (n2 & X2 & T2). exists (n2 ++ n1). split; [|congruence].
  eapply ext_trans; eauto. unfold cur. congruence.
Qed.
Lemma select_ext : forall s t seen st b r, exists new, extends s (poll_select s t seen st b r) new /\ w_taken (poll_select s t seen st b r) = w_taken s.
Proof.
  intros s t seen st b r. unfold poll_select. destruct b.
  - destruct (signal_ext s t seen st) as (n1 & X1 & T1). destruct (w_main (poll_signal s t seen st)) as [| | | |t' seen' st'| | | | |] eqn:M; try (exists n1; split; assumption).
    destruct (exec_ext (poll_signal s t seen st) t' seen' st' r) as (n2 & X2 & T2). exists (n2 ++ n1). split; [|congruence].
    eapply ext_trans; eauto. unfold cur. congruence.
  - destruct (exec_ext s t seen st r) as (n1 & X1 & T1). destruct (w_main (poll_exec s t seen st r)) as [| | | |t' seen' st'| | | | |] eqn:M; try (exists n1; split; assumption).
    destruct (signal_ext (poll_exec s t seen st r) t' seen' st') as (n2 & X2 & T2). exists (n2 ++ n1). split; [|congruence].
    eapply ext_trans; eauto. unfold cur. congruence.
Qed.

Ltac one := eexists; split; [first [apply ext_refl; reflexivity|apply ext_one; [reflexivity|right; reflexivity]]|right; reflexivity].
Lemma step_ext : forall s e s', w_step s e = Some s' -> exists new, extends s s' new /\ ((exists t, e = WTake t /\ w_main s = WpWait) \/ w_taken s' = w_taken s).
Proof.
  intros s e s' H. destruct e as [d| |k| | |t| | | |sf r|sl|sl ok|ok|ok| |]; unfold w_step in H.
  - injection H as <-. one.
  - destruct (w_main s) eqn:M; try discriminate; destruct (w_reap s <=? w_now s)%N; try discriminate; injection H as <-; one.
  - destruct (w_main s) eqn:M; try discriminate; destruct (w_lis s) eqn:LI; try discriminate;
    (pose proof (mark_log (log s (ACommand k)) k) as (new & L & F & T); destruct (mark (log s (ACommand k)) k) as [s1 fresh]; cbn [fst] in *;
     exists (new ++ [(w_now s, ACommand k)]); split; [|right; destruct fresh; injection H as <-; exact T];
     destruct fresh; injection H as <-; (split; [cbn [w_log]; rewrite L; cbn; now rewrite <- app_assoc|]);
     intros p I; apply in_app_or in I; (destruct I as [I|[<-|[]]]; [left; rewrite (F p I); reflexivity|left; reflexivity])).
  - destruct (w_main s) eqn:M; try discriminate; destruct (w_lis s) eqn:LI; try discriminate; injection H as <-; one.
  - destruct (w_main s) eqn:M; try discriminate; destruct (w_lis s) eqn:LI; try discriminate; injection H as <-; one.
  - destruct (w_main s) eqn:M; try discriminate; injection H as <-. eexists. split; [apply ext_one; [reflexivity|right; reflexivity]|]. left. now exists t.
  - destruct (w_main s) eqn:M; try discriminate; injection H as <-; one.
  - destruct (w_main s) eqn:M; try discriminate; injection H as <-; one.
  - destruct (w_main s) eqn:M; try discriminate; destruct (marked _ _); injection H as <-; one.
  - destruct (w_main s) eqn:M; try discriminate; injection H as <-. destruct (select_ext s t seen started sf r) as (new & X & T). exists new. auto.
  - destruct sl, (w_main s) eqn:M; try discriminate;
    repeat match goal with
    | K : match ?d with _ => _ end = Some _ |- _ => destruct d; try discriminate
    | K : option_map _ (io_effect ?a) = Some _ |- _ => destruct a; try discriminate
    end; injection H as <-; one.
  - destruct sl, (w_main s) eqn:M; try discriminate;
    repeat match goal with
    | K : match ?d with _ => _ end = Some _ |- _ => destruct d; try discriminate
    | K : option_map _ (io_return ?a) = Some _ |- _ => destruct a; try discriminate
    end; injection H as <-; one.
  - destruct (w_main s) eqn:M; try discriminate; destruct d; try discriminate; destruct ok; injection H as <-; one.
  - destruct (w_main s) eqn:M; try discriminate; destruct d; try discriminate; destruct ok; injection H as <-; one.
  - destruct (w_main s) eqn:M; try discriminate; destruct a; try discriminate; destruct d; try discriminate; injection H as <-; one.
  - destruct (w_main s) eqn:M; try discriminate; destruct (until <=? w_now s)%N; try discriminate; injection H as <-; one.
Qed.

(** What was done for the current task, by phase. *)
Definition eff (p : io) : nat := match p with IoOpen => 0 | _ => 1 end.
Definition okeff (d : okpos) : nat := match d with ODecl => 0 | OPub p => eff p | _ => 1 end.
Definition errff (fs : fatal_strategy) (d : failpos) : nat :=
  match d with FDecl => 0 | FPub ab er => eff er | FClose => 1 | FDone => match fs with FsTerminate => 1 | FsIgnore => 0 end end.
Definition abff (fs : fatal_strategy) (d : failpos) : nat :=
  match d with FDecl => 0 | FPub ab er => eff ab | FClose => 1 | FDone => match fs with FsTerminate => 1 | FsIgnore => 0 end end.
Definition phase_tally (p : wphase) (c : col) : nat :=
  match p with
  | WpSkip _ a | WpTerm _ a => match c with CNack => eff a | _ => 0 end
  | WpOk _ _ a d => match c with CAck => eff a | COk => okeff d | _ => 0 end
  | WpFail _ fs _ a d => match c with CNack => eff a | CErr => errff fs d | CAbort => abff fs d | _ => 0 end
  | _ => 0
  end.
Definition phase_outcome (p : wphase) : option outcome :=
  match p with
  | WpOk _ y _ _ => Some (OcOk y)
  | WpFail _ fs msg _ _ => Some (OcErr fs msg)
  | _ => None
  end.
Definition phase_task (p : wphase) : option wtask :=
  match p with
  | WpFlag t | WpCheck t | WpSkip t _ | WpRun t _ _ | WpOk t _ _ _ | WpFail t _ _ _ _ | WpTerm t _ | WpSleep t _ => Some t
  | _ => None
  end.
Definition over (p : wphase) : bool := match p with WpWait | WpSleep _ _ | WpStop _ => true | _ => false end.
Definition fail_ok (p : wphase) : Prop := match p with WpFail _ FsIgnore _ _ d => d = FDone | _ => True end.

(** The current task, for a state with the main phase [p] and log [l]. *)
Definition current (p : wphase) (n : nat) (l : wlog) : Prop :=
  fail_ok p /\
  (forall t, phase_task p = Some t -> 0 < n /\ exists tm, In (tm, ATake (pred n) t) l) /\
  if over p
  then (forall c, tally c (pred n) l <= demanded (outcome_of (pred n) l) c) /\
       match p with WpWait => 0 < n -> forall c, tally c (pred n) l = demanded (outcome_of (pred n) l) c | WpSleep _ _ => outcome_of (pred n) l = None | _ => True end
  else outcome_of (pred n) l = phase_outcome p /\ forall c, tally c (pred n) l = phase_tally p c.

Record winv (s : wstate) : Prop := mkWI {
  wi_inst : forall p i, In p (w_log s) -> inst (snd p) = Some i -> i < w_taken s;
  wi_old : forall i c, S i < w_taken s -> tally c i (w_log s) = demanded (outcome_of i (w_log s)) c;
  wi_cur : current (w_main s) (w_taken s) (w_log s)
}.

(** The current task's part of the log after an action. *)
Lemma winv_init : forall ident, winv (w_init ident).
Proof.
  intros ident. constructor; cbn; try contradiction; try lia. unfold current. cbn. repeat split; try discriminate; try lia.
  intros c. change (tally c 0 []) with 0. lia.
Qed.

Lemma demanded_max : forall p c, fail_ok p -> over p = false -> phase_tally p c <= demanded (phase_outcome p) c.
Proof.
  intros p c F O. destruct p as [|t|t|t a|t sn st|t y a d|t fs msg a d|t a|t u|e]; cbn in *; try discriminate.
  - destruct c; cbn; lia.
  - destruct c; cbn; lia.
  - destruct c; cbn; try lia; destruct a; cbn; lia.
  - destruct c; cbn; lia.
  - destruct c; cbn; try lia; [destruct a; cbn; lia|]. destruct d as [|q| |]; cbn; try lia; destruct q; cbn; lia.
  - destruct fs; destruct c; cbn; try lia; try (destruct a; cbn; lia).
    + destruct d as [|ab er| |]; cbn; try lia; destruct er; cbn; lia.
    + destruct d as [|ab er| |]; cbn; try lia; destruct ab; cbn; lia.
    + subst d. cbn. lia.
    + subst d. cbn. lia.
  - destruct c; cbn; try lia; destruct a; cbn; lia.
Qed.

(** Passing to a phase whose actions are the new ones. *)
Lemma cur_move : forall p n l p' new, current p n l -> over p = false -> over p' = false -> fail_ok p' -> phase_task p' = phase_task p ->
  (forall q, In q new -> inst (snd q) = None \/ inst (snd q) = Some (pred n)) ->
  (match outcome_of (pred n) new with Some o => Some o | None => phase_outcome p end = phase_outcome p') ->
  (forall c, tally c (pred n) new + phase_tally p c = phase_tally p' c) -> current p' n (new ++ l).
Proof.
  intros p n l p' new (F & T & C) O O' F' TK _ OU TA. unfold current in *. rewrite O in C. rewrite O'. destruct C as [C1 C2].
  split; [exact F'|]. split.
  - intros t Q. rewrite TK in Q. destruct (T t Q) as (A & tm & I). split; [exact A|]. exists tm. apply in_or_app. now right.
  - split; [now rewrite outcome_app, C1|]. intros c. rewrite tally_app, C2. apply TA.
Qed.
Lemma cur_stop : forall p n l e, current p n l -> current (WpStop e) n l.
Proof.
  intros p n l e (F & T & C). unfold current. cbn. split; [exact Logic.I|]. split; [discriminate|]. split; [|exact Logic.I].
  destruct (over p) eqn:O; [tauto|]. destruct C as [C1 C2]. intros c. rewrite C1, C2. now apply demanded_max.
Qed.
Lemma cur_wait : forall p n l, current p n l -> over p = false -> (forall c, phase_tally p c = demanded (phase_outcome p) c) -> current WpWait n l.
Proof.
  intros p n l (F & T & C) O E. unfold current. cbn. rewrite O in C. destruct C as [C1 C2]. split; [exact Logic.I|]. split; [discriminate|].
  split; intros; rewrite C1, C2, E; lia.
Qed.
Lemma cur_sleep : forall p n l t u, current p n l -> over p = false -> phase_outcome p = None -> phase_task p = Some t -> current (WpSleep t u) n l.
Proof.
  intros p n l t u (F & T & C) O N0 TK. unfold current. cbn. rewrite O in C. destruct C as [C1 C2]. split; [exact Logic.I|]. split; [now rewrite <- TK|].
  split; [|now rewrite C1]. intros c. rewrite C1, C2, <- C1, C1. apply demanded_max; auto.
Qed.
(** Adding actions without a task. *)
Lemma cur_more : forall p n l new, current p n l -> (forall q, In q new -> inst (snd q) = None) -> current p n (new ++ l).
Proof.
  intros p n l new (F & T & C) NI.
  assert (TA : forall c, tally c (pred n) (new ++ l) = tally c (pred n) l).
  { intros c. rewrite tally_app, tally_other; [reflexivity|]. intros q I. rewrite (NI q I). discriminate. }
  assert (OU : outcome_of (pred n) (new ++ l) = outcome_of (pred n) l).
  { rewrite outcome_app, outcome_other; [reflexivity|]. intros q I. rewrite (NI q I). discriminate. }
  unfold current. rewrite OU. split; [exact F|]. split.
  - intros t Q. destruct (T t Q) as (A & tm & I). split; [exact A|]. exists tm. apply in_or_app. now right.
  - destruct (over p); [|split; [tauto|]; intros c; rewrite TA; apply C]. destruct C as [C1 C2]. split; [intros c; rewrite TA; apply C1|].
    destruct p; auto. intros L c. rewrite TA. auto.
Qed.

Lemma winv_keep : forall s s', winv s -> w_taken s' = w_taken s -> (exists new, extends s s' new) -> current (w_main s') (w_taken s') (w_log s') -> 0 < w_taken s \/ w_log s' = w_log s \/ (exists new, w_log s' = new ++ w_log s /\ forall q, In q new -> inst (snd q) = None) -> winv s'.
Proof.
  intros s s' [W1 W2 W3] T (new & L & X) C P. constructor; auto.
  - intros p i I Q. rewrite T. rewrite L in I. apply in_app_or in I. destruct I as [I|I]; [|eauto]. destruct (X p I) as [Y|Y]; [congruence|].
    rewrite Y in Q. injection Q as <-. unfold cur. rewrite T. destruct P as [P|[P|(nw & P & PN)]]; [lia| |].
    + rewrite P in L. assert (new = []) as -> by (destruct new; [reflexivity|apply (f_equal (@length _)) in L; cbn in L; rewrite app_length in L; lia]). contradiction.
    + rewrite P in L. apply app_inv_tail in L. subst nw. rewrite (PN p I) in Y. discriminate.
  - intros i c B. rewrite T in B. rewrite L, tally_app, outcome_app, tally_other, outcome_other; [apply W2, B| |];
      intros p I; (destruct (X p I) as [Y|Y]; rewrite Y; [discriminate|]); intros Q; injection Q as Q; unfold cur in Q; lia.
Qed.

Lemma cur_io : forall p n l p' now a, current p n l -> over p = false -> over p' = false -> fail_ok p' -> phase_task p' = phase_task p ->
  inst a = Some (pred n) -> outcome_of (pred n) [(now, a)] = None -> phase_outcome p = phase_outcome p' ->
  (forall c, b2n (is c (pred n) a) + phase_tally p c = phase_tally p' c) -> current p' n ((now, a) :: l).
Proof.
  intros p n l p' now a C O O' F' TK IN OU PO TA. change ((now, a) :: l) with ([(now, a)] ++ l). eapply cur_move; eauto.
  - intros q [<-|[]]. right. exact IN.
  - rewrite OU. exact PO.
  - intros c. rewrite tally_cons. cbn [snd]. change (tally c (pred n) []) with 0. rewrite Nat.add_0_r. apply TA.
Qed.

Lemma cur_same : forall p n l p', current p n l -> over p = false -> over p' = false -> fail_ok p' -> phase_task p' = phase_task p ->
  phase_outcome p = phase_outcome p' -> (forall c, phase_tally p c = phase_tally p' c) -> current p' n l.
Proof.
  intros p n l p' C O O' F' TK PO TA. change l with ([] ++ l). eapply cur_move; eauto. contradiction.
Qed.

Ltac failok C := solve [exact Logic.I|exact (proj1 C)|let X := fresh in pose proof (proj1 C) as X; cbn in X |- *;
  match goal with |- context [match ?f with _ => _ end] => destruct f end; (discriminate X || exact Logic.I || exact X)].
Ltac ptally := intros []; cbn; rewrite ?Nat.eqb_refl; reflexivity.
Ltac ioeff C := eapply cur_io; [exact C|reflexivity|reflexivity|failok C|reflexivity|reflexivity|reflexivity|reflexivity|ptally].
Ltac iosame C := eapply cur_same; [exact C|reflexivity|reflexivity|failok C|reflexivity|reflexivity|solve [intros []; reflexivity]].

Lemma run_any : forall t seen st seen' st' n l, current (WpRun t seen st) n l -> current (WpRun t seen' st') n l.
Proof. intros t seen st seen' st' n l C. exact C. Qed.
Lemma sig_cur : forall s t seen st, current (WpRun t seen st) (w_taken s) (w_log s) ->
  current (w_main (poll_signal s t seen st)) (w_taken (poll_signal s t seen st)) (w_log (poll_signal s t seen st)).
Proof.
  intros s t seen st C. unfold poll_signal. destruct (_ && _).
  - cbn [log w_main w_taken w_log w_now]. ioeff C.
  - destruct (w_lis s); cbn [set_main w_main w_taken w_log]; try (eapply run_any; exact C). eapply cur_stop; exact C.
Qed.
Lemma start_cur : forall s t seen st, w_main s = WpRun t seen st -> current (WpRun t seen st) (w_taken s) (w_log s) ->
  exists seen' st', w_main (start s t seen st) = WpRun t seen' st' /\ current (WpRun t seen' st') (w_taken (start s t seen st)) (w_log (start s t seen st)).
Proof.
  intros s t seen st M C. unfold start. destruct st; [eauto|]. exists seen, true. split; [reflexivity|]. cbn [log set_main w_main w_taken w_log w_now].
  ioeff C.
Qed.
Lemma finish_cur : forall s t seen st o, current (WpRun t seen st) (w_taken s) (w_log s) ->
  current (w_main (finish s t o)) (w_taken (finish s t o)) (w_log (finish s t o)).
Proof.
  intros s t seen st o C.
  assert (K : forall p', over p' = false -> fail_ok p' -> phase_task p' = Some t -> phase_outcome p' = Some o -> (forall c, phase_tally p' c = 0) ->
     current p' (w_taken s) ((w_now s, AFinish (cur s) o) :: w_log s)).
  { intros p' O F T PO PT. change ((w_now s, AFinish (cur s) o) :: w_log s) with ([(w_now s, AFinish (cur s) o)] ++ w_log s).
    eapply cur_move; eauto.
    - intros q [<-|[]]. right. reflexivity.
    - cbn. unfold cur. rewrite Nat.eqb_refl. now rewrite PO.
    - intros c. rewrite PT. destruct c; reflexivity. }
  destruct o as [y|fs msg|]; unfold finish.
  - cbn [log set_main w_main w_taken w_log]. apply K; try reflexivity. intros []; reflexivity.
  - destruct (mark_log (log s (AFinish (cur s) (OcErr fs msg))) (t_key t)) as (new & L & F & T). cbn [set_main w_main w_taken w_log].
    rewrite L, T. apply cur_more; [|intros q I; now rewrite (F q I)]. cbn [log w_taken w_log].
    apply K; try reflexivity; destruct fs; try reflexivity; intros []; reflexivity.
  - cbn [log set_main w_main w_taken w_log]. unfold current. cbn [fail_ok phase_task over].
    split; [exact Logic.I|]. split; [discriminate|]. split; [|exact Logic.I]. destruct C as (_ & _ & C). cbn [over] in C. destruct C as [C1 C2].
    intros c. rewrite tally_cons, C2. destruct c; cbn; lia.
Qed.
Lemma exec_cur : forall s t seen st r, w_main s = WpRun t seen st -> current (WpRun t seen st) (w_taken s) (w_log s) ->
  current (w_main (poll_exec s t seen st r)) (w_taken (poll_exec s t seen st r)) (w_log (poll_exec s t seen st r)).
Proof.
  intros s t seen st r M C. unfold poll_exec. destruct (start_cur s t seen st M C) as (seen' & st' & M' & C'). destruct r as [o|].
  - eapply finish_cur; exact C'.
  - rewrite M'. exact C'.
Qed.

Lemma winv_step : forall s e s', winv s -> w_step s e = Some s' -> winv s'.
Proof.
  intros s e s' W H. pose proof W as [W1 W2 C]. destruct (step_ext s e s' H) as (new & X & [(t & -> & M)|T]).
  - (* a task is taken *)
    unfold w_step in H. rewrite M in H. injection H as <-. rewrite M in C. destruct C as (_ & _ & C). cbn [over] in C. destruct C as [_ C].
    assert (NT : forall p, In p (w_log s) -> inst (snd p) <> Some (w_taken s)) by (intros p I Q; specialize (W1 p _ I Q); lia).
    constructor; cbn [w_main w_taken w_log].
    + intros p i [<-|I] Q; [cbn in Q; injection Q as <-; lia|]. specialize (W1 p i I Q). lia.
    + intros i c L. rewrite tally_cons. replace (is c i (snd (w_now s, ATake (w_taken s) t))) with false by (destruct c; reflexivity). cbn [b2n plus outcome_of].
      destruct (Nat.eq_dec (S i) (w_taken s)) as [E|E]; [|apply W2; lia]. replace i with (pred (w_taken s)) by lia. apply C. lia.
    + unfold current. cbn [over fail_ok phase_task phase_outcome phase_tally pred]. split; [exact Logic.I|]. split.
      * intros t' Q. injection Q as <-. split; [lia|]. exists (w_now s). now left.
      * cbn [outcome_of]. split; [apply outcome_other, NT|]. intros c. rewrite tally_cons, tally_other by exact NT. destruct c; reflexivity.
  - assert (P : 0 < w_taken s \/ w_log s' = w_log s \/ (exists nw, w_log s' = nw ++ w_log s /\ forall q, In q nw -> inst (snd q) = None)).
    { destruct (w_taken s) eqn:NT; [|left; lia]. right. right. exists new. destruct X as [L X]. split; [exact L|].
      destruct C as (_ & TK & _).
      assert (NP : phase_task (w_main s) = None) by (destruct (phase_task (w_main s)); [destruct (TK w eq_refl); lia|reflexivity]). clear TK W W1 W2.
      intros q I. destruct (X q I) as [Y|Y]; [exact Y|]. exfalso.
      destruct e as [d| |k| | |t| | | |sf r|sl|sl ok|ok|ok| |]; unfold w_step in H; destruct (w_main s) eqn:M; cbn in NP; try discriminate; try (destruct sl; discriminate).
      all: try (injection H as <-; cbn in T; discriminate T).
      all: try (injection H as <-; cbn in L; apply (f_equal (@length _)) in L; rewrite app_length in L; destruct new; [contradiction|cbn in L; lia]).
      all: try (destruct (w_reap s <=? w_now s)%N; [|discriminate]; injection H as <-; cbn in L; apply (f_equal (@length _)) in L; rewrite app_length in L; destruct new; [contradiction|cbn in L; lia]).
      all: try (destruct (w_lis s); try discriminate; injection H as <-; cbn in L; apply (f_equal (@length _)) in L; rewrite app_length in L; destruct new; [contradiction|cbn in L; lia]).
      all: destruct (w_lis s); try discriminate; pose proof (mark_log (log s (ACommand k)) k) as (nw & LM & FM & TM); destruct (mark (log s (ACommand k)) k) as [s1 fresh]; cbn [fst] in *;
        assert (w_log s' = (nw ++ [(w_now s, ACommand k)]) ++ w_log s) as LL by (rewrite <- app_assoc; destruct fresh; injection H as <-; cbn [w_log]; rewrite LM; reflexivity);
        rewrite LL in L; apply app_inv_tail in L; subst new; apply in_app_or in I; (destruct I as [I|[<-|[]]]; [rewrite (FM q I) in Y|]; discriminate). }
    apply (winv_keep s s' W T); [eauto| |exact P]. assert (NTK : forall t, ~ (e = WTake t /\ w_main s = WpWait)) by (intros t [-> M]; unfold w_step in H; rewrite M in H; injection H as <-; cbn in T; lia).
    clear P X T new W W1 W2.
    destruct e as [d| |k| | |t| | | |sf r|sl|sl ok|ok|ok| |]; unfold w_step in H.
    + injection H as <-. exact C.
    + destruct (w_main s) eqn:M; try discriminate; destruct (w_reap s <=? w_now s)%N; try discriminate; injection H as <-; cbn [w_main w_taken w_log]; rewrite ?M; exact C.
    + assert (K : (let '(s1, fresh) := mark (log s (ACommand k)) k in
          Some (if fresh then mkW (w_now s1) (w_jobs s1) (w_reap s1) (LisSend k) (w_ver s1) (w_val s1) (w_flag s1) (w_main s1) (w_taken s1) (w_log s1) else s1)) = Some s').
      { destruct (w_main s); try discriminate; destruct (w_lis s); try discriminate; exact H. }
      clear H. pose proof (mark_log (log s (ACommand k)) k) as (new & L & F & T).
      assert (MM : w_main (fst (mark (log s (ACommand k)) k)) = w_main s) by (unfold mark; destruct (marked k (w_jobs (log s (ACommand k)))); reflexivity).
      destruct (mark (log s (ACommand k)) k) as [s1 fresh]. cbn [fst] in *.
      assert (Z : current (w_main s1) (w_taken s1) (w_log s1)).
      { rewrite MM, T, L. apply cur_more; [|intros q I; now rewrite (F q I)]. cbn [log w_taken w_log].
        change ((w_now s, ACommand k) :: w_log s) with ([(w_now s, ACommand k)] ++ w_log s). apply cur_more; [exact C|]. intros q [<-|[]]. reflexivity. }
      destruct fresh; injection K as <-; exact Z.
    + destruct (w_main s) eqn:M; try discriminate; destruct (w_lis s) eqn:LI; try discriminate; injection H as <-; cbn [w_main w_taken w_log]; rewrite ?M; exact C.
    + destruct (w_main s) eqn:M; try discriminate; destruct (w_lis s) eqn:LI; try discriminate; injection H as <-; cbn [w_main w_taken w_log]; rewrite ?M; exact C.
    + exfalso. destruct (w_main s) eqn:M; try discriminate. injection H as <-. apply (NTK t). now split.
    + destruct (w_main s) eqn:M; try discriminate. injection H as <-. eapply cur_stop; exact C.
    + destruct (w_main s) eqn:M; try discriminate. injection H as <-. destruct (w_flag s); cbn [set_main w_main w_taken w_log].
      * eapply cur_stop; exact C.
      * eapply cur_same; [exact C|try reflexivity; exact Logic.I ..].
    + destruct (w_main s) eqn:M; try discriminate. injection H as <-. destruct (marked _ _); cbn [set_main log w_main w_taken w_log].
      * ioeff C.
      * eapply cur_same; [exact C|try reflexivity; exact Logic.I ..].
    + destruct (w_main s) as [|t|t|t a|t sn st|t y a d|t fs msg a d|t a|t u|e] eqn:M; try discriminate. injection H as <-. unfold poll_select. destruct sf.
      * pose proof (sig_cur s t sn st C) as C1. destruct (w_main (poll_signal s t sn st)) eqn:M1; rewrite ?M1; try exact C1. now apply exec_cur.
      * pose proof (exec_cur s t sn st r M C) as C1. destruct (w_main (poll_exec s t sn st r)) eqn:M1; rewrite ?M1; try exact C1. now apply sig_cur.
    + destruct sl; destruct (w_main s) as [|t|t|t a|t sn st|t y a d|t fs msg a d|t a|t u|e] eqn:M; try discriminate.
      * destruct a; try discriminate. injection H as <-. cbn [set_main log w_main w_taken w_log]. ioeff C.
      * destruct a; try discriminate. injection H as <-. cbn [set_main log w_main w_taken w_log]. ioeff C.
      * destruct a; try discriminate. injection H as <-. cbn [set_main log w_main w_taken w_log]. ioeff C.
      * destruct a; try discriminate. injection H as <-. cbn [set_main log w_main w_taken w_log]. ioeff C.
      * destruct d as [|p| |]; try discriminate. destruct p; try discriminate. injection H as <-. cbn [set_main log w_main w_taken w_log]. ioeff C.
      * destruct d as [|ab er| |]; try discriminate. destruct er; try discriminate. injection H as <-. cbn [set_main log w_main w_taken w_log]. ioeff C.
      * destruct d as [|ab er| |]; try discriminate. destruct ab; try discriminate. injection H as <-. cbn [set_main log w_main w_taken w_log]. ioeff C.
    + destruct sl; destruct (w_main s) as [|t|t|t a|t sn st|t y a d|t fs msg a d|t a|t u|e] eqn:M; try discriminate.
      * destruct ok; [destruct a; try discriminate|]; injection H as <-; cbn [set_main stop_err w_main w_taken w_log].
        -- eapply cur_wait; [exact C|reflexivity|]. ptally.
        -- eapply cur_stop; exact C.
      * destruct a; try discriminate; (destruct ok; [try discriminate|]); injection H as <-; cbn [set_main stop_err w_main w_taken w_log]; try (eapply cur_stop; exact C). iosame C.
      * destruct a; try discriminate; (destruct ok; [try discriminate|]); injection H as <-; cbn [set_main stop_err w_main w_taken w_log]; try (eapply cur_stop; exact C). iosame C.
      * destruct ok; [destruct a; try discriminate|]; injection H as <-; cbn [set_main stop_err w_main w_taken w_log]; (eapply cur_sleep; [exact C|reflexivity..]).
      * destruct d as [|p| |]; try discriminate. destruct ok; [destruct p; try discriminate|]; injection H as <-; cbn [set_main stop_err w_main w_taken w_log]; try (eapply cur_stop; exact C). iosame C.
      * destruct d as [|ab er| |]; try discriminate. destruct er; try discriminate; (destruct ok; [try discriminate|]); injection H as <-; cbn [set_main stop_err w_main w_taken w_log]; try (eapply cur_stop; exact C).
        destruct ab; iosame C.
      * destruct d as [|ab er| |]; try discriminate. destruct ab; try discriminate; (destruct ok; [try discriminate|]); injection H as <-; cbn [set_main stop_err w_main w_taken w_log]; try (eapply cur_stop; exact C).
        destruct er; iosame C.
    + destruct (w_main s) as [|t|t|t a|t sn st|t y a d|t fs msg a d|t a|t u|e] eqn:M; try discriminate; destruct d; try discriminate; injection H as <-; (destruct ok; cbn [set_main stop_err w_main w_taken w_log]; [|eapply cur_stop; exact C]); iosame C.
    + destruct (w_main s) as [|t|t|t a|t sn st|t y a d|t fs msg a d|t a|t u|e] eqn:M; try discriminate; destruct d; try discriminate; injection H as <-; (destruct ok; cbn [set_main stop_err w_main w_taken w_log]; [|eapply cur_stop; exact C]).
      1: iosame C.
      destruct fs; [|pose proof (proj1 C) as X; discriminate X]. iosame C.
    + destruct (w_main s) as [|t|t|t a|t sn st|t y a d|t fs msg a d|t a|t u|e] eqn:M; try discriminate; destruct a; try discriminate; destruct d; try discriminate; injection H as <-; cbn [set_main w_main w_taken w_log];
        (eapply cur_wait; [exact C|reflexivity|]); [ptally|destruct fs; ptally].
    + destruct (w_main s) as [|t|t|t a|t sn st|t y a d|t fs msg a d|t a|t u|e] eqn:M; try discriminate. destruct (u <=? w_now s)%N; try discriminate. injection H as <-. eapply cur_stop; exact C.
Qed.
Lemma winv_run : forall ident tr s, run_from w_step (w_init ident) tr = Some s -> winv s.
Proof. intros ident tr s H. exact (run_from_inv _ _ w_step winv winv_step tr _ s (winv_init ident) H). Qed.
