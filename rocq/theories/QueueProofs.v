(** Invariants of the in-memory queue. *)
From Coq Require Import List Arith Bool Lia Permutation.
From Verif Require Import Base BaseFacts QueueModel.
Import ListNotations.
Open Scope nat_scope.

Section Proofs.
Context {M : Type}.
Implicit Types s : queue M.

Definition is_granted (c : qcons) : bool := match c with QGranted | QHolding => true | _ => false end.
Definition is_permit (p : M * qpub) : bool := match snd p with QPermit => true | _ => false end.

Record qinv s : Prop := {
  (* one permit per message, wherever it is *)
  qi_count : length (q_msgs s) = q_permits s + cnt is_granted (q_cons s) + cnt is_permit (q_pubs s);
  (* fairness: no permit lies about while someone waits *)
  qi_fair : q_permits s > 0 -> q_waiters s = [];
  qi_wait : forall c, In c (q_waiters s) <-> nth_error (q_cons s) c = Some QWaiting;
  qi_wnd : NoDup (q_waiters s);
  qi_fifo : q_pushed s = map snd (q_taken s) ++ q_msgs s;
  qi_panic : q_panic s = false
}.

Lemma remove_waiter_in : forall c x l, In x (remove_waiter c l) <-> In x l /\ x <> c.
Proof. intros c x l. unfold remove_waiter. rewrite filter_In, negb_true_iff, Nat.eqb_neq. tauto. Qed.

Lemma nth_lt : forall (A : Type) (l : list A) i x, nth_error l i = Some x -> i < length l.
Proof. intros A l i x H. apply nth_error_Some. congruence. Qed.

(** What holds just before a permit is released: one message more than permits. *)
Record qinv1 s : Prop := {
  q1_count : length (q_msgs s) = S (q_permits s + cnt is_granted (q_cons s) + cnt is_permit (q_pubs s));
  q1_fair : q_permits s > 0 -> q_waiters s = [];
  q1_wait : forall c, In c (q_waiters s) <-> nth_error (q_cons s) c = Some QWaiting;
  q1_wnd : NoDup (q_waiters s);
  q1_fifo : q_pushed s = map snd (q_taken s) ++ q_msgs s;
  q1_panic : q_panic s = false
}.

Lemma release_inv : forall s, qinv1 s -> qinv (q_release s).
Proof.
  intros s [C F W N FI P]. unfold q_release. destruct (q_waiters s) as [|c ws] eqn:E.
  - constructor; cbn; auto.
  - assert (WC : nth_error (q_cons s) c = Some QWaiting) by (apply W; now left).
    pose proof (cnt_upd _ is_granted c _ _ QGranted WC) as U. cbn [is_granted b2n] in U.
    inversion N as [|? ? NI N']; subst.
    constructor; cbn; auto.
    + lia.
    + intros G. apply F in G. discriminate.
    + intros d. split.
      * intros I. assert (d <> c) by (intros ->; tauto). rewrite upd_nth_other by auto. apply W. now right.
      * intros I. apply upd_nth in I. destruct I as [[_ I]|[NE I]]; [discriminate|].
        apply W in I. destruct I as [I|I]; [congruence|exact I].
Qed.

Lemma qinv_step : forall s e s', qinv s -> q_step s e = Some s' -> qinv s'.
Proof.
  intros s e s' [C F W N FI P] H. destruct e as [m | i | | c | c | c]; cbn in H.
  - injection H as <-. constructor; cbn; auto. rewrite cnt_app, cnt_one. cbn. lia.
  - destruct (nth_error (q_pubs s) i) as [[m []]|] eqn:I; try discriminate; injection H as <-.
    + pose proof (cnt_upd _ is_permit i _ _ (m, QPermit) I) as U. cbn [is_permit snd b2n] in U.
      constructor; cbn; auto.
      * rewrite app_length. cbn [length]. lia.
      * rewrite FI. now rewrite app_assoc.
    + pose proof (cnt_upd _ is_permit i _ _ (m, QDone) I) as U. cbn [is_permit snd b2n] in U.
      apply release_inv. constructor; cbn; auto. lia.
  - injection H as <-. constructor; cbn; auto.
    + rewrite cnt_app, cnt_one. cbn. lia.
    + intros c. rewrite W. split; intros X.
      * rewrite nth_error_app1; [exact X|]. eapply nth_lt; eauto.
      * apply nth_app_new in X. destruct X as [[_ X]|X]; [discriminate|exact X].
  - destruct (nth_error (q_cons s) c) as [[]|] eqn:E; try discriminate.
    + assert (NC : ~ In c (q_waiters s)) by (rewrite W; congruence).
      destruct (q_permits s) as [|p] eqn:EP; injection H as <-.
      * pose proof (cnt_upd _ is_granted c _ _ QWaiting E) as U. cbn [is_granted b2n] in U.
        constructor; cbn; auto; [lia | lia | |].
        -- intros d. rewrite in_app_iff. cbn. split.
           ++ intros [I|[->|[]]].
              ** assert (d <> c) by (intros ->; tauto). rewrite upd_nth_other by auto. now apply W.
              ** apply upd_nth_same. eapply nth_lt; eauto.
           ++ intros I. apply upd_nth in I. destruct I as [[-> _]|[NE I]]; [auto|]. left. now apply W.
        -- apply Permutation_NoDup with (c :: q_waiters s); [|now constructor].
           apply Permutation_cons_append.
      * pose proof (cnt_upd _ is_granted c _ _ QHolding E) as U. cbn [is_granted b2n] in U.
        constructor; cbn; auto; [lia|].
        intros d. rewrite W. split; intros X.
        -- assert (c <> d) by (intros ->; congruence). now rewrite upd_nth_other.
        -- apply upd_nth in X. destruct X as [[_ X]|[_ X]]; [discriminate|exact X].
    + injection H as <-. constructor; auto.
    + injection H as <-. pose proof (cnt_upd _ is_granted c _ _ QHolding E) as U. cbn [is_granted b2n] in U.
      constructor; cbn; auto; [lia|].
      intros d. rewrite W. split; intros X.
      * assert (c <> d) by (intros ->; congruence). now rewrite upd_nth_other.
      * apply upd_nth in X. destruct X as [[_ X]|[_ X]]; [discriminate|exact X].
  - destruct (nth_error (q_cons s) c) as [[]|] eqn:E; try discriminate.
    pose proof (cnt_upd _ is_granted c _ _ QIdle E) as U. cbn [is_granted b2n] in U.
    destruct (q_msgs s) as [|m ms] eqn:EM; [cbn in C; lia|]. injection H as <-.
    constructor; cbn; auto; [cbn in C; lia | |].
    + intros d. rewrite W. split; intros X.
      * assert (c <> d) by (intros ->; congruence). now rewrite upd_nth_other.
      * apply upd_nth in X. destruct X as [[_ X]|[_ X]]; [discriminate|exact X].
    + rewrite FI, map_app. cbn. now rewrite <- app_assoc.
  - assert (DROP : forall d, nth_error (upd c QDropped (q_cons s)) d = Some QWaiting <-> nth_error (q_cons s) d = Some QWaiting /\ d <> c).
    { intros d. split.
      - intros X. apply upd_nth in X. destruct X as [[_ X]|[NE X]]; [discriminate|]. auto.
      - intros [X NE]. now rewrite upd_nth_other by auto. }
    destruct (nth_error (q_cons s) c) as [[]|] eqn:E; try discriminate; injection H as <-;
      pose proof (cnt_upd _ is_granted c _ _ QDropped E) as U; cbn [is_granted b2n] in U.
    + constructor; cbn; auto; [lia|]. intros d. rewrite DROP, W. split; [intros X; split; congruence|tauto].
    + constructor; cbn; auto; [lia | intros G; now rewrite (F G) | |].
      * intros d. rewrite remove_waiter_in, DROP, W. tauto.
      * now apply NoDup_filter.
    + apply release_inv. constructor; cbn; auto; [lia|]. intros d. rewrite DROP, W. split; [intros X; split; congruence|tauto].
Qed.

Lemma qinv_init : forall ms, qinv (q_init ms).
Proof.
  intros ms. constructor; cbn; auto; [rewrite !Nat.add_0_r; reflexivity | | constructor].
  intros c. split; [tauto|]. destruct c; discriminate.
Qed.

Lemma qinv_run : forall ms tr s, run_from q_step (q_init ms) tr = Some s -> qinv s.
Proof.
  intros ms tr s H. eapply (run_from_inv _ _ q_step qinv); [|apply qinv_init|exact H]. intros. eapply qinv_step; eauto.
Qed.

(** Publish calls: what was pushed by whom. *)
Record pinv (ms : list (nat * M)) s : Prop := {
  pi_push : forall i m, In (i, m) (skipn (length ms) (q_pushed s)) <->
                        exists p, nth_error (q_pubs s) i = Some (m, p) /\ p <> QPush;
  pi_nd : NoDup (map fst (skipn (length ms) (q_pushed s)));
  pi_base : exists l, q_pushed s = ms ++ l
}.

Lemma release_pubs : forall s, q_pubs (q_release s) = q_pubs s.
Proof. intros s. unfold q_release. destruct (q_waiters s); reflexivity. Qed.
Lemma release_pushed : forall s, q_pushed (q_release s) = q_pushed s.
Proof. intros s. unfold q_release. destruct (q_waiters s); reflexivity. Qed.

Lemma skipn_exact : forall (A : Type) (a b : list A), skipn (length a) (a ++ b) = b.
Proof. intros. rewrite skipn_app, skipn_all, Nat.sub_diag. reflexivity. Qed.

Lemma pinv_same : forall ms s s', q_pubs s' = q_pubs s -> q_pushed s' = q_pushed s -> pinv ms s -> pinv ms s'.
Proof. intros ms s s' E1 E2 []. constructor; rewrite ?E1, ?E2; auto. Qed.

Lemma pinv_step : forall ms s e s', pinv ms s -> q_step s e = Some s' -> pinv ms s'.
Proof.
  intros ms s e s' I H. destruct e as [m | i | | c | c | c]; cbn in H.
  - injection H as <-. destruct I as [PP ND B]. constructor; cbn; auto.
    intros i n. rewrite PP. split; intros (p & E & NP); exists p; (split; [|exact NP]).
    + rewrite nth_error_app1; [exact E|]. eapply nth_lt; eauto.
    + apply nth_app_new in E. destruct E as [[_ E]|E]; [congruence|exact E].
  - destruct (nth_error (q_pubs s) i) as [[m []]|] eqn:EI; try discriminate; injection H as <-.
    + destruct I as [PP ND [l B]]. rewrite B, skipn_exact in *.
      assert (FRESH : forall n, ~ In (i, n) l).
      { intros n IN. apply PP in IN. destruct IN as (p & X & NP). congruence. }
      constructor; cbn; rewrite ?B, <- ?app_assoc, ?skipn_exact.
      * intros j n. rewrite in_app_iff, PP. cbn. split.
        -- intros [(p & X & NP) | [X|[]]].
           ++ exists p. split; [|exact NP]. rewrite upd_nth_other; [exact X|]. intros ->. congruence.
           ++ injection X as <- <-. exists QPermit. split; [|discriminate]. apply upd_nth_same. eapply nth_lt; eauto.
        -- intros (p & X & NP). apply upd_nth in X. destruct X as [[<- X]|[NE X]].
           ++ injection X as -> _. now right; left.
           ++ left. eauto.
      * rewrite map_app. cbn. apply Permutation_NoDup with (i :: map fst l).
        -- apply Permutation_cons_append.
        -- constructor; [|exact ND]. intros IN. apply in_map_iff in IN. destruct IN as ([j n] & E & IN). cbn in E. subst j.
           now apply FRESH in IN.
      * eauto.
    + destruct I as [PP ND B]. constructor; rewrite ?release_pubs, ?release_pushed; cbn; auto.
      intros j n. rewrite PP. split; intros (p & X & NP).
      * destruct (Nat.eq_dec i j) as [<-|NE].
        -- exists QDone. split; [|discriminate]. rewrite EI in X. injection X as <- _. apply upd_nth_same. eapply nth_lt; eauto.
        -- exists p. now rewrite upd_nth_other.
      * apply upd_nth in X. destruct X as [[<- X]|[NE X]]; [|eauto]. injection X as -> ->. exists QPermit. split; [exact EI|discriminate].
  - injection H as <-. now apply (pinv_same ms s).
  - destruct (nth_error (q_cons s) c) as [[]|]; try discriminate; [destruct (q_permits s)| |]; injection H as <-; now apply (pinv_same ms s).
  - destruct (nth_error (q_cons s) c) as [[]|]; try discriminate; destruct (q_msgs s); injection H as <-; now apply (pinv_same ms s).
  - destruct (nth_error (q_cons s) c) as [[]|]; try discriminate; injection H as <-;
      apply (pinv_same ms s); rewrite ?release_pubs, ?release_pushed; auto.
Qed.

Lemma pinv_run : forall ms tr s, run_from q_step (q_init ms) tr = Some s -> pinv ms s.
Proof.
  intros ms tr s H. eapply (run_from_inv _ _ q_step (pinv ms)); [| |exact H]; [intros; eapply pinv_step; eauto|].
  constructor; cbn.
  - intros i m. rewrite skipn_all. cbn. split; [tauto|]. intros (p & E & _). destruct i; discriminate.
  - rewrite skipn_all. constructor.
  - exists []. now rewrite app_nil_r.
Qed.

(** Pushes only extend the list. *)
Lemma pushed_grows_step : forall s e s', q_step s e = Some s' -> exists l, q_pushed s' = q_pushed s ++ l.
Proof.
  intros s e s' H. destruct e as [m | i | | c | c | c]; cbn in H.
  - injection H as <-. exists []. now rewrite app_nil_r.
  - destruct (nth_error (q_pubs s) i) as [[m []]|] eqn:EI; try discriminate; injection H as <-.
    + eexists. reflexivity.
    + exists []. rewrite release_pushed, app_nil_r. reflexivity.
  - injection H as <-. exists []. now rewrite app_nil_r.
  - exists []. rewrite app_nil_r. destruct (nth_error (q_cons s) c) as [[]|]; try discriminate; [destruct (q_permits s)| |]; now injection H as <-.
  - exists []. rewrite app_nil_r. destruct (nth_error (q_cons s) c) as [[]|]; try discriminate; destruct (q_msgs s); now injection H as <-.
  - exists []. rewrite app_nil_r. destruct (nth_error (q_cons s) c) as [[]|]; try discriminate; injection H as <-; rewrite ?release_pushed; reflexivity.
Qed.
Lemma pushed_grows : forall tr s s', run_from q_step s tr = Some s' -> exists l, q_pushed s' = q_pushed s ++ l.
Proof.
  induction tr as [|e tr IH]; intros s s' H; cbn in H.
  - injection H as <-. exists []. now rewrite app_nil_r.
  - destruct (q_step s e) as [s1|] eqn:E; [|discriminate]. apply pushed_grows_step in E. destruct E as [l E].
    apply IH in H. destruct H as [l' H]. exists (l ++ l'). now rewrite H, E, app_assoc.
Qed.
End Proofs.
