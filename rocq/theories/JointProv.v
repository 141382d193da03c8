(** C67: where the items and errors of a map or fold come from, whatever crashes and comes back. *)
From Coq Require Import List Arith NArith Lia Bool.
From Verif Require Import Base BaseFacts PublishModel MapModel MapSpec ContiguousModel FoldModel RetryModel WorkerModel WorkerProps
  SystemModel SystemSpec SystemProofs SystemProps JointModel JointProofs JointInv JointProps.
Import ListNotations.
Open Scope nat_scope.

(** *** The sending side *)
Definition of_input (inp : list (Base.res nat (N * nat))) (p : pall (N * nat) nat) : Prop :=
  (forall x, In (ROk x) (pa_arr p ++ pa_late p) -> In (ROk x) inp) /\ (forall n x st, In (n, x, st) (pa_futs p) -> In (ROk x) inp) /\
  (forall n x, In (n, x) (pa_dropped p) -> In (ROk x) inp) /\ (forall n x, In (n, x) (pa_acc p) -> In (ROk x) inp).
Lemma half_in : forall (T : Type) (l : list (nat * T * fut)) n x, In (n, x) (half_done l) -> exists st, In (n, x, st) l.
Proof.
  intros T l n x. unfold half_done. intros I.
  induction l as [|[[n' x'] st] l IH]; [destruct I|]. cbn in I. destruct st as [|[|] b|]; cbn in I; try (destruct (IH I) as (st & Q); exists st; now right).
  destruct I as [I|I]; [injection I as <- <-; eexists; now left | destruct (IH I) as (st & Q); exists st; now right].
Qed.
Lemma of_input_return : forall inp p r, of_input inp p -> of_input inp (pa_return p r).
Proof.
  intros inp p r (A & B & C & D). split; [exact A|]. split; [intros n x st []|]. split; [|exact D]. cbn. intros n x I. apply half_in in I. destruct I as (st & I). eauto.
Qed.
Lemma upd_of_input : forall inp (l : list (nat * (N * nat) * fut)) i n x st st', (forall n x st, In (n, x, st) l -> In (ROk x) inp) -> nth_error l i = Some (n, x, st) ->
  forall n' x' s', In (n', x', s') (upd i (n, x, st') l) -> In (@ROk nat _ x') inp.
Proof. intros inp l i n x st st' B H n' x' s' I. apply nth_In_upd in I. destruct I as [I|I]; [|eauto]. injection I as -> -> ->. apply nth_error_In in H. eauto. Qed.
Lemma of_input_step : forall inp p e p', pa_step p e = Some p' -> of_input inp p -> of_input inp p'.
Proof.
  intros inp p e p' H OI. pose proof OI as (A & B & C & D). unfold pa_step in H. destruct (pa_ret p).
  - destruct e; try discriminate. destruct (pick i (pa_dropped p)) as [[q l]|] eqn:P; [|discriminate]. injection H as <-. split; [exact A|]. split; [exact B|]. cbn. split.
    + intros n x I. apply (C n). eapply pick_in_rest; eauto.
    + intros n x I. apply in_app_or in I. destruct I as [I|[->|[]]]; [eauto|]. apply pick_in in P. eauto.
  - destruct e as [|i|i|i|i| | | |i|i ok|i].
    + destruct (pa_open p && may_pull p); [|discriminate]. destruct (pa_arr p) as [|[x|x] l] eqn:Q; [destruct (pa_end p)| |]; injection H as <-.
      * repeat split; auto.
      * repeat split; auto.
      * split; [intros y I; apply A; now right|]. split; [|auto]. cbn. intros n y st I. apply in_app_or in I. destruct I as [I|[I|[]]]; [eauto|]. injection I as <- <- <-. apply A. now left.
      * apply of_input_return. split; [intros y I; apply A; now right|]. auto.
    + destruct (nth_error (pa_futs p) i) as [[[n x] [| |]]|] eqn:F; try discriminate. injection H as <-. split; [exact A|]. split; [cbn; eapply upd_of_input; eauto|auto].
    + destruct (nth_error (pa_futs p) i) as [[[n x] [| |]]|] eqn:F; try discriminate. injection H as <-. split; [exact A|]. split; [cbn; eapply upd_of_input; eauto|auto].
    + destruct (nth_error (pa_futs p) i) as [[[n x] [|a [|]|]]|] eqn:F; try discriminate. injection H as <-. split; [exact A|]. split; [cbn; eapply upd_of_input; eauto|auto].
    + destruct (pick i (pa_futs p)) as [[[[n x] [| |[|]]] l]|] eqn:P; try discriminate; injection H as <-; [|now apply of_input_return].
      split; [exact A|]. split; [|auto]. cbn. intros n' x' st I. apply (B n' x' st). eapply pick_in_rest; eauto.
    + destruct (pa_open p); [discriminate|]. destruct (pa_futs p); [|discriminate]. injection H as <-. now apply of_input_return.
    + destruct (pa_late p) as [|q l] eqn:Q; [discriminate|]. injection H as <-. split; [|auto]. cbn. intros x I. apply A. rewrite <- app_assoc in I. exact I.
    + destruct (pa_late p) eqn:Q; [|discriminate]. destruct (pa_end p); [discriminate|]. injection H as <-. repeat split; auto.
    + destruct (nth_error (pa_futs p) i) as [[[n x] [|[|] r|]]|] eqn:F; try discriminate. injection H as <-. split; [exact A|]. split; [cbn; eapply upd_of_input; eauto|]. split; [exact C|]. cbn.
      intros n' x' I. apply in_app_or in I. destruct I as [I|[I|[]]]; [eauto|]. injection I as <- <-. apply nth_error_In in F. eauto.
    + destruct (nth_error (pa_futs p) i) as [[[n x] [|a r|]]|] eqn:F; try discriminate. destruct (negb ok || a); [|discriminate]. injection H as <-. split; [exact A|]. split; [cbn; eapply upd_of_input; eauto|auto].
    + discriminate.
Qed.

(** *** A map's step: what it has in hand, and what it returns *)
Record inherits (m m' : mstate nat nat nat) : Prop := {
  ih_input : forall inp, of_input inp (m_pa m) -> of_input inp (m_pa m');
  ih_then : forall r s, m_then m' = Some (r, s) -> exists s0, m_then m = Some (r, s0);
  ih_item : forall i v, In (MItem i v) (m_log m') -> In (MItem i v) (m_log m) \/ exists a s, m_then m = Some (((i, a), ROk v), s);
  ih_err : forall e, In (MErr (EWorker e)) (m_log m') -> In (MErr (EWorker e)) (m_log m) \/ exists t s, m_then m = Some ((t, RErr e), s)
}.
Lemma inh_refl : forall m, inherits m m.
Proof. intros m. constructor; eauto. Qed.
Lemma inh_same : forall m m', m_pa m' = m_pa m \/ (exists w, m_pa m' = set_woken (m_pa m) w) -> m_then m' = m_then m \/ m_then m' = None -> m_log m' = m_log m -> inherits m m'.
Proof.
  intros m m' P T L. constructor; rewrite ?L; eauto.
  - intros inp H. destruct P as [->|(w & ->)]; exact H.
  - intros r s. destruct T as [->| ->]; [eauto | discriminate].
Qed.
Lemma inh_trans : forall a b c, inherits a b -> inherits b c -> inherits a c.
Proof.
  intros a b c [A1 A2 A3 A4] [B1 B2 B3 B4]. constructor; auto.
  - intros r s H. destruct (B2 _ _ H) as (s0 & Q). eauto.
  - intros i v H. destruct (B3 _ _ H) as [Q|(x & s & Q)]; [auto|]. right. destruct (A2 _ _ Q) as (s0 & Q'). eauto.
  - intros e H. destruct (B4 _ H) as [Q|(t & s & Q)]; [auto|]. right. destruct (A2 _ _ Q) as (s0 & Q'). eauto.
Qed.
Lemma inh_return : forall m r, (match r with MItem i v => exists a s, m_then m = Some (((i, a), ROk v), s) | MErr (EWorker e) => exists t s, m_then m = Some ((t, RErr e), s) | _ => True end) -> inherits m (m_return m r).
Proof.
  intros m r H. constructor; cbn.
  - intros inp Q. destruct r; exact Q.
  - eauto.
  - intros i v [->|I]; auto.
  - intros e [->|I]; auto.
Qed.
Lemma inh_side : forall m sd k r, (match r with SItem (MItem i v) => exists a s, m_then m = Some (((i, a), ROk v), s) | SItem (MErr (EWorker e)) => exists t s, m_then m = Some ((t, RErr e), s) | _ => True end) ->
  inherits m (side_done m sd k r).
Proof.
  intros m sd k r H. unfold side_done. destruct r as [x| |].
  - apply inh_return. destruct x; auto.
  - apply (inh_trans _ (MapModel.finish m sd)); [apply inh_same; cbn; auto|]. destruct k as [|[|]|]; try (apply inh_return; exact Logic.I). apply inh_same; cbn; auto.
  - destruct k as [|[|]|]; try (apply inh_return; exact Logic.I). apply inh_same; cbn; auto.
Qed.
Lemma inh_pa : forall (m m' : mstate nat nat nat) e p, pa_step (m_pa m) e = Some p -> m_pa m' = p -> m_then m' = m_then m -> m_log m' = m_log m -> inherits m m'.
Proof.
  intros m m' e p H P T L. constructor; rewrite ?L, ?T; eauto. intros inp Q. rewrite P. eapply of_input_step; eauto.
Qed.
Lemma inh_left : forall (m : mstate nat nat nat) k e p, pa_step (m_pa m) e = Some p -> inherits m (left_done m k p).
Proof.
  intros m k e p H. unfold left_done. destruct (pa_ret p) as [[|x|n]|].
  - apply (inh_trans _ (sender_done m p)); [eapply inh_pa; eauto; reflexivity|]. apply inh_side. exact Logic.I.
  - apply (inh_trans _ (sender_done m p)); [eapply inh_pa; eauto; reflexivity|]. apply inh_side. exact Logic.I.
  - apply (inh_trans _ (sender_done m p)); [eapply inh_pa; eauto; reflexivity|]. apply inh_side. exact Logic.I.
  - eapply inh_pa; eauto; reflexivity.
Qed.
Section Steps.
Variable f : nat -> nat -> nat.
Lemma inh_step : forall op m e m', m_step (exec f op) m e = Some m' -> (match e with MTake | MWork _ _ | MLose _ | MLoseResult _ | MDupTask _ | MDupResult _ => False | _ => True end) -> inherits m m'.
Proof.
  intros op m e m' H N. destruct e as [|e| | | | | | | |e|ok|i o|i|i|i|i]; try contradiction; cbn [m_step] in H.
  - destruct (m_poll m); [|discriminate]. apply (inh_trans _ (set_pa m (set_woken (m_pa m) false))); [apply inh_same; cbn; eauto|].
    cbn [set_pa m_ldone m_rdone] in H. destruct (m_ldone m), (m_rdone m); injection H as <-; [apply inh_return; exact Logic.I | | |]; apply inh_same; cbn; auto.
  - destruct (m_poll m) as [|[|] k]; try discriminate. destruct (m_sent m || negb (poll_event e)); [discriminate|].
    destruct e; try (destruct (m_closed m); try discriminate); try (destruct (pa_inreg (m_pa m)); try discriminate); destruct (pa_step (m_pa m) _) as [p|] eqn:P; try discriminate; injection H as <-;
      try (eapply inh_left; eauto); eapply inh_pa; eauto; reflexivity.
  - destruct (m_poll m) as [|[|] k]; try discriminate. destruct (negb (m_sent m) && pa_idle (m_pa m)); [|discriminate]. injection H as <-. apply (inh_side m L k SPend). exact Logic.I.
  - destruct (m_poll m) as [|[|] k]; try discriminate. destruct (m_sent m); [|discriminate]. injection H as <-. apply (inh_side m L k SNone). exact Logic.I.
  - destruct (m_poll m) as [|[|] k]; try discriminate. destruct (m_then m) eqn:T; [discriminate|]. destruct (m_results m) eqn:Q; [|discriminate]. injection H as <-.
    match goal with |- inherits m (side_done ?x _ _ _) => apply (inh_trans _ x) end; [apply inh_same; cbn; auto|]. apply inh_side. destruct (_ && _); exact Logic.I.
  - destruct (m_poll m) as [|[|] k]; try discriminate. destruct (m_then m) as [[r [| |]]|] eqn:T; try discriminate. injection H as <-. constructor; cbn; eauto. intros r0 s Q. injection Q as <- <-. eauto.
  - destruct (m_poll m) as [|[|] k]; try discriminate. destruct (m_then m) as [[r [| |]]|] eqn:T; try discriminate. injection H as <-.
    apply (inh_trans _ (set_then m (Some (r, AWait true)))); [|apply (inh_side _ R k SPend); exact Logic.I]. constructor; cbn; eauto. intros r0 s Q. injection Q as <- <-. eauto.
  - destruct (m_poll m) as [|[|] k]; try discriminate. destruct (m_then m) as [[r [| |[|]]]|] eqn:T; try discriminate; injection H as <-.
    + constructor.
      * intros inp Q. cbn. destruct (snd r); exact Q.
      * destruct (snd r); cbn; discriminate.
      * intros i v I. destruct r as [[i' a] [y|x]]; cbn in I; (destruct I as [I|I]; [|auto]); [injection I as <- <-; eauto | discriminate].
      * intros e I. destruct r as [[i' a] [y|x]]; cbn in I; (destruct I as [I|I]; [|auto]); [discriminate | injection I as <-; eauto].
    + apply (inh_trans _ (set_then m None)); [apply inh_same; cbn; auto|]. apply (inh_side _ R k (SItem (MErr EAck))). exact Logic.I.
  - destruct (poll_event e); [discriminate|]. destruct (pa_step (m_pa m) e) as [p|] eqn:P; [|discriminate]. injection H as <-. eapply inh_pa; eauto; reflexivity.
  - destruct (m_then m) as [[r [| |]]|] eqn:T; try discriminate. injection H as <-. constructor; cbn; eauto. intros r0 s Q. injection Q as <- <-. eauto.
Qed.
Lemma take_then : forall op m m', m_step (exec f op) m MTake = Some m' -> exists r, m_results m = r :: m_results m' /\ m_then m' = Some (r, ANew) /\ m_log m' = m_log m /\ m_pa m' = m_pa m.
Proof.
  intros op m m' H. cbn [m_step] in H. destruct (m_poll m) as [|[|] k]; try discriminate. destruct (m_then m); [discriminate|]. destruct (m_results m) as [|r rs]; [discriminate|]. injection H as <-. exists r. cbn. auto.
Qed.
Lemma accept_new : forall op inp m e m' i a, m_step (exec f op) m (MEnv e) = Some m' -> of_input inp (m_pa m) -> m_tasks m' = m_tasks m ++ [(i, a)] -> In (ROk (i, a)) inp.
Proof.
  intros op inp m e m' i a H O T. cbn [m_step] in H. destruct (poll_event e); [discriminate|]. destruct (pa_step (m_pa m) e) as [p|] eqn:P; [|discriminate]. injection H as <-. cbn [set_queues m_tasks] in T.
  apply app_inv_head in T. assert (I : In (i, a) (map snd (skipn (length (pa_acc (m_pa m))) (pa_acc p)))) by (rewrite T; now left). apply in_map_iff in I. destruct I as ([n x] & Q & I). cbn in Q. subst x.
  assert (I' : In (n, (i, a)) (pa_acc p)). { rewrite <- (firstn_skipn (length (pa_acc (m_pa m)))). apply in_or_app. now right. }
  destruct (of_input_step inp _ _ _ P O) as (_ & _ & _ & D). eauto.
Qed.
End Steps.

(** *** The joint invariant *)
Section Joint.
Variable f : nat -> nat -> nat.
Variable g : nat -> nat -> nat -> nat.
Variable empty : nat -> nat.
Notation may := (may f g).
Notation jinv := (jinv f g empty).

Definition got_item (y : sys) (d : nat) (dd : dir) (op : nat) (i : N) (a v : nat) : Prop :=
  exists q x, In q (d_got dd) /\ nth_error (y_sent y) (r_n q) = Some (d, x) /\ decode x = JobMap op i a /\ r_out q = inl v.
Definition got_err (dd : dir) (e : nat) : Prop := exists q, In q (d_got dd) /\ r_out q = inr e.
Definition prov (y : sys) (d : nat) (dd : dir) (c : client) : Prop :=
  match c with
  | CMap op arr late en m =>
      (d_open dd = true -> m_results m = map (mres y) (queue_of y (d_key dd))) /\
      of_input (arr ++ late) (m_pa m) /\
      (forall n x i a, nth_error (y_sent y) n = Some (d, x) -> decode x = JobMap op i a -> In (ROk (i, a)) (arr ++ late)) /\
      (forall t r s, m_then m = Some ((t, r), s) -> match r with ROk v => got_item y d dd op (fst t) (snd t) v | RErr e => got_err dd e end) /\
      (forall i v, In (MItem i v) (m_log m) -> exists a, got_item y d dd op i a v) /\
      (forall e, In (MErr (EWorker e)) (m_log m) -> got_err dd e)
  | CFold op inp x => forall e, f_ret x = Some (RetErr (ErrWorker e)) -> got_err dd e
  end.
Definition pinv (s : joint) : Prop := jinv s /\ forall d dd c, nth_error (y_dirs (j_sys s)) d = Some dd -> nth_error (j_cl s) d = Some c -> prov (j_sys s) d dd c.

Lemma prov_frame : forall y y' d dd dd' c, sinv may y -> nth_error (y_dirs y) d = Some dd -> (forall n x, nth_error (y_sent y') n = Some (d, x) <-> nth_error (y_sent y) n = Some (d, x)) ->
  d_key dd' = d_key dd -> (forall q, In q (d_got dd) -> In q (d_got dd')) -> (d_open dd' = true -> d_open dd = true /\ queue_of y' (d_key dd) = queue_of y (d_key dd)) -> prov y d dd c -> prov y' d dd' c.
Proof.
  intros y y' d dd dd' c SI D S K G O P.
  assert (GI : forall op i a v, got_item y d dd op i a v -> got_item y' d dd' op i a v). { intros op i a v (q & x & A & B & C). exists q, x. split; [auto|]. split; [now apply S | exact C]. }
  assert (GE : forall e, got_err dd e -> got_err dd' e) by (intros e (q & A & B); exists q; auto).
  destruct c as [op arr late en m|op inp x].
  - destruct P as (P1 & P2 & P3 & P4 & P5 & P6). split; [|split; [exact P2|split; [intros n x i a H; apply (P3 n x i a); now apply S|split; [|split]]]].
    + intros O'. destruct (O O') as [O1 O2]. rewrite K, O2, (P1 O1). apply map_ext_in. intros r I. apply filter_In in I. destruct I as [I Q]. apply Nat.eqb_eq in Q.
      destruct (queue_mine f g y d dd r SI D I Q) as (x & H). unfold mres, mtask, job_of. rewrite H. apply S in H. now rewrite H.
    + intros t r s H. specialize (P4 t r s H). destruct r; auto.
    + intros i v H. destruct (P5 i v H) as (a & Q). eauto.
    + intros e H. auto.
  - intros e H. auto.
Qed.
Lemma prov_answer : forall y y' d dd c r x, sinv may y -> nth_error (y_dirs y) d = Some dd -> d_open dd = true -> knows f g empty y d dd c -> prov y d dd c -> y_sent y' = y_sent y -> y_results y' = y_results y ++ [r] ->
  nth_error (y_sent y) (r_n r) = Some (d, x) -> r_key r = d_key dd -> prov y' d dd (answer c (decode x) (r_out r)).
Proof.
  intros y y' d dd c r x SI D O KN P S R SN RK.
  assert (GI : forall op i a v, got_item y d dd op i a v -> got_item y' d dd op i a v). { intros op i a v (q & x' & A & B & C). exists q, x'. rewrite S. auto. }
  destruct c as [op arr late en m|op inp xs].
  - destruct KN as [K1 _]. destruct (K1 _ _ SN) as (i & a & DC). rewrite DC. destruct P as (P1 & P2 & P3 & P4 & P5 & P6). cbn [answer]. unfold prov. cbn [deliver m_results m_pa m_then m_log set_queues].
    split; [|split; [exact P2|split; [rewrite S; exact P3|split; [|split]]]].
    + intros _. rewrite (P1 O). unfold queue_of. rewrite R, filter_app. cbn [filter]. unfold on_key at 3. rewrite RK, Nat.eqb_refl, map_app. cbn [map]. f_equal.
      * apply map_ext. intros r1. unfold mres, mtask, job_of. now rewrite S.
      * unfold mres, mtask, job_of. now rewrite S, SN, DC.
    + intros t q s H. specialize (P4 t q s H). destruct q; auto.
    + intros i' v H. destruct (P5 _ _ H) as (a' & Q). eauto.
    + exact P6.
  - destruct KN as [K1 _]. destruct (K1 _ _ SN) as (t & DC). rewrite DC. cbn [answer]. destruct (f_ret xs) eqn:FR; [exact P|]. intros e H. apply P. exact H.
Qed.
(** A client moves, the system does not change for the others. *)
Lemma prov_client : forall y cl d dd c c' y' dd', pinv (mkJ y cl) -> jinv (mkJ y' (upd d c' cl)) -> nth_error (y_dirs y) d = Some dd -> nth_error cl d = Some c -> y_dirs y' = upd d dd' (y_dirs y) ->
  (forall d0 dd0, d0 <> d -> nth_error (y_dirs y) d0 = Some dd0 -> (forall n x, nth_error (y_sent y') n = Some (d0, x) <-> nth_error (y_sent y) n = Some (d0, x)) /\ queue_of y' (d_key dd0) = queue_of y (d_key dd0)) ->
  prov y' d dd' c' -> pinv (mkJ y' (upd d c' cl)).
Proof.
  intros y cl d dd c c' y' dd' (J & PV) J' D C DS FR P. split; [exact J'|]. cbn [j_sys j_cl] in *. intros d0 dd0 c0 D0 C0. rewrite DS in D0. destruct (Nat.eq_dec d d0) as [<-|NE].
  - rewrite upd_nth_same in D0 by (apply nth_error_Some; congruence). rewrite upd_nth_same in C0 by (apply nth_error_Some; congruence). injection D0 as <-. injection C0 as <-. exact P.
  - rewrite upd_nth_other in D0 by exact NE. rewrite upd_nth_other in C0 by exact NE. destruct (FR d0 dd0 ltac:(auto) D0) as [F1 F2].
    apply (prov_frame y y' d0 dd0 dd0 c0); auto. apply J.
Qed.
Lemma on_result_err : forall (x : fstate nat nat) r ack e, f_ret x = None -> f_ret (on_result x r ack) = Some (RetErr (ErrWorker e)) -> r = RErr e.
Proof.
  intros x r ack e NR H. unfold on_result in H. destruct r as [it|e']; [exfalso|cbn in H; congruence].
  assert (TD : forall (s : fstate nat nat) q, f_ret (try_dispatch s q) = f_ret s). { intros s q. unfold try_dispatch. destruct (cq_acquire _ _ _ _) as [[[l r]|] qq]; reflexivity. }
  destruct (f_ended x && is_final it (f_count x)).
  - destruct ack; [destruct (f_final x)|]; cbn in H; congruence.
  - destruct ack; [rewrite TD in H; congruence | cbn in H; congruence].
Qed.
Lemma local_f_err : forall op x e x' er, fold_step (comb g op) (empty op) x e = Some x' -> (match e with EvResult _ _ => False | _ => True end) -> f_ret x' <> Some (RetErr (ErrWorker er)).
Proof.
  intros op x e x' er H N. unfold fold_step in H. destruct (f_ret x) eqn:FR; [discriminate|].
  assert (TD : forall (s : fstate nat nat) q, f_ret (try_dispatch s q) = f_ret s). { intros s q. unfold try_dispatch. destruct (cq_acquire _ _ _ _) as [[[l r]|] qq]; reflexivity. }
  destruct e as [| |i ok|i o|i ack|ok|i|i|i|i]; try contradiction.
  - destruct (f_inp x) as [|[it|e2] l]; try discriminate; injection H as <-; [|cbn; congruence]. unfold on_input. destruct (_ <? 2)%N; [cbn; congruence|]. rewrite TD. cbn. congruence.
  - destruct (f_inp x); [|discriminate]. destruct (f_ended x); [discriminate|]. injection H as <-. unfold on_input_end.
    destruct (_ =? 0)%N; [cbn; congruence|]. destruct (_ =? 1)%N; [|cbn; congruence]. destruct (cq_dequeue _ _) as [[it|] q]; cbn; congruence.
  - destruct (pick i (f_chan x)) as [[t c]|]; [|discriminate]. destruct ok; injection H as <-; cbn; congruence.
  - destruct (pick i (f_tasks x)) as [[t c]|]; [|discriminate]. injection H as <-. cbn. congruence.
  - destruct (f_final x); [|discriminate]. destruct ok; injection H as <-; cbn; congruence.
  - destruct (pick i (f_tasks x)) as [[t c]|]; [|discriminate]. injection H as <-. cbn. congruence.
  - destruct (pick i (f_results x)) as [[t c]|]; [|discriminate]. injection H as <-. cbn. congruence.
  - destruct (nth_error (f_tasks x) i); [|discriminate]. injection H as <-. cbn. congruence.
  - destruct (nth_error (f_results x) i); [|discriminate]. injection H as <-. cbn. congruence.
Qed.
Lemma prov_inherits : forall y d dd op arr late en m m', prov y d dd (CMap op arr late en m) -> inherits m m' -> m_results m' = m_results m -> prov y d dd (CMap op arr late en m').
Proof.
  intros y d dd op arr late en m m' (P1 & P2 & P3 & P4 & P5 & P6) [I1 I2 I3 I4] R. split; [rewrite R; exact P1|]. split; [auto|]. split; [exact P3|]. split; [|split].
  - intros t r s H. destruct (I2 _ _ H) as (s0 & Q). exact (P4 _ _ _ Q).
  - intros i v H. destruct (I3 _ _ H) as [Q|(a & s & Q)]; [auto|]. exists a. exact (P4 _ _ _ Q).
  - intros e H. destruct (I4 _ H) as [Q|(t & s & Q)]; [auto|]. exact (P4 _ _ _ Q).
Qed.
Lemma prov_all : forall y cl y', pinv (mkJ y cl) -> jinv (mkJ y' cl) -> y_dirs y' = y_dirs y -> y_sent y' = y_sent y -> y_results y' = y_results y -> pinv (mkJ y' cl).
Proof.
  intros y cl y' (J & PV) J' DS S R. split; [exact J'|]. cbn [j_sys j_cl] in *. rewrite DS. intros d dd c D C. apply (prov_frame y y' d dd dd c); auto.
  - apply J.
  - intros n x. now rewrite S.
  - unfold queue_of. rewrite R. auto.
Qed.
Lemma recv_pinv : forall y cl d dd c c' i s', pinv (mkJ y cl) -> jinv s' -> nth_error (y_dirs y) d = Some dd -> nth_error cl d = Some c -> recv f g y d dd c' cl i = Some s' ->
  (forall y' dd' r, y_sent y' = y_sent y -> d_key dd' = d_key dd -> d_open dd = true -> d_got dd' = d_got dd ++ [r] -> In r (y_results y) -> r_key r = d_key dd ->
     pick i (queue_of y (d_key dd)) = Some (r, queue_of y' (d_key dd)) -> prov y' d dd' c') -> pinv s'.
Proof.
  intros y cl d dd c c' i s' PV J' D C H KK. unfold recv in H. destruct (place (d_key dd) i (y_results y)) as [j|] eqn:P; [|discriminate].
  destruct (place_pick _ _ _ _ P) as (r & rest & P1 & P2 & P3 & P4). destruct (y_step may y (YRecv d j)) as [y'|] eqn:Y; [|discriminate]. cbn in H. injection H as <-.
  cbn in Y. rewrite D, P1 in Y. rewrite P2, Nat.eqb_refl, andb_true_r in Y. destruct (d_open dd) eqn:O; [|discriminate]. injection Y as <-.
  eapply prov_client; eauto; [reflexivity| |].
  - intros d0 dd0 NE D0. cbn. split; [tauto|]. unfold queue_of. cbn. apply P4. intros E. apply NE. destruct PV as [[SI _] _]. exact (keys_inj may _ _ _ _ _ SI D0 D E).
  - apply (KK _ _ r); auto. eapply pick_in; eauto.
Qed.
Lemma send_pinv : forall y cl d dd c c' j s', pinv (mkJ y cl) -> jinv s' -> nth_error (y_dirs y) d = Some dd -> nth_error cl d = Some c -> send f g y d c' cl j = Some s' ->
  (forall y', y_sent y' = y_sent y ++ [(d, code j)] -> y_results y' = y_results y -> prov y' d dd c') -> pinv s'.
Proof.
  intros y cl d dd c c' j s' PV J' D C H K. unfold send in H. destruct (y_step may y (YSend d (code j))) as [y'|] eqn:Y; [|discriminate]. cbn [option_map] in H. injection H as <-.
  cbn [y_step] in Y. rewrite D in Y. injection Y as <-. eapply (prov_client y cl d dd c c' _ dd); eauto.
  - cbn [y_dirs]. now rewrite (upd_id _ _ _ _ D).
  - intros d0 dd0 NE _. split; [apply (send_frame y d (code j) d0 (d_key dd0) NE) | reflexivity].
Qed.
Lemma prov_send_map : forall y y' d dd op arr late en m i a, sinv may y -> nth_error (y_dirs y) d = Some dd -> prov y d dd (CMap op arr late en m) -> y_sent y' = y_sent y ++ [(d, code (JobMap op i a))] ->
  y_results y' = y_results y -> In (ROk (i, a)) (arr ++ late) -> prov y' d dd (CMap op arr late en m).
Proof.
  intros y y' d dd op arr late en m i a SI D (P1 & P2 & P3 & P4 & P5 & P6) S R I.
  assert (OLD : forall n x, nth_error (y_sent y) n = Some x -> nth_error (y_sent y') n = Some x) by (intros n x H; rewrite S; now apply nth_app_old).
  assert (GI : forall op i a v, got_item y d dd op i a v -> got_item y' d dd op i a v). { intros op' i' a' v (q & x' & A & B & C). exists q, x'. auto. }
  split; [|split; [exact P2|split; [|split; [|split]]]].
  - intros O. rewrite (P1 O). unfold queue_of. rewrite R. apply map_ext_in. intros r J. apply filter_In in J. destruct J as [J Q]. apply Nat.eqb_eq in Q.
    destruct (queue_mine f g y d dd r SI D J Q) as (x & H). unfold mres, mtask, job_of. now rewrite H, (OLD _ _ H).
  - intros n x i' a' H DC. rewrite S in H. destruct (nth_app_new _ _ _ _ _ H) as [[_ Q]|Q]; [|eauto]. apply (f_equal snd) in Q. cbn [snd] in Q. rewrite Q, decode_code in DC. injection DC as <- <-. exact I.
  - intros t r s H. specialize (P4 t r s H). destruct r; auto.
  - intros i' v H. destruct (P5 _ _ H) as (a' & Q). eauto.
  - exact P6.
Qed.
Lemma prov_take : forall y y' d dd dd' op arr late en m m' r, sinv may y -> nth_error (y_dirs y) d = Some dd -> knows f g empty y d dd (CMap op arr late en m) -> prov y d dd (CMap op arr late en m) ->
  m_step (exec f op) m MTake = Some m' -> y_sent y' = y_sent y -> d_key dd' = d_key dd -> d_open dd = true -> d_got dd' = d_got dd ++ [r] -> In r (y_results y) -> r_key r = d_key dd ->
  pick 0 (queue_of y (d_key dd)) = Some (r, queue_of y' (d_key dd)) -> prov y' d dd' (CMap op arr late en m').
Proof.
  intros y y' d dd dd' op arr late en m m' r SI D [K1 _] (P1 & P2 & P3 & P4 & P5 & P6) H S K O G RI RK P. destruct (take_then _ _ _ _ H) as (q & Q1 & Q2 & Q3 & Q4).
  destruct (queue_mine f g y d dd r SI D RI RK) as (x & SN). destruct (K1 _ _ SN) as (i & a & DC).
  destruct (queue_of y (d_key dd)) as [|r0 l] eqn:QE; [discriminate|]. cbn in P. injection P as -> P. specialize (P1 O). rewrite Q1 in P1. cbn in P1. injection P1 as Q0 P1.
  assert (MR : mres y r = ((i, a), answer_of (r_out r))) by (unfold mres, mtask, job_of; now rewrite SN, DC).
  split; [|split; [now rewrite Q4|split; [rewrite S; exact P3|split; [|split]]]].
  - intros _. rewrite K, P1, <- P. apply map_ext. intros r1. unfold mres, mtask, job_of. now rewrite S.
  - intros t u s T. rewrite Q2 in T. injection T as T _. rewrite T, MR in Q0. injection Q0 as -> ->. cbn [fst snd]. destruct (r_out r) as [v|er] eqn:RO; cbn.
    + exists r, x. rewrite S, G. repeat split; auto. apply in_or_app. right. now left.
    + exists r. rewrite G. split; [apply in_or_app; right; now left | exact RO].
  - rewrite Q3. intros i' v I. destruct (P5 _ _ I) as (a' & z & x' & A & B). exists a', z, x'. rewrite S, G. split; [apply in_or_app; now left | exact B].
  - rewrite Q3. intros e I. destruct (P6 _ I) as (z & A & B). exists z. rewrite G. split; [apply in_or_app; now left | exact B].
Qed.

Lemma pinv_step : forall s e s', pinv s -> j_step f g empty s e = Some s' -> pinv s'.
Proof.
  intros [y cl] e s' PI H. pose proof PI as [J PV]. pose proof (jinv_step f g empty _ _ _ J H) as J'. pose proof J as (SI & LN & KN). cbn [j_sys j_cl] in *. unfold j_step in H. cbn [j_sys j_cl] in H.
  assert (LEASE : forall k c y', y_step may y (YLease k) = Some y' -> jinv (mkJ y' (cl ++ [c])) ->
    (match c with CMap op arr late en m => m = m_init arr late en | CFold op inp x => x = fold_init inp end) -> pinv (mkJ y' (cl ++ [c]))).
  { intros k c y' Y JJ HC. cbn in Y. destruct (existsb _ _); [discriminate|]. injection Y as <-. split; [exact JJ|]. intros d dd c0 D C. cbn [j_sys j_cl y_dirs] in *. destruct (nth_app_new _ _ _ _ _ D) as [[-> ->]|D0].
    - rewrite <- LN, nth_error_app2, Nat.sub_diag in C by lia. cbn in C. injection C as <-. destruct JJ as (_ & _ & KJ). cbn [j_sys j_cl y_dirs] in KJ.
      assert (C : nth_error (cl ++ [c]) (length (y_dirs y)) = Some c) by (rewrite <- LN, nth_error_app2, Nat.sub_diag by lia; reflexivity).
      assert (NS : forall n x, ~ nth_error (y_sent y) n = Some (length (y_dirs y), x)). { intros n x S. pose proof (si_sent _ _ SI _ _ _ S). lia. }
      specialize (KJ _ _ _ D C). destruct c as [op arr late en m|op inp x]; subst; cbn.
      + destruct KJ as [_ KJ]. destruct KJ as (mtr & _ & _ & _ & MF). { intros n x S. destruct (NS _ _ S). } destruct (MF eq_refl) as [MR _].
        split; [intros _; exact MR|]. split; [split; [auto|]; cbn; tauto|]. split; [intros n x i a S; destruct (NS _ _ S)|]. split; [discriminate|]. split; [intros i v []|]. intros ? [].
      + discriminate.
    - assert (C0 : nth_error cl d = Some c0). { destruct (nth_app_new _ _ _ _ _ C) as [[-> _]|Q]; [|exact Q]. assert (nth_error (y_dirs y) (length cl) <> None) by congruence. apply nth_error_Some in H0. lia. }
      apply (prov_frame y _ d dd dd c0); auto. cbn. tauto. }
  assert (LOCAL : forall d dd c c', nth_error (y_dirs y) d = Some dd -> nth_error cl d = Some c -> jinv (mkJ y (upd d c' cl)) -> prov y d dd c' -> pinv (mkJ y (upd d c' cl))).
  { intros d dd c c' D C JJ P. apply (prov_client y cl d dd c c' y dd); auto; [now rewrite (upd_id _ _ _ _ D)|]. intros d0 dd0 _ _. split; [tauto | reflexivity]. }
  destruct e as [op k arr late en|op k inp|d e|d e|e].
  - destruct (y_step may y (YLease k)) as [y'|] eqn:Y; [|discriminate]. cbn [option_map] in H. injection H as <-. now apply (LEASE k).
  - destruct (y_step may y (YLease k)) as [y'|] eqn:Y; [|discriminate]. cbn [option_map] in H. injection H as <-. now apply (LEASE k).
  - unfold open_dir in H. destruct (nth_error (y_dirs y) d) as [dd|] eqn:D; [|discriminate]. destruct (d_open dd) eqn:O; [|discriminate]. destruct (nth_error cl d) as [c|] eqn:C; [|discriminate].
    pose proof (KN _ _ _ D C) as K. pose proof (PV _ _ _ D C) as P. destruct c as [op arr late en m|op inp x]; [|discriminate]. destruct (m_step (exec f op) m e) as [m'|] eqn:M; [|discriminate].
    assert (LOC : local_m e = true -> jinv (mkJ y (upd d (CMap op arr late en m') cl)) -> pinv (mkJ y (upd d (CMap op arr late en m') cl))).
    { intros L JJ. apply (LOCAL d dd (CMap op arr late en m)); auto. eapply prov_inherits; eauto; [eapply inh_step; eauto; destruct e; try exact Logic.I; discriminate | now apply (local_queues _ _ _ _ _ M L)]. }
    assert (ACC : forall e0, e = MEnv e0 -> match e0 with PaAccept _ | PaAcceptDropped _ => True | _ => False end ->
      match skipn (length (m_tasks m)) (m_tasks m') with [(i, a)] => send f g y d (CMap op arr late en m') cl (JobMap op i a) | _ => None end = Some s' -> pinv s').
    { intros e0 -> A Q. destruct (accept_queues _ _ _ _ _ M A) as ([i a] & T & R). rewrite T, skipn_app, skipn_all, Nat.sub_diag in Q. cbn [skipn app] in Q.
      eapply send_pinv; eauto. intros y' S' R'. eapply prov_send_map; eauto.
      - eapply prov_inherits; eauto. eapply inh_step; eauto. exact Logic.I.
      - eapply accept_new; eauto. apply P. }
    destruct e as [|e0| | | | | | | |e0|ok|i o|i|i|i|i]; try discriminate; try (injection H as <-; now apply LOC).
    + eapply recv_pinv; eauto. intros y' dd' r S' DK _ G RI RK PK. eapply prov_take; eauto.
    + destruct (place _ _ _); [discriminate|]. injection H as <-. now apply LOC.
    + destruct e0; try (injection H as <-; now apply LOC); eapply ACC; eauto; exact Logic.I.
  - unfold open_dir in H. destruct (nth_error (y_dirs y) d) as [dd|] eqn:D; [|discriminate]. destruct (d_open dd) eqn:O; [|discriminate]. destruct (nth_error cl d) as [c|] eqn:C; [|discriminate].
    pose proof (KN _ _ _ D C) as K. pose proof (PV _ _ _ D C) as P. destruct c as [op arr late en m|op inp x]; [discriminate|]. destruct (fold_step (comb g op) (empty op) x e) as [x'|] eqn:M; [|discriminate].
    assert (LOC : (match e with EvResult _ _ => False | _ => True end) -> jinv (mkJ y (upd d (CFold op inp x') cl)) -> pinv (mkJ y (upd d (CFold op inp x') cl))).
    { intros L JJ. apply (LOCAL d dd (CFold op inp x)); auto. intros er Q. destruct (local_f_err _ _ _ _ _ M L Q). }
    destruct e as [| |i ok| |i ack| | | | |]; try discriminate; try (injection H as <-; now apply LOC).
    + destruct ok; [|injection H as <-; now apply LOC]. pose proof (fun er => local_f_err _ _ _ _ er M Logic.I) as NE. unfold fold_step in M. destruct (f_ret x) eqn:FR; [discriminate|]. destruct (pick i (f_chan x)) as [[t c]|] eqn:PK; [|discriminate]. injection M as <-.
      eapply (send_pinv y cl d dd); try eassumption. intros y' S' R' er Q. destruct (NE er Q).
    + eapply recv_pinv; eauto. intros y' dd' r S' DK _ G RI RK PK er Q.
      assert (NR : f_ret x = None) by (unfold fold_step in M; destruct (f_ret x); [discriminate|reflexivity]).
      destruct K as [K1 (ftr & _ & MF)]. destruct (MF O NR) as [RS _]. unfold fold_step in M. rewrite NR in M. destruct (2 <=? f_count x)%N; [|discriminate].
      destruct (pick i (f_results x)) as [[q rs]|] eqn:PQ; [|discriminate]. injection M as <-. apply on_result_err in Q; [|exact NR]. subst q.
      rewrite RS, (pick_map _ _ _ _ _ _ _ PK) in PQ. injection PQ as PQ _. destruct (queue_mine f g y d dd r SI D RI RK) as (z & SN). destruct (K1 _ _ SN) as (t & DC).
      unfold fres, job_of in PQ. rewrite SN, DC in PQ. destruct (r_out r) as [v|e'] eqn:RO; cbn in PQ; [discriminate|]. injection PQ as ->. exists r. rewrite G. split; [apply in_or_app; right; now left | exact RO].
  - destruct e as [k|d x|ident|w j|w e|w i|d j|d]; try discriminate.
    + destruct (y_step may y (YStart ident)) as [y'|] eqn:Y; [|discriminate]. cbn [option_map] in H. injection H as <-. cbn in Y. injection Y as <-. now apply (prov_all y).
    + destruct (y_step may y (YTake w j)) as [y'|] eqn:Y; [|discriminate]. cbn [option_map] in H. injection H as <-. cbn [y_step] in Y.
      destruct (nth_error (y_workers y) w) as [ws|]; [|discriminate]. destruct (pick j (y_queue y)) as [[n q]|]; [|discriminate]. destruct (nth_error (y_sent y) n) as [[d x]|]; [|discriminate].
      destruct (nth_error (y_dirs y) d) as [dd|]; [|discriminate]. destruct (w_step ws _) as [ws'|]; [|discriminate]. injection Y as <-. now apply (prov_all y).
    + destruct (y_step may y (YWork w e)) as [y'|] eqn:Y; [|discriminate]. injection H as <-. pose proof (sinv_step _ _ _ _ _ SI Y) as SI'. destruct (work_results f g _ _ _ _ Y) as (E1 & E2 & E3 & E4 & [E5|(r & E5)]); rewrite E5 in *.
      * rewrite skipn_all in *. cbn [fold_left] in *. now apply (prov_all y).
      * rewrite skipn_app, skipn_all, Nat.sub_diag in *. cbn [skipn app fold_left] in *.
        assert (RI : In r (y_results y')) by (rewrite E5; apply in_or_app; right; now left).
        destruct (res_origin _ _ _ SI' (proj2 (in_all y' r) (or_introl RI))) as (d & x & dd & ws & o & S1 & D1 & RK & _). unfold dispatched in S1. rewrite E2 in S1. rewrite E1 in D1.
        unfold arrive in *. rewrite E2, S1, E1, D1 in *.
        assert (FR : forall d0 dd0, d0 <> d -> nth_error (y_dirs y) d0 = Some dd0 -> (forall n x, nth_error (y_sent y') n = Some (d0, x) <-> nth_error (y_sent y) n = Some (d0, x)) /\ queue_of y' (d_key dd0) = queue_of y (d_key dd0)).
        { intros d0 dd0 NE D0. split; [intros n x0; now rewrite E2|]. unfold queue_of. rewrite E5, filter_app. cbn [filter]. unfold on_key at 2. destruct (Nat.eqb_spec (r_key r) (d_key dd0)) as [E|_]; [|now rewrite app_nil_r].
          exfalso. apply NE. apply (keys_inj may _ _ _ _ _ SI D0 D1). congruence. }
        destruct (nth_error cl d) as [c|] eqn:C. 2: { exfalso. apply nth_error_None in C. assert (nth_error (y_dirs y) d <> None) by congruence. apply nth_error_Some in H. lia. }
        assert (US : y_dirs y' = upd d dd (y_dirs y)) by now rewrite E1, (upd_id _ _ _ _ D1).
        destruct (d_open dd) eqn:O.
        -- apply (prov_client y cl d dd c _ y' dd); auto. apply (prov_answer y y' d dd c r x); auto.
        -- rewrite <- (upd_id _ _ _ _ C). apply (prov_client y cl d dd c _ y' dd); auto; [now rewrite (upd_id _ _ _ _ C)|]. apply (prov_frame y y' d dd dd c); auto; [intros n x0; now rewrite E2 | congruence].
    + destruct (y_step may y (YBack w i)) as [y'|] eqn:Y; [|discriminate]. cbn [option_map] in H. injection H as <-. cbn [y_step] in Y.
      destruct (nth_error (y_workers y) w) as [ws|]; [|discriminate]. destruct (body_of i (w_log ws)) as [n|]; [|discriminate]. destruct (_ || _); [discriminate|]. injection Y as <-. now apply (prov_all y).
    + destruct (y_step may y (YRelease d)) as [y'|] eqn:Y; [|discriminate]. cbn [option_map] in H. injection H as <-. cbn [y_step] in Y.
      destruct (nth_error (y_dirs y) d) as [dd|] eqn:D; [|discriminate]. destruct (d_open dd) eqn:O; [|discriminate]. injection Y as <-.
      destruct (nth_error cl d) as [c|] eqn:C. 2: { exfalso. apply nth_error_None in C. assert (nth_error (y_dirs y) d <> None) by congruence. apply nth_error_Some in H. lia. }
      rewrite <- (upd_id _ _ _ _ C). eapply (prov_client y cl d dd c c); eauto; [now rewrite (upd_id _ _ _ _ C) | reflexivity | |].
      * intros d0 dd0 NE D0. cbn. split; [tauto|]. unfold queue_of. cbn. assert (KE : d_key dd0 <> d_key dd) by (intros E; apply NE; exact (keys_inj may _ _ _ _ _ SI D0 D E)). clear - KE.
        induction (y_results y) as [|r l IH]; [reflexivity|]. cbn. destruct (Nat.eqb_spec (r_key r) (d_key dd)) as [E|E]; cbn; [|now rewrite IH].
        unfold on_key at 2. destruct (Nat.eqb_spec (r_key r) (d_key dd0)); [congruence | exact IH].
      * apply (prov_frame y _ d dd _ c); auto; cbn; [tauto | discriminate].
Qed.
Theorem pinv_run : forall tr s, j_run f g empty tr = Some s -> pinv s.
Proof.
  intros tr s H. refine (run_from_inv _ _ (j_step f g empty) pinv pinv_step tr j_init s _ H). split; [exact (jinv_run f g empty [] j_init eq_refl)|]. intros [|d] dd c D; discriminate.
Qed.

(** ** C67 *)
(** An item that a map returns is the operation's value on one of its inputs, under that input's index. *)
Theorem C67_items : forall tr s d op arr late en m i v, j_run f g empty tr = Some s -> map_at s d op arr late en m -> In (i, v) (yielded (m_log m)) -> exists a, In (ROk (i, a)) (arr ++ late) /\ v = f op a.
Proof.
  intros tr s d op arr late en m i v R C Y. destruct (pinv_run _ _ R) as [J PV]. unfold map_at, fold_at in C; destruct (dir_of _ _ _ _ _ _ J C) as (dd & D). destruct J as (SI & _ & _). destruct (PV _ _ _ D C) as (_ & _ & P3 & _ & P5 & _).
  assert (I : In (MItem i v) (m_log m)). { clear - Y. induction (m_log m) as [|r l IH]; [destruct Y|]. destruct r; cbn in Y; try (right; now auto). destruct Y as [Q|Q]; [injection Q as -> ->; now left | right; auto]. }
  destruct (P5 _ _ I) as (a & q & x & G & SN & DC & RO). exists a. split; [exact (P3 _ _ _ _ SN DC)|].
  assert (A : In q (all_res (j_sys s))) by (apply in_all; right; left; eauto).
  destruct (res_origin _ _ _ SI A) as (d' & x' & dd' & ws & o & S1 & _ & _ & _ & _ & _ & M & RR). unfold dispatched in S1. rewrite SN in S1. injection S1 as <- <-. rewrite RO in RR.
  destruct o as [v'|fs msg|]; cbn in RR; try discriminate; [|destruct fs; discriminate]. injection RR as ->. unfold JointModel.may in M. rewrite DC in M. cbn in M. now apply Nat.eqb_eq.
Qed.
(** An error of a worker that a map or a fold returns is the error with which an execution of one of its own tasks ended. *)
Definition own_failure (y : sys) (d e : nat) : Prop :=
  exists n x w ws i tm, dispatched y n d x /\ nth_error (y_workers y) w = Some ws /\ took ws i n /\ In (tm, AFinish i (OcErr FsTerminate e)) (w_log ws).
Lemma own_error : forall s d dd e, jinv s -> nth_error (y_dirs (j_sys s)) d = Some dd -> got_err dd e -> own_failure (j_sys s) d e.
Proof.
  intros s d dd e J D (q & G & RO). destruct J as (SI & _ & _). assert (A : In q (all_res (j_sys s))) by (apply in_all; right; left; eauto).
  destruct (res_origin _ _ _ SI A) as (d' & x & dd' & ws & o & S1 & S2 & K & W & T & (tm & F) & M & RR).
  assert (d' = d) by (apply (keys_inj _ _ _ _ _ _ SI S2 D); rewrite <- K; exact (si_got _ _ SI _ _ _ D G)). subst d'.
  exists (r_n q), x, (r_w q), ws, (r_i q), tm. rewrite RO in RR. destruct o as [v'|[|] msg|]; cbn in RR; try discriminate. injection RR as ->. auto.
Qed.
Theorem C67_map_error : forall tr s d op arr late en m e, j_run f g empty tr = Some s -> map_at s d op arr late en m -> In (MErr (EWorker e)) (m_log m) -> own_failure (j_sys s) d e.
Proof.
  intros tr s d op arr late en m e R C I. destruct (pinv_run _ _ R) as [J PV]. unfold map_at, fold_at in C; destruct (dir_of _ _ _ _ _ _ J C) as (dd & D). destruct (PV _ _ _ D C) as (_ & _ & _ & _ & _ & P6). eapply own_error; eauto.
Qed.
Theorem C67_fold_error : forall tr s d op inp x e, j_run f g empty tr = Some s -> fold_at s d op inp x -> f_ret x = Some (RetErr (ErrWorker e)) -> own_failure (j_sys s) d e.
Proof.
  intros tr s d op inp x e R C I. destruct (pinv_run _ _ R) as [J PV]. unfold map_at, fold_at in C; destruct (dir_of _ _ _ _ _ _ J C) as (dd & D). pose proof (PV _ _ _ D C) as P. eapply own_error; eauto.
Qed.
End Joint.
Print Assumptions C67_items.
Print Assumptions C67_map_error.
Print Assumptions C67_fold_error.

(** A map of two inputs whose second task fails, and a fold whose only task fails; each returns the error of its own task. *)
Definition fails (w msg : nat) : list y_event :=
  work w (OcErr FsTerminate msg) [WDeclare true; WEffect SAbort; WEffect SAck; WEffect SResult; WReturn SResult true; WReturn SAbort true; WReturn SAck true; WClose true; WJoin].
Definition both_fail : list j_event :=
  [JMap 0 7 two_in [] true; JFold 0 8 [ROk (1%N, 2); ROk (0%N, 1)]] ++ sys1 [YStart 20; YStart 21] ++ m1 0 publish_two ++ f1 1 [EvInput; EvInput; EvPublish 0 true; EvInputEnd] ++
  sys1 ([YTake 0 0] ++ work 0 (OcOk 1) (resolve 0) ++ [YTake 0 0] ++ fails 0 5 ++ [YTake 1 0] ++ fails 1 6) ++ m1 0 read_two ++ f1 1 [EvResult 0 true].
Definition show_log (s : joint) (d : nat) := match nth_error (j_cl s) d with Some (CMap op arr late en m) => Some (op, arr, late, en, m_log m) | _ => None end.
Example C67_example : exists s m x, j_run inc plus zero both_fail = Some s /\ map_at s 0 0 two_in [] true m /\ fold_at s 1 0 [ROk (1%N, 2); ROk (0%N, 1)] x /\
  yielded (m_log m) = [(0%N, 1)] /\ In (MErr (EWorker 5)) (m_log m) /\ f_ret x = Some (RetErr (ErrWorker 6)).
Proof.
  assert (H : option_map (fun s => (show_log s 0, show_fold s 1)) (j_run inc plus zero both_fail) =
    Some (Some (0, two_in, [], true, [MNone; MErr (EWorker 5); MItem 0%N 1; MPending]), Some (0, [ROk (1%N, 2); ROk (0%N, 1)], Some (RetErr (ErrWorker 6))))) by (vm_compute; reflexivity).
  destruct (j_run inc plus zero both_fail) as [s|]; [|discriminate]. cbn [option_map] in H. injection H as Q1 Q2. exists s. unfold show_log in Q1. unfold show_fold in Q2.
  destruct (nth_error (j_cl s) 0) as [[op arr late en m|]|] eqn:C1; try discriminate Q1. destruct (nth_error (j_cl s) 1) as [[|op' inp x]|] eqn:C2; try discriminate Q2.
  injection Q1 as -> -> -> -> Y. injection Q2 as -> -> X. exists m, x. rewrite Y. split; [reflexivity|]. split; [exact C1|]. split; [exact C2|]. split; [reflexivity|]. split; [cbn; auto | exact X].
Qed.
