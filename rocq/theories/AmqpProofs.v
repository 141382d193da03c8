(** Invariants of the AMQP model. *)
From Coq Require Import List Arith Lia Bool Sorting.Sorted.
From Verif Require Import Base BaseFacts ConnModel ConnProps AmqpModel AmqpSpec.
Import ListNotations.
Open Scope nat_scope.

(** ** Small facts *)
Lemma cut_spec : forall (A : Type) (f : A -> bool) l a x b, cut f l = Some (a, x, b) -> l = a ++ x :: b /\ f x = true /\ forall y, In y a -> f y = false.
Proof.
  intros A f l; induction l as [|y l IH]; intros a x b H; cbn in H; [discriminate|]. destruct (f y) eqn:F.
  - injection H as <- <- <-. now repeat split.
  - destruct (cut f l) as [[[a' x'] b']|]; [|discriminate]. injection H as <- <- <-. destruct (IH _ _ _ eq_refl) as (-> & F' & N).
    repeat split; auto. intros z [<-|Hz]; auto.
Qed.
Lemma cut_none : forall (A : Type) (f : A -> bool) l, cut f l = None -> forall y, In y l -> f y = false.
Proof.
  intros A f l; induction l as [|y l IH]; intros H z Hz; [easy|]. cbn in H. destruct (f y) eqn:F; [discriminate|].
  destruct (cut f l) as [[[? ?] ?]|]; [discriminate|]. destruct Hz as [<-|Hz]; auto.
Qed.
Lemma put_back_in : forall x l y, In y (put_back x l) <-> y = x \/ In y l.
Proof.
  intros x l y; induction l as [|z l IH]; cbn [put_back In fold_right]; [intuition (subst; auto)|]. destruct (m_id (snd x) <? m_id (snd z)); cbn [put_back In fold_right]; [intuition (subst; auto)|]. rewrite IH. intuition (subst; auto).
Qed.
Lemma put_all_in : forall xs l y, In y (fold_right put_back l xs) <-> In y xs \/ In y l.
Proof. intros xs l y; induction xs as [|x xs IH]; cbn [put_back In fold_right]; [intuition (subst; auto)|]. rewrite put_back_in, IH. intuition (subst; auto). Qed.
Lemma put_back_cnt : forall f x l, cnt f (put_back x l) = b2n (f x) + cnt f l.
Proof. intros f x l; induction l as [|z l IH]; cbn [put_back In fold_right]; [now rewrite cnt_one, Nat.add_0_r|]. destruct (m_id (snd x) <? m_id (snd z)); rewrite !cnt_cons; [reflexivity|]. rewrite IH. lia. Qed.
Lemma put_all_cnt : forall f xs l, cnt f (fold_right put_back l xs) = cnt f xs + cnt f l.
Proof. intros f xs l; induction xs as [|x xs IH]; cbn [put_back In fold_right]; [reflexivity|]. rewrite put_back_cnt, cnt_cons, IH. lia. Qed.
Definition le_id (x y : nat * bmsg) : Prop := m_id (snd x) <= m_id (snd y).
Lemma put_back_sorted : forall x l, StronglySorted le_id l -> StronglySorted le_id (put_back x l).
Proof.
  intros x l H; induction H as [|z l H IH F]; cbn [put_back In fold_right]; [repeat constructor|]. rewrite Forall_forall in F.
  destruct (m_id (snd x) <? m_id (snd z)) eqn:L.
  - apply Nat.ltb_lt in L. constructor; [constructor; [exact H | now apply Forall_forall]|]. apply Forall_forall. intros y [<-|Hy]; unfold le_id in *; [lia | specialize (F y Hy); lia].
  - apply Nat.ltb_ge in L. constructor; [exact IH|]. apply Forall_forall. intros y Hy. apply put_back_in in Hy. destruct Hy as [->|Hy]; unfold le_id in *; [lia | auto].
Qed.
Lemma put_all_sorted : forall xs l, StronglySorted le_id l -> StronglySorted le_id (fold_right put_back l xs).
Proof. intros xs l H; induction xs; cbn; [exact H | now apply put_back_sorted]. Qed.
Lemma sorted_filter : forall (f : nat * bmsg -> bool) l, StronglySorted le_id l -> StronglySorted le_id (filter f l).
Proof.
  intros f l H; induction H as [|z l H IH F]; cbn; [constructor|]. destruct (f z); [|exact IH]. constructor; [exact IH|].
  rewrite Forall_forall in *. intros y Hy. apply filter_In in Hy. now apply F.
Qed.
Lemma sorted_app : forall (l1 l2 : list (nat * bmsg)), StronglySorted le_id (l1 ++ l2) -> StronglySorted le_id l1 /\ StronglySorted le_id l2 /\ forall x y, In x l1 -> In y l2 -> le_id x y.
Proof.
  intros l1; induction l1 as [|z l1 IH]; intros l2 H; cbn in *; [repeat split; [constructor | exact H | easy]|]. inversion H as [|? ? S F]; subst.
  destruct (IH _ S) as (A1 & A2 & A3). rewrite Forall_forall in F. repeat split.
  - constructor; [exact A1|]. apply Forall_forall. intros y Hy. apply F, in_app_iff. auto.
  - exact A2.
  - intros x y [<-|Hx] Hy; [apply F, in_app_iff; auto | auto].
Qed.
Lemma sorted_join : forall (l1 l2 : list (nat * bmsg)), StronglySorted le_id l1 -> StronglySorted le_id l2 -> (forall x y, In x l1 -> In y l2 -> le_id x y) -> StronglySorted le_id (l1 ++ l2).
Proof.
  intros l1 l2 H; induction H as [|z l H IH F]; intros H2 X; cbn; [exact H2|]. constructor; [apply IH; [exact H2 | intros; apply X; cbn; auto]|].
  apply Forall_forall. intros y Hy. apply in_app_iff in Hy. rewrite Forall_forall in F. destruct Hy as [Hy|Hy]; [auto | apply X; cbn; auto].
Qed.
Lemma cnt_filter_split : forall (A : Type) (f g : A -> bool) l, cnt f (filter g l) + cnt f (filter (fun x => negb (g x)) l) = cnt f l.
Proof. intros A f g l; induction l as [|x l IH]; cbn; [reflexivity|]. destruct (g x); cbn; rewrite !cnt_cons; lia. Qed.
Lemma cnt_filter_le : forall (A : Type) (f g : A -> bool) l, cnt f (filter g l) <= cnt f l.
Proof. intros A f g l. pose proof (cnt_filter_split _ f g l). lia. Qed.
Lemma cnt_map : forall (A B : Type) (f : B -> bool) (g : A -> B) l, cnt f (map g l) = cnt (fun x => f (g x)) l.
Proof. intros A B f g l; induction l as [|x l IH]; cbn; [reflexivity|]. rewrite !cnt_cons, IH. reflexivity. Qed.
Lemma cnt_in : forall (A : Type) (f : A -> bool) l x, In x l -> f x = true -> 1 <= cnt f l.
Proof. intros A f l x H F; induction l as [|y l IH]; [easy|]. rewrite cnt_cons. destruct H as [->|H]; [rewrite F; cbn; lia | specialize (IH H); lia]. Qed.
Lemma lookup_in : forall n m q, lookup n m = Some q -> In (n, q) m.
Proof.
  intros n m q; induction m as [|[a b] m IH]; cbn; [discriminate|]. destruct (Nat.eqb a n) eqn:E; [|auto].
  intros H. injection H as ->. apply Nat.eqb_eq in E. subst. auto.
Qed.
Lemma known_spec : forall q s, known q s = true <-> exists n, In (n, q) (b_map s).
Proof.
  intros q s. unfold known. rewrite existsb_exists. split.
  - intros ([n q'] & H & E). apply Nat.eqb_eq in E. cbn in E. subst. eauto.
  - intros (n & H). exists (n, q). split; [exact H | apply Nat.eqb_refl].
Qed.
Lemma known_false : forall q s, known q s = false <-> forall n, ~ In (n, q) (b_map s).
Proof.
  intros q s. rewrite <- not_true_iff_false, known_spec. split; [intros H n Hn; eauto | intros H (n & Hn); eapply H; eauto].
Qed.
Lemma has_spec : forall n l, has n l = true <-> In n l.
Proof. intros n l. unfold has. rewrite existsb_exists. split; [intros (x & H & E); apply Nat.eqb_eq in E; now subst | intros H; exists n; split; [exact H | apply Nat.eqb_refl]]. Qed.

(** ** The steps, one change at a time *)
Definition core (s : broker) := (b_ready s, b_flight s, b_cons s, b_pubs s, b_next s, b_log s).

Section Proofs.
Variable decode : nat -> option nat.
Variable qos : nat -> nat.
Local Notation stp := (b_step decode qos).

Inductive micro : broker -> broker -> Prop :=
| m_frame : forall s s', core s' = core s -> b_map s' = b_map s -> b_made s' = b_made s -> micro s s'
| m_queue : forall s s' n, core s' = core s -> lookup n (b_map s) = None -> b_map s' = (n, b_made s) :: b_map s -> b_made s' = S (b_made s) -> micro s s'
| m_close : forall s c, micro s (close s c)
| m_gone : forall s n q, lookup n (b_map s) = Some q -> micro s (gone s n q)
| m_publish : forall s m n body qs, qs = [] \/ (exists q, qs = [q] /\ known q s = true) -> micro s (publish s m n body qs)
| m_consume : forall s c n q, lookup n (b_map s) = Some q ->
    micro s (mkB (b_map s) (b_made s) (b_exch s) (b_bind s) (b_ready s) (b_flight s) (b_cons s ++ [mkK c q true true]) (b_dead s) (b_calls s) (b_pubs s) (b_next s)
               (BCons (length (b_cons s)) c q :: b_log s))
| m_give : forall s k x a m b, nth_error (b_cons s) k = Some x -> k_live x = true -> b_ready s = a ++ (k_q x, m) :: b ->
    (forall y, In y a -> fst y <> k_q x) -> (qos (k_conn x) = 0 \/ held s k < qos (k_conn x)) ->
    micro s (mkB (b_map s) (b_made s) (b_exch s) (b_bind s) (a ++ b) (b_flight s ++ [mkF m (k_q x) k InBuffer]) (upd k (awake true x) (b_cons s)) (b_dead s) (b_calls s)
               (b_pubs s) (b_next s) (BGive (m_id m) k (k_conn x) :: b_log s))
| m_yield : forall s k x a f b y, nth_error (b_cons s) k = Some x -> k_awake x = true -> b_flight s = a ++ f :: b -> f_cons f = k -> f_at f = InBuffer ->
    (forall g, In g a -> in_buffer k g = false) -> decode (m_body (f_msg f)) = Some y ->
    micro s (set_flight s (a ++ move f InHand :: b) (b_cons s) [BYield k (m_pub (f_msg f)) y])
| m_drop : forall s k x a f b, nth_error (b_cons s) k = Some x -> k_awake x = true -> b_flight s = a ++ f :: b -> f_cons f = k -> f_at f = InBuffer ->
    (forall g, In g a -> in_buffer k g = false) -> decode (m_body (f_msg f)) = None ->
    micro s (set_flight s (a ++ move f Dropped :: b) (upd k (awake false x) (b_cons s)) [])
| m_sleep : forall s k x, nth_error (b_cons s) k = Some x -> (forall g, In g (b_flight s) -> in_buffer k g = false) ->
    micro s (set_flight s (b_flight s) (upd k (awake false x) (b_cons s)) [])
| m_wake : forall s k x, nth_error (b_cons s) k = Some x -> micro s (set_flight s (b_flight s) (upd k (awake true x) (b_cons s)) [])
| m_answer : forall s id a f b act, b_flight s = a ++ f :: b -> m_id (f_msg f) = id -> f_at f = InHand -> answers id act -> micro s (set_flight s (a ++ b) (b_cons s) [act]).

Inductive micros : broker -> broker -> Prop :=
| ms_none : forall s, micros s s
| ms_more : forall s t u, micro s t -> micros t u -> micros s u.
Lemma ms_one : forall s t, micro s t -> micros s t.
Proof. intros s t H. econstructor; [exact H | constructor]. Qed.

(** *** Bindings *)
Record kinv (s : broker) : Prop := {
  ki_nodup : NoDup (b_bind s);
  ki_name : forall n q, In (n, q) (b_bind s) -> lookup n (b_map s) = Some q
}.
Lemma bound_one : forall s n, kinv s -> bound s n = [] \/ exists q, bound s n = [q] /\ lookup n (b_map s) = Some q.
Proof.
  intros s n [N M]. unfold bound. revert N M. generalize (b_bind s) as l. induction l as [|[a q] l IH]; intros N M; [now left|].
  inversion N as [|? ? NI N']; subst. cbn. destruct (Nat.eqb a n) eqn:E.
  - right. apply Nat.eqb_eq in E. subst a. exists q. split; [|apply M; cbn; auto]. cbn. f_equal.
    destruct (filter (fun p => Nat.eqb (fst p) n) l) as [|[a' q'] r] eqn:F; [reflexivity|]. exfalso.
    assert (H : In (a', q') (filter (fun p => Nat.eqb (fst p) n) l)) by (rewrite F; cbn; auto).
    apply filter_In in H. destruct H as [H H']. cbn in H'. apply Nat.eqb_eq in H'. subst a'.
    assert (Q : lookup n (b_map s) = Some q) by (apply M; cbn; auto). assert (Q' : lookup n (b_map s) = Some q') by (apply M; cbn; auto).
    rewrite Q in Q'. injection Q' as <-. contradiction.
  - apply IH; [exact N' | intros n' q' H; apply M; cbn; auto].
Qed.
Lemma publish_bind : forall s m n body qs, b_bind (publish s m n body qs) = b_bind s /\ b_map (publish s m n body qs) = b_map s.
Proof.
  intros s m n body qs. unfold publish.
  assert (H : forall s p, b_bind (route s p body qs) = b_bind s /\ b_map (route s p body qs) = b_map s).
  { induction qs as [|q qs IH]; intros s0 p; cbn; [auto|]. destruct (IH (mkB (b_map s0) (b_made s0) (b_exch s0) (b_bind s0) (b_ready s0 ++ [(q, mkM (b_next s0) p body)]) (b_flight s0) (b_cons s0) (b_dead s0) (b_calls s0) (b_pubs s0) (S (b_next s0)) (BRoute p (b_next s0) q :: b_log s0)) p) as [-> ->]. auto. }
  destruct (H (mkB (b_map s) (b_made s) (b_exch s) (b_bind s) (b_ready s) (b_flight s) (b_cons s) (b_dead s) (b_calls s) (S (b_pubs s)) (b_next s) (BPub (b_pubs s) n m body :: b_log s)) (b_pubs s)) as [-> ->]. auto.
Qed.
Lemma kinv_same : forall s s', b_bind s' = b_bind s -> b_map s' = b_map s -> kinv s -> kinv s'.
Proof. intros s s' H1 H2 [N M]. constructor; rewrite ?H1, ?H2; auto. Qed.
Lemma kinv_gone : forall s n q, lookup n (b_map s) = Some q -> kinv s -> kinv (gone s n q).
Proof.
  intros s n q L [N M]. constructor; cbn [gone b_bind b_map]; [now apply NoDup_filter|]. intros n' q' H. apply filter_In in H. destruct H as [H E].
  cbn in E. apply negb_true_iff, Nat.eqb_neq in E. specialize (M _ _ H). rewrite lookup_remove_other; [exact M|]. intros ->. rewrite L in M. congruence.
Qed.
Lemma kinv_op : forall s c o, kinv s -> kinv (do_op s c o).
Proof.
  intros s c o K. assert (K' := K). destruct K as [N M]. destruct o; cbn [do_op].
  - constructor; cbn; auto.
  - destruct (lookup n (b_map s)) eqn:L; [now constructor|]. constructor; cbn; [exact N|]. intros n' q' H. specialize (M _ _ H).
    destruct (Nat.eqb n n') eqn:E; [apply Nat.eqb_eq in E; subst; congruence | exact M].
  - destruct (has n (b_exch s)); [|apply (kinv_same s); auto]. destruct (lookup n (b_map s)) as [q|] eqn:L; [|apply (kinv_same s); auto].
    destruct (existsb _ (b_bind s)) eqn:X; constructor; cbn; auto.
    + constructor; [|exact N]. intros H. apply not_true_iff_false in X. apply X, existsb_exists. exists (n, q). split; [exact H|]. cbn. now rewrite !Nat.eqb_refl.
    + intros n' q' [H|H]; [injection H as <- <-; exact L | auto].
  - destruct (lookup n (b_map s)) as [q|] eqn:L; [now apply kinv_gone | exact K'].
  - constructor; cbn; [now apply NoDup_filter|]. intros n' q' H. apply filter_In in H. now apply M.
  - destruct m.
    + destruct (publish_bind s Single n body (match lookup n (b_map s) with Some q => [q] | None => [] end)) as [E1 E2]. now apply (kinv_same s).
    + destruct (has n (b_exch s)).
      * destruct (publish_bind s Broadcast n body (bound s n)) as [E1 E2]. now apply (kinv_same s).
      * destruct (publish_bind s Broadcast n body []) as [E1 E2]. now apply (kinv_same s).
  - destruct (lookup n (b_map s)) as [q|] eqn:L; now apply (kinv_same s).
Qed.
Ltac brk H :=
  repeat match type of H with
  | match ?x with _ => _ end = _ => let E := fresh "M" in destruct x eqn:E; try discriminate H
  | (if ?x then _ else _) = _ => let E := fresh "M" in destruct x eqn:E; try discriminate H
  | (let (_, _) := ?x in _) = _ => let E := fresh "M" in destruct x eqn:E; try discriminate H
  end.
Lemma kinv_step : forall s e s', kinv s -> stp s e = Some s' -> kinv s'.
Proof.
  intros s e s' K H. destruct e; cbn in H; brk H; injection H as <-; try (now apply (kinv_same s)).
  - apply kinv_op. now apply (kinv_same s).
  - now apply kinv_gone.
Qed.

Lemma lookup_known : forall n s q, lookup n (b_map s) = Some q -> known q s = true.
Proof. intros n s q H. apply known_spec. exists n. now apply lookup_in. Qed.
Lemma step_micro : forall s e s', kinv s -> stp s e = Some s' -> micros s s'.
Proof.
  intros s e s' K H. destruct e; cbn in H; brk H; injection H as <-.
  - apply ms_one, m_frame; reflexivity.
  - eapply ms_more with (t := mkB (b_map s) (b_made s) (b_exch s) (b_bind s) (b_ready s) (b_flight s) (b_cons s) (b_dead s) (upd i (n, l0) (b_calls s)) (b_pubs s) (b_next s) (b_log s));
      [apply m_frame; reflexivity|].
    match goal with |- micros ?t _ => assert (K' : kinv t) by (now apply (kinv_same s)); revert K'; generalize t end. clear. intros t K.
    destruct b; cbn [do_op].
    + apply ms_one, m_frame; reflexivity.
    + destruct (lookup n0 (b_map t)) eqn:L; [constructor|]. apply ms_one, m_queue with (n := n0); auto.
    + destruct (has n0 (b_exch t)); [|apply ms_one, m_close]. destruct (lookup n0 (b_map t)); [|apply ms_one, m_close]. apply ms_one, m_frame; reflexivity.
    + destruct (lookup n0 (b_map t)) eqn:L; [|constructor]. now apply ms_one, m_gone.
    + apply ms_one, m_frame; reflexivity.
    + destruct m.
      * apply ms_one, m_publish. destruct (lookup n0 (b_map t)) as [q|] eqn:L; [|now left]. right. exists q. split; [reflexivity | eapply lookup_known; eauto].
      * destruct (has n0 (b_exch t)).
        -- apply ms_one, m_publish. destruct (bound_one t n0 K) as [->|(q & -> & L)]; [now left|]. right. exists q. split; [reflexivity | eapply lookup_known; eauto].
        -- eapply ms_more; [apply m_publish; now left | apply ms_one, m_close].
    + destruct (lookup n0 (b_map t)) as [q|] eqn:L; [|apply ms_one, m_close]. eapply ms_one, m_consume; eauto.
  - apply andb_true_iff in M0. destruct M0 as [M0 Q]. apply orb_true_iff in Q. apply cut_spec in M1. destruct M1 as (E & F & NB). cbn in F. apply Nat.eqb_eq in F. subst n.
    apply ms_one. apply m_give; auto.
    + intros y Hy. apply NB in Hy. now apply Nat.eqb_neq in Hy.
    + destruct Q as [Q|Q]; [left; now apply Nat.eqb_eq | right; now apply Nat.ltb_lt].
  - apply cut_spec in M1. destruct M1 as (E & F & NB). apply andb_true_iff in F. destruct F as [F1 F2]. apply Nat.eqb_eq in F1.
    apply ms_one. eapply m_yield; eauto. now destruct (f_at f).
  - apply cut_spec in M1. destruct M1 as (E & F & NB). apply andb_true_iff in F. destruct F as [F1 F2]. apply Nat.eqb_eq in F1.
    apply ms_one. eapply m_drop; eauto. now destruct (f_at f).
  - apply ms_one. apply m_sleep; [assumption|]. intros g Hg. eapply cut_none in M1; eauto.
  - apply ms_one. now apply m_wake.
  - apply cut_spec in M. destruct M as (E & F & NB). apply andb_true_iff in F. destruct F as [F1 F2]. apply Nat.eqb_eq in F1.
    apply ms_one. eapply m_answer; eauto; [now destruct (f_at f) | now left].
  - apply cut_spec in M. destruct M as (E & F & NB). apply andb_true_iff in F. destruct F as [F1 F2]. apply Nat.eqb_eq in F1.
    apply ms_one. eapply m_answer; eauto; [now destruct (f_at f) | now right].
  - apply ms_one, m_close.
  - now apply ms_one, m_gone.
Qed.
Lemma micro_inv : forall (P : broker -> Prop), (forall s t, P s -> micro s t -> P t) -> forall s t, P s -> micros s t -> P t.
Proof. intros P H s t Ps M. induction M; eauto. Qed.
Lemma reach_inv : forall (P : broker -> Prop), (forall s t, P s -> micro s t -> P t) -> P b_init -> forall tr s, run_from stp b_init tr = Some s -> P s.
Proof.
  intros P H P0 tr s R. enough (P s /\ kinv s) by tauto.
  eapply (run_from_inv _ _ stp (fun s => P s /\ kinv s)); [|split; [exact P0|] | exact R].
  - intros a e b [Pa Ka] St. split; [|eapply kinv_step; eauto]. eapply micro_inv; eauto. eapply step_micro; eauto.
  - constructor; [constructor | easy].
Qed.
End Proofs.
