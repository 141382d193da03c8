(** Invariants of the AMQP model: where every copy is, and what the history says. *)
From Coq Require Import List Arith Lia Bool Sorting.Sorted.
From Verif Require Import Base BaseFacts ConnModel ConnProps AmqpModel AmqpSpec AmqpProofs.
Import ListNotations.
Open Scope nat_scope.

Definition answered (id : nat) (l : list bact) : Prop := In (BAck id) l \/ In (BNack id) l.
Definition r_is (id : nat) (x : nat * bmsg) : bool := Nat.eqb (m_id (snd x)) id.
Definition f_is (id : nat) (f : flight) : bool := Nat.eqb (m_id (f_msg f)) id.
Definition places (id : nat) (s : broker) : nat := cnt (r_is id) (b_ready s) + cnt (f_is id) (b_flight s).

Record minv (s : broker) : Prop := {
  mi_keys : NoDup (map fst (b_map s));
  mi_vals : NoDup (map snd (b_map s));
  mi_lt : forall n q, In (n, q) (b_map s) -> q < b_made s;
  mi_gone : forall q, In (BGone q) (b_log s) -> q < b_made s /\ known q s = false;
  mi_routed : forall p id q, In (BRoute p id q) (b_log s) -> known q s = true \/ In (BGone q) (b_log s);
  mi_ready : forall q m, In (q, m) (b_ready s) -> known q s = true
}.

Record ninv (s : broker) : Prop := {
  ni_once : forall id, places id s <= 1;
  ni_sorted : StronglySorted le_id (b_ready s);
  ni_ready : forall q m, In (q, m) (b_ready s) -> In (BRoute (m_pub m) (m_id m) q) (b_log s) /\ holder (m_id m) (b_log s) = None /\ ~ answered (m_id m) (b_log s);
  ni_flight : forall f, In f (b_flight s) -> In (BRoute (m_pub (f_msg f)) (m_id (f_msg f)) (f_q f)) (b_log s) /\ ~ answered (m_id (f_msg f)) (b_log s) /\
    exists x, nth_error (b_cons s) (f_cons f) = Some x /\ k_q x = f_q f /\ holder (m_id (f_msg f)) (b_log s) = Some (f_cons f, k_conn x) /\ In (BGive (m_id (f_msg f)) (f_cons f) (k_conn x)) (b_log s);
  ni_route : forall p id q, In (BRoute p id q) (b_log s) -> id < b_next s /\ p < b_pubs s;
  ni_route1 : forall p id q p' id' q', In (BRoute p id q) (b_log s) -> In (BRoute p' id' q') (b_log s) -> p = p' \/ id = id' -> p = p' /\ id = id' /\ q = q';
  ni_about : forall a id, In a (b_log s) -> about id a -> exists k c, In (BGive id k c) (b_log s);
  ni_give : forall id k c, In (BGive id k c) (b_log s) -> exists p q, In (BRoute p id q) (b_log s) /\ In (BCons k c q) (b_log s);
  ni_kept : forall p id q, In (BRoute p id q) (b_log s) ->
    (exists m, In (q, m) (b_ready s) /\ m_id m = id /\ m_pub m = p) \/ (exists f, In f (b_flight s) /\ f_q f = q /\ m_id (f_msg f) = id /\ m_pub (f_msg f) = p) \/ answered id (b_log s) \/ In (BGone q) (b_log s);
  ni_cons : forall k x, nth_error (b_cons s) k = Some x -> In (BCons k (k_conn x) (k_q x)) (b_log s);
  ni_cons1 : forall k c q, In (BCons k c q) (b_log s) -> exists x, nth_error (b_cons s) k = Some x /\ k_conn x = c /\ k_q x = q
}.

(** What each new entry of the history says about the older ones. *)
Definition fits (a : bact) (l : list bact) : Prop :=
  match a with
  | BGive id k c => holder id l = None /\ ~ answered id l /\ (exists p q, In (BRoute p id q) l /\ In (BCons k c q) l /\ ~ In (BGone q) l /\
      forall p' id', In (BRoute p' id' q) l -> id' < id -> exists k' c', In (BGive id' k' c') l)
  | BAck id | BNack id => (exists k c, holder id l = Some (k, c)) /\ ~ answered id l
  | BRoute p id q => forall p' id' q', In (BRoute p' id' q') l -> id' < id /\ p' < p
  | BYield k p x => exists id q c, In (BRoute p id q) l /\ In (BGive id k c) l
  | _ => True
  end.
Fixpoint hist (l : list bact) : Prop := match l with [] => True | a :: r => fits a r /\ hist r end.
Definition inv (s : broker) : Prop := minv s /\ ninv s /\ hist (b_log s).

Lemma hist_split : forall l1 a l2, hist (l1 ++ a :: l2) -> fits a l2.
Proof. intros l1; induction l1 as [|x l1 IH]; intros a l2 H; cbn in H; [tauto | apply IH; tauto]. Qed.

Section Inv.
Variable decode : nat -> option nat.
Variable qos : nat -> nat.
Local Notation mic := (micro decode qos).
Local Notation stp := (b_step decode qos).

Lemma nodup_filter_map : forall (A B : Type) (g : A -> B) (f : A -> bool) l, NoDup (map g l) -> NoDup (map g (filter f l)).
Proof.
  intros A B g f l; induction l as [|x l IH]; cbn; intros H; [constructor|]. inversion H as [|? ? NI N]; subst.
  destruct (f x); cbn; [|auto]. constructor; [|auto]. intros C. apply NI. apply in_map_iff in C. destruct C as (y & E & C).
  apply in_map_iff. exists y. split; [exact E|]. now apply filter_In in C.
Qed.
Lemma map_unique : forall (A B : Type) (g : A -> B) l x y, NoDup (map g l) -> In x l -> In y l -> g x = g y -> x = y.
Proof.
  intros A B g l; induction l as [|z l IH]; intros x y N H H' E; [easy|]. cbn in N. inversion N as [|? ? NI N']; subst.
  destruct H as [->|H], H' as [->|H']; auto.
  - exfalso. apply NI. rewrite E. now apply in_map.
  - exfalso. apply NI. rewrite <- E. now apply in_map.
Qed.
Lemma known_gone : forall s n q q', minv s -> lookup n (b_map s) = Some q -> (known q' (gone s n q) = true <-> known q' s = true /\ q' <> q).
Proof.
  intros s n q q' MI L. rewrite !known_spec. cbn [gone b_map]. pose proof (lookup_in _ _ _ L) as Lq. unfold remove. split.
  - intros (n' & H). apply filter_In in H. destruct H as [H E]. cbn in E. apply negb_true_iff, Nat.eqb_neq in E. split; [eauto|].
    intros ->. apply E. pose proof (map_unique _ _ snd _ _ _ (mi_vals _ MI) H Lq eq_refl) as X. now injection X.
  - intros [(n' & H) NE]. exists n'. apply filter_In. split; [exact H|]. cbn. apply negb_true_iff, Nat.eqb_neq. intros ->.
    pose proof (map_unique _ _ fst _ _ _ (mi_keys _ MI) H Lq eq_refl) as X. injection X as ->. congruence.
Qed.
Lemma lookup_none : forall n m q, lookup n m = None -> ~ In (n, q) m.
Proof.
  intros n m q; induction m as [|[a b] m IH]; cbn; [easy|]. destruct (Nat.eqb a n) eqn:E; [discriminate|]. intros H [X|X]; [injection X as -> ->; now rewrite Nat.eqb_refl in E | now apply IH].
Qed.
Lemma core_eq : forall s s', core s' = core s -> b_ready s' = b_ready s /\ b_flight s' = b_flight s /\ b_cons s' = b_cons s /\ b_pubs s' = b_pubs s /\ b_next s' = b_next s /\ b_log s' = b_log s.
Proof. intros s s' H. unfold core in H. injection H. auto 7. Qed.
(** A change that touches neither the names nor, as far as queues go, the history. *)
Lemma minv_keep : forall s s', b_map s' = b_map s -> b_made s' = b_made s -> (forall q, In (BGone q) (b_log s') <-> In (BGone q) (b_log s)) ->
  (forall p id q, In (BRoute p id q) (b_log s') -> In (BRoute p id q) (b_log s) \/ known q s = true) ->
  (forall q m, In (q, m) (b_ready s') -> known q s = true) -> minv s -> minv s'.
Proof.
  intros s s' E1 E2 G R RD MI. assert (K : forall q, known q s' = known q s) by (intros q; unfold known; now rewrite E1).
  constructor; rewrite ?E1, ?E2.
  - apply MI.
  - apply MI.
  - apply MI.
  - intros q H. rewrite K. apply MI. now apply G.
  - intros p id q H. rewrite K, G. destruct (R _ _ _ H) as [H'|H']; [now apply (mi_routed _ MI) in H' | now left].
  - intros q m H. rewrite K. eauto.
Qed.
Lemma minv_micro : forall s t, minv s -> mic s t -> minv t.
Proof.
  intros s t MI H. destruct H.
  - apply core_eq in H. destruct H as (H2 & H3 & H4 & H5 & H6 & H7). apply (minv_keep s); auto; rewrite ?H7, ?H2; try tauto. apply MI.
  - apply core_eq in H. destruct H as (H3 & H4 & H5 & H6 & H7 & H8).
    assert (K : forall q, known q s' = true <-> known q s = true \/ q = b_made s).
    { intros q. rewrite !known_spec, H1. split; [intros (n' & [X|X]); [injection X as -> ->; auto | left; eauto] | intros [(n' & X)| ->]; [exists n'; cbn; auto | exists n; cbn; auto]]. }
    constructor; rewrite ?H1, ?H2, ?H8.
    + cbn. constructor; [|apply MI]. intros X. apply in_map_iff in X. destruct X as ([n' q'] & E & X). cbn in E. subst. eapply lookup_none; eauto.
    + cbn. constructor; [|apply MI]. intros X. apply in_map_iff in X. destruct X as ([n' q'] & E & X). cbn in E. subst. apply (mi_lt _ MI) in X. lia.
    + intros n' q [X|X]; [injection X as -> ->; lia | apply (mi_lt _ MI) in X; lia].
    + intros q X. destruct (mi_gone _ MI _ X) as [L KN]. split; [lia|]. apply not_true_iff_false. rewrite K. intros [Y| ->]; [congruence | lia].
    + intros p id q X. rewrite K. apply (mi_routed _ MI) in X. tauto.
    + intros q m X. rewrite H3 in X. rewrite K. apply (mi_ready _ MI) in X. tauto.
  - apply (minv_keep s); cbn; auto.
    + intros q; split; [intros [X|X]; [discriminate | exact X] | auto].
    + intros p id q [X|X]; [discriminate | auto].
    + intros q m X. apply put_all_in in X. destruct X as [X|X]; [|eapply (mi_ready _ MI); eauto]. apply in_map_iff in X. destruct X as (f & E & X). injection E as <- <-.
      apply filter_In in X. tauto.
  - assert (K := fun q' => known_gone s n q q' MI H). pose proof (lookup_in _ _ _ H) as Lq. constructor.
    + cbn. now apply nodup_filter_map, MI.
    + cbn. now apply nodup_filter_map, MI.
    + cbn. intros n' q' X. unfold remove in X. apply filter_In in X. now apply (mi_lt _ MI) with n'.
    + cbn [gone b_log b_made]. intros q' [X|X].
      * injection X as ->. split; [now apply (mi_lt _ MI) in Lq|]. apply not_true_iff_false. rewrite K. tauto.
      * destruct (mi_gone _ MI _ X) as [L KN]. split; [exact L|]. apply not_true_iff_false. rewrite K. rewrite KN. intros [Y _]. discriminate.
    + cbn [gone b_log]. intros p id q' [X|X]; [discriminate|]. apply (mi_routed _ MI) in X. rewrite K. cbn [In]. destruct (Nat.eq_dec q' q) as [->|NE]; [auto | tauto].
    + cbn [gone b_ready]. intros q' m X. apply filter_In in X. destruct X as [X E]. cbn in E. apply negb_true_iff, Nat.eqb_neq in E. rewrite K. split; [eapply (mi_ready _ MI); eauto | exact E].
  - destruct H as [->|(q & -> & Kq)]; unfold publish; cbn [route]; apply (minv_keep s); cbn; auto.
    + intros q; split; [intros [X|X]; [discriminate | exact X] | auto].
    + intros p id q [X|X]; [discriminate | auto].
    + apply MI.
    + intros q'; split; [intros [X|[X|X]]; [discriminate | discriminate | exact X] | auto].
    + intros p id q' [X|[X|X]]; [injection X as <- <- <-; auto | discriminate | auto].
    + intros q' m' X. apply in_app_iff in X. destruct X as [X|[X|[]]]; [eapply (mi_ready _ MI); eauto | now injection X as <- <-].
  - apply (minv_keep s); cbn; auto.
    + intros q'; split; [intros [X|X]; [discriminate | exact X] | auto].
    + intros p id q' [X|X]; [discriminate | auto].
    + apply MI.
  - apply (minv_keep s); cbn; auto.
    + intros q'; split; [intros [X|X]; [discriminate | exact X] | auto].
    + intros p id q' [X|X]; [discriminate | auto].
    + intros q' m' X. apply (mi_ready _ MI q' m'). rewrite H1. rewrite in_app_iff in *. cbn. tauto.
  - apply (minv_keep s); cbn; auto.
    + intros q'; split; [intros [X|X]; [discriminate | exact X] | auto].
    + intros p id q' [X|X]; [discriminate | auto].
    + apply MI.
  - apply (minv_keep s); cbn; auto; [tauto | apply MI].
  - apply (minv_keep s); cbn; auto; [tauto | apply MI].
  - apply (minv_keep s); cbn; auto; [tauto | apply MI].
  - apply (minv_keep s); cbn; auto.
    + intros q'; split; [intros [X|X]; [subst; destruct H2; discriminate | exact X] | auto].
    + intros p id' q' [X|X]; [subst; destruct H2; discriminate | auto].
    + apply MI.
Qed.

(** Only the consumers' flags change. *)
Definition same_cons (l l' : list kons) : Prop := forall k, option_map (fun x => (k_conn x, k_q x)) (nth_error l' k) = option_map (fun x => (k_conn x, k_q x)) (nth_error l k).
Lemma same_cons_nth : forall l l' k x, same_cons l l' -> nth_error l k = Some x -> exists x', nth_error l' k = Some x' /\ k_conn x' = k_conn x /\ k_q x' = k_q x.
Proof. intros l l' k x H E. specialize (H k). rewrite E in H. cbn in H. destruct (nth_error l' k) as [x'|]; [|discriminate]. cbn in H. injection H as H1 H2. eauto. Qed.
Lemma same_cons_sym : forall l l', same_cons l l' -> same_cons l' l.
Proof. intros l l' H k. now rewrite H. Qed.
Lemma same_cons_upd : forall l k x b, nth_error l k = Some x -> same_cons l (upd k (awake b x) l).
Proof.
  intros l k x b H j. destruct (Nat.eq_dec k j) as [<-|NE]; [|now rewrite upd_nth_other].
  rewrite upd_nth_same by (apply nth_error_Some; congruence). now rewrite H.
Qed.
Lemma same_cons_map : forall l (f : kons -> kons), (forall x, k_conn (f x) = k_conn x /\ k_q (f x) = k_q x) -> same_cons l (map f l).
Proof. intros l f H k. rewrite nth_error_map. destruct (nth_error l k) as [x|]; [|reflexivity]. cbn. destruct (H x) as [-> ->]. reflexivity. Qed.

Lemma in_mid : forall (A : Type) (a b : list A) x y, In y (a ++ b) -> In y (a ++ x :: b).
Proof. intros. rewrite in_app_iff in *. cbn. tauto. Qed.
Lemma answered_cons : forall id a l, answered id (a :: l) -> answered id l \/ answers id a.
Proof. intros id a l [[X|X]|[X|X]]; unfold answered, answers; auto. Qed.
Lemma places_unique_rf : forall s q m f, ninv s -> In (q, m) (b_ready s) -> In f (b_flight s) -> m_id m = m_id (f_msg f) -> False.
Proof.
  intros s q m f NI R F E. pose proof (ni_once _ NI (m_id m)) as O. unfold places in O.
  assert (1 <= cnt (r_is (m_id m)) (b_ready s)) by (eapply cnt_in; [exact R | unfold r_is; cbn; apply Nat.eqb_refl]).
  assert (1 <= cnt (f_is (m_id m)) (b_flight s)) by (eapply cnt_in; [exact F | unfold f_is; rewrite E; apply Nat.eqb_refl]). lia.
Qed.
Lemma cnt_mid : forall (A : Type) (f : A -> bool) a x b, cnt f (a ++ x :: b) = b2n (f x) + cnt f (a ++ b).
Proof. intros. rewrite !cnt_app, cnt_cons. lia. Qed.
Lemma places_unique_r : forall s a q m b q' m', ninv s -> b_ready s = a ++ (q, m) :: b -> In (q', m') (a ++ b) -> m_id m' <> m_id m.
Proof.
  intros s a q m b q' m' NI R X E. pose proof (ni_once _ NI (m_id m)) as O. unfold places in O. rewrite R, cnt_mid in O.
  assert (1 <= cnt (r_is (m_id m)) (a ++ b)) by (eapply cnt_in; [exact X | unfold r_is; cbn; rewrite E; apply Nat.eqb_refl]).
  unfold r_is at 1 in O. cbn in O. rewrite Nat.eqb_refl in O. cbn in O. lia.
Qed.
Lemma places_unique_f : forall s a f b g, ninv s -> b_flight s = a ++ f :: b -> In g (a ++ b) -> m_id (f_msg g) <> m_id (f_msg f).
Proof.
  intros s a f b g NI R X E. pose proof (ni_once _ NI (m_id (f_msg f))) as O. unfold places in O. rewrite R, cnt_mid in O.
  assert (1 <= cnt (f_is (m_id (f_msg f))) (a ++ b)) by (eapply cnt_in; [exact X | unfold f_is; rewrite E; apply Nat.eqb_refl]).
  unfold f_is at 1 in O. rewrite Nat.eqb_refl in O. cbn in O. lia.
Qed.

Definition quiet (a : bact) : Prop := match a with BRoute _ _ _ | BGive _ _ _ | BAck _ | BNack _ | BClose _ | BGone _ | BCons _ _ _ => False | _ => True end.
Lemma quiet_holder : forall a id l, quiet a -> holder id (a :: l) = holder id l.
Proof. intros a id l H; destruct a; cbn in *; easy. Qed.
(** The messages stay where they are. *)
Lemma ninv_keep : forall s s' a, b_ready s' = b_ready s -> Forall quiet a -> b_log s' = a ++ b_log s -> same_cons (b_cons s) (b_cons s') -> b_next s' = b_next s -> b_pubs s <= b_pubs s' ->
  (forall id, cnt (f_is id) (b_flight s') = cnt (f_is id) (b_flight s)) ->
  (forall f, In f (b_flight s') -> exists g, In g (b_flight s) /\ f_msg g = f_msg f /\ f_q g = f_q f /\ f_cons g = f_cons f) ->
  (forall f, In f (b_flight s) -> exists g, In g (b_flight s') /\ f_msg g = f_msg f /\ f_q g = f_q f /\ f_cons g = f_cons f) -> ninv s -> ninv s'.
Proof.
  intros s s' a E1 Q E2 SC E3 E4 C F1 F2 NI.
  assert (HO : forall id, holder id (b_log s') = holder id (b_log s)).
  { intros id. rewrite E2. clear - Q. induction Q as [|x l Hx Q IH]; [reflexivity|]. cbn [app]. now rewrite quiet_holder. }
  assert (IN : forall x, ~ quiet x -> In x (b_log s') <-> In x (b_log s)).
  { intros x Hx. rewrite E2, in_app_iff. rewrite Forall_forall in Q. split; [intros [X|X]; [now apply Q in X | exact X] | auto]. }
  assert (AN : forall id, answered id (b_log s') <-> answered id (b_log s)) by (intros id; unfold answered; now rewrite !IN by (cbn; tauto)).
  constructor.
  - intros id. unfold places. rewrite E1, C. apply NI.
  - rewrite E1. apply NI.
  - intros q m H. rewrite E1 in H. destruct (ni_ready _ NI _ _ H) as (A1 & A2 & A3). rewrite IN, HO, AN by (cbn; tauto). auto.
  - intros f H. destruct (F1 _ H) as (g & G & <- & <- & <-). destruct (ni_flight _ NI _ G) as (A1 & A2 & x & A3 & A4 & A5 & A6). rewrite IN, HO, AN by (cbn; tauto). repeat split; auto.
    destruct (same_cons_nth _ _ _ _ SC A3) as (x' & B1 & B2 & B3). exists x'. rewrite IN by (cbn; tauto). rewrite B2, B3. auto.
  - intros p id q H. rewrite IN in H by (cbn; tauto). apply (ni_route _ NI) in H. rewrite E3. lia.
  - intros p id q p' id' q' H H'. rewrite IN in H, H' by (cbn; tauto). now apply (ni_route1 _ NI).
  - intros x id H AB. rewrite IN in H by (destruct x; cbn in *; tauto). destruct (ni_about _ NI _ _ H AB) as (k & c & X). exists k, c. now rewrite IN by (cbn; tauto).
  - intros id k c H. rewrite IN in H by (cbn; tauto). destruct (ni_give _ NI _ _ _ H) as (p & q & X). exists p, q. now rewrite !IN by (cbn; tauto).
  - intros p id q H. rewrite IN in H by (cbn; tauto). rewrite E1, AN, IN by (cbn; tauto). destruct (ni_kept _ NI _ _ _ H) as [X|[(f & X1 & X2 & X3 & X4)|X]]; auto.
    right; left. destruct (F2 _ X1) as (g & G1 & G2 & G3 & G4). exists g. rewrite G2, G3. auto.
  - intros k x H. rewrite IN by (cbn; tauto). destruct (same_cons_nth _ _ _ _ (same_cons_sym _ _ SC) H) as (x' & B1 & <- & <-). now apply (ni_cons _ NI).
  - intros k c q H. rewrite IN in H by (cbn; tauto). destruct (ni_cons1 _ NI _ _ _ H) as (x & X1 & X2 & X3). destruct (same_cons_nth _ _ _ _ SC X1) as (x' & B1 & B2 & B3).
    exists x'. rewrite B2, B3. auto.
Qed.
Lemma same_cons_refl : forall l, same_cons l l.
Proof. intros l k. reflexivity. Qed.

Lemma move_cnt : forall id a f p b, cnt (f_is id) (a ++ move f p :: b) = cnt (f_is id) (a ++ f :: b).
Proof. intros. rewrite !cnt_mid. reflexivity. Qed.
Lemma move_in : forall a f p b g, In g (a ++ move f p :: b) -> exists h, In h (a ++ f :: b) /\ f_msg h = f_msg g /\ f_q h = f_q g /\ f_cons h = f_cons g.
Proof. intros a f p b g H. rewrite in_app_iff in H. destruct H as [H|[<-|H]]; [exists g | exists f | exists g]; rewrite in_app_iff; cbn; auto. Qed.
Lemma move_in' : forall a f p b g, In g (a ++ f :: b) -> exists h, In h (a ++ move f p :: b) /\ f_msg h = f_msg g /\ f_q h = f_q g /\ f_cons h = f_cons g.
Proof. intros a f p b g H. rewrite in_app_iff in H. destruct H as [H|[<-|H]]; [exists g | exists (move f p) | exists g]; rewrite in_app_iff; cbn; auto. Qed.

Lemma ninv_gone : forall s n q, ninv s -> ninv (gone s n q).
Proof.
  intros s n q NI. assert (SC : same_cons (b_cons s) (b_cons (gone s n q))).
  { cbn. apply same_cons_map. intros x. destruct (Nat.eqb (k_q x) q); auto. }
  constructor.
  - intros id. pose proof (ni_once _ NI id) as O. unfold places in *. cbn [gone b_ready b_flight]. pose proof (cnt_filter_le _ (r_is id) (fun p => negb (Nat.eqb (fst p) q)) (b_ready s)). lia.
  - cbn. apply sorted_filter, NI.
  - cbn [gone b_ready b_log]. intros q' m H. apply filter_In in H. destruct H as [H _]. destruct (ni_ready _ NI _ _ H) as (A1 & A2 & A3). repeat split; [cbn; auto | exact A2|].
    intros X. apply answered_cons in X. destruct X as [X|[X|X]]; [auto | discriminate | discriminate].
  - intros f H. cbn in H. destruct (ni_flight _ NI _ H) as (A1 & A2 & x & A3 & A4 & A5 & A6). repeat split; [cbn; auto | |].
    + intros X. apply answered_cons in X. destruct X as [X|[X|X]]; [auto | discriminate | discriminate].
    + destruct (same_cons_nth _ _ _ _ SC A3) as (x' & B1 & B2 & B3). exists x'. rewrite B2, B3. repeat split; auto. cbn. auto.
  - cbn. intros p id q' [X|X]; [discriminate | now apply (ni_route _ NI) in X].
  - cbn. intros p id q1 p' id' q2 [X|X] [Y|Y]; try discriminate. now apply (ni_route1 _ NI).
  - cbn. intros a id [X|X] AB; [subst; destruct AB|]. destruct (ni_about _ NI _ _ X AB) as (k & c & Y). eauto.
  - cbn. intros id k c [X|X]; [discriminate|]. destruct (ni_give _ NI _ _ _ X) as (p & q' & Y1 & Y2). exists p, q'. auto.
  - cbn [gone b_log b_ready b_flight]. intros p id q' [X|X]; [discriminate|]. destruct (ni_kept _ NI _ _ _ X) as [(m & Y1 & Y2)|[Y|[Y|Y]]].
    + destruct (Nat.eq_dec q' q) as [->|NE]; [right; right; right; now left|]. left. exists m. split; [|exact Y2]. apply filter_In. split; [exact Y1|]. cbn. now apply negb_true_iff, Nat.eqb_neq.
    + auto.
    + right; right; left. destruct Y; [left | right]; now right.
    + right; right; right. now right.
  - intros k x H. destruct (same_cons_nth _ _ _ _ (same_cons_sym _ _ SC) H) as (x' & B1 & <- & <-). right. now apply (ni_cons _ NI).
  - intros k c q' [H|H]; [discriminate|]. destruct (ni_cons1 _ NI _ _ _ H) as (x & X1 & X2 & X3). destruct (same_cons_nth _ _ _ _ SC X1) as (x' & B1 & B2 & B3).
    exists x'. rewrite B2, B3. auto.
Qed.
Lemma of_conn_spec : forall s c k x, nth_error (b_cons s) k = Some x -> of_conn s c k = Nat.eqb (k_conn x) c.
Proof. intros s c k x H. unfold of_conn. now rewrite H. Qed.
Lemma ninv_close : forall s c, minv s -> ninv s -> ninv (close s c).
Proof.
  intros s c MI NI. assert (SC : same_cons (b_cons s) (b_cons (close s c))).
  { cbn. apply same_cons_map. intros x. destruct (Nat.eqb (k_conn x) c); auto. }
  constructor.
  - intros id. pose proof (ni_once _ NI id) as O. unfold places in *. cbn [close b_ready b_flight]. rewrite put_all_cnt, cnt_map.
    change (cnt (fun x : flight => r_is id (f_q x, f_msg x))) with (cnt (f_is id)).
    pose proof (cnt_filter_le _ (f_is id) (fun f => known (f_q f) s) (filter (fun f => of_conn s c (f_cons f)) (b_flight s))).
    pose proof (cnt_filter_split _ (f_is id) (fun f => of_conn s c (f_cons f)) (b_flight s)). lia.
  - cbn. apply put_all_sorted, NI.
  - cbn [close b_ready b_log]. intros q m H. apply put_all_in in H. destruct H as [H|H].
    + apply in_map_iff in H. destruct H as (f & E & H). injection E as <- <-. apply filter_In in H. destruct H as [H _]. apply filter_In in H. destruct H as [H C].
      destruct (ni_flight _ NI _ H) as (A1 & A2 & x & A3 & A4 & A5 & A6). rewrite (of_conn_spec _ _ _ _ A3) in C. repeat split; [cbn; auto | cbn; now rewrite A5, C|].
      intros X. apply answered_cons in X. destruct X as [X|[X|X]]; [auto | discriminate | discriminate].
    + destruct (ni_ready _ NI _ _ H) as (A1 & A2 & A3). repeat split; [cbn; auto | cbn; now rewrite A2|].
      intros X. apply answered_cons in X. destruct X as [X|[X|X]]; [auto | discriminate | discriminate].
  - cbn [close b_flight b_log]. intros f H. apply filter_In in H. destruct H as [H C]. destruct (ni_flight _ NI _ H) as (A1 & A2 & x & A3 & A4 & A5 & A6).
    rewrite (of_conn_spec _ _ _ _ A3) in C. apply negb_true_iff in C. repeat split; [cbn; auto | |].
    + intros X. apply answered_cons in X. destruct X as [X|[X|X]]; [auto | discriminate | discriminate].
    + destruct (same_cons_nth _ _ _ _ SC A3) as (x' & B1 & B2 & B3). exists x'. rewrite B2, B3. repeat split; auto; [|cbn; auto]. cbn. now rewrite A5, C.
  - cbn. intros p id q' [X|X]; [discriminate | now apply (ni_route _ NI) in X].
  - cbn. intros p id q1 p' id' q2 [X|X] [Y|Y]; try discriminate. now apply (ni_route1 _ NI).
  - cbn. intros a id [X|X] AB; [subst; destruct AB|]. destruct (ni_about _ NI _ _ X AB) as (k & c' & Y). eauto.
  - cbn. intros id k c' [X|X]; [discriminate|]. destruct (ni_give _ NI _ _ _ X) as (p & q' & Y1 & Y2). exists p, q'. auto.
  - cbn [close b_log b_ready b_flight]. intros p id q [X|X]; [discriminate|]. destruct (ni_kept _ NI _ _ _ X) as [(m & Y1 & Y2)|[(f & Y1 & Y2 & Y3)|[Y|Y]]].
    + left. exists m. split; [|exact Y2]. apply put_all_in. auto.
    + destruct (of_conn s c (f_cons f)) eqn:C.
      * destruct (mi_routed _ MI _ _ _ X) as [K|K]; [|right; right; right; now right]. left. exists (f_msg f). split; [|exact Y3]. apply put_all_in. left. apply in_map_iff. exists f.
        split; [now rewrite Y2|]. apply filter_In. rewrite Y2. split; [|exact K]. apply filter_In. auto.
      * right; left. exists f. split; [|auto]. apply filter_In. now rewrite C.
    + right; right; left. destruct Y; [left | right]; now right.
    + right; right; right. now right.
  - intros k x H. destruct (same_cons_nth _ _ _ _ (same_cons_sym _ _ SC) H) as (x' & B1 & <- & <-). right. now apply (ni_cons _ NI).
  - intros k c' q [H|H]; [discriminate|]. destruct (ni_cons1 _ NI _ _ _ H) as (x & X1 & X2 & X3). destruct (same_cons_nth _ _ _ _ SC X1) as (x' & B1 & B2 & B3).
    exists x'. rewrite B2, B3. auto.
Qed.
Lemma ninv_publish : forall s m n body q, ninv s -> ninv (publish s m n body [q]).
Proof.
  intros s m n body q NI. unfold publish. cbn [route].
  assert (FR : forall id, id = b_next s -> cnt (r_is id) (b_ready s) = 0 /\ cnt (f_is id) (b_flight s) = 0).
  { intros id ->. split; apply cnt_zero.
    - intros [q' m'] H. apply (ni_ready _ NI) in H. destruct H as [H _]. apply (ni_route _ NI) in H. unfold r_is. cbn. apply Nat.eqb_neq. lia.
    - intros f H. apply (ni_flight _ NI) in H. destruct H as [H _]. apply (ni_route _ NI) in H. unfold f_is. apply Nat.eqb_neq. lia. }
  assert (AN : forall id, answered id (BRoute (b_pubs s) (b_next s) q :: BPub (b_pubs s) n m body :: b_log s) -> answered id (b_log s)).
  { intros id [[X|[X|X]]|[X|[X|X]]]; try discriminate; [now left | now right]. }
  constructor; cbn [b_ready b_flight b_cons b_log b_pubs b_next].
  - intros id. pose proof (ni_once _ NI id) as O. unfold places in *. cbn [b_ready b_flight]. rewrite cnt_app, cnt_one. unfold r_is at 2. cbn [snd m_id].
    destruct (Nat.eqb (b_next s) id) eqn:E; cbn [b2n]; [|lia]. apply Nat.eqb_eq in E. destruct (FR id); [auto|]. lia.
  - apply sorted_join; [apply NI | repeat constructor|]. intros [q' m'] y H [<-|[]]. apply (ni_ready _ NI) in H. destruct H as [H _]. apply (ni_route _ NI) in H. unfold le_id. cbn. lia.
  - intros q' m' H. apply in_app_iff in H. destruct H as [H|[H|[]]].
    + destruct (ni_ready _ NI _ _ H) as (A1 & A2 & A3). repeat split; [cbn; auto | exact A2 | auto].
    + injection H as <- <-. cbn [m_pub m_id]. repeat split; [cbn; auto | |].
      * cbn [holder]. destruct (holder (b_next s) (b_log s)) as [[k c]|] eqn:HO; [|reflexivity]. exfalso.
        assert (G : In (BGive (b_next s) k c) (b_log s)).
        { clear - HO. revert HO. generalize (b_log s) as l. generalize (b_next s) as id. intros id l; revert k c. induction l as [|a l IH]; cbn; intros k c HO; [discriminate|].
          destruct a; try (right; now apply IH).
          - destruct (Nat.eqb id0 id) eqn:E; [|right; now apply IH]. apply Nat.eqb_eq in E. injection HO as -> ->. subst. now left.
          - destruct (Nat.eqb id0 id); [discriminate | right; now apply IH].
          - destruct (Nat.eqb id0 id); [discriminate | right; now apply IH].
          - destruct (holder id l) as [[k' c']|] eqn:HL; [|discriminate]. destruct (Nat.eqb c' c0); [discriminate|]. injection HO as -> ->. right. now apply IH. }
        destruct (ni_give _ NI _ _ _ G) as (p & q' & R & _). apply (ni_route _ NI) in R. lia.
      * intros X. apply AN in X.
        assert (Y : exists k c, In (BGive (b_next s) k c) (b_log s)) by (destruct X as [X|X]; eapply (ni_about _ NI); eauto; reflexivity).
        destruct Y as (k & c & G). destruct (ni_give _ NI _ _ _ G) as (p & q' & R & _). apply (ni_route _ NI) in R. lia.
  - intros f H. destruct (ni_flight _ NI _ H) as (A1 & A2 & x & A3 & A4 & A5 & A6). repeat split; [cbn; auto | auto|]. exists x. repeat split; auto. cbn. auto.
  - intros p id q' [X|[X|X]]; [injection X as <- <- <-; lia | discriminate | apply (ni_route _ NI) in X; lia].
  - intros p id q1 p' id' q2 [X|[X|X]] [Y|[Y|Y]] E; try discriminate; try (now apply (ni_route1 _ NI)).
    + injection X as <- <- <-. now injection Y as <- <- <-.
    + injection X as <- <- <-. apply (ni_route _ NI) in Y. lia.
    + injection Y as <- <- <-. apply (ni_route _ NI) in X. lia.
  - intros a id [X|[X|X]] AB; [subst; destruct AB | subst; destruct AB|]. destruct (ni_about _ NI _ _ X AB) as (k & c & Y). exists k, c. cbn. auto.
  - intros id k c [X|[X|X]]; [discriminate | discriminate|]. destruct (ni_give _ NI _ _ _ X) as (p & q' & Y1 & Y2). exists p, q'. cbn. auto.
  - intros p id q' [X|[X|X]]; [|discriminate|].
    + injection X as <- <- <-. left. eexists. split; [apply in_app_iff; right; now left|]. now cbn.
    + destruct (ni_kept _ NI _ _ _ X) as [(m' & Y1 & Y2)|[Y|[Y|Y]]].
      * left. exists m'. rewrite in_app_iff. auto.
      * auto.
      * right; right; left. destruct Y; [left | right]; cbn; auto.
      * right; right; right. cbn. auto.
  - intros k x H. cbn. right; right. now apply (ni_cons _ NI).
  - intros k c q' [X|[X|X]]; [discriminate | discriminate|]. now apply (ni_cons1 _ NI).
Qed.
Lemma holder_in : forall id l k c, holder id l = Some (k, c) -> In (BGive id k c) l.
Proof.
  intros id l; induction l as [|a l IH]; cbn; intros k c HO; [discriminate|].
  destruct a; try (right; now apply IH).
  - destruct (Nat.eqb id0 id) eqn:E; [|right; now apply IH]. apply Nat.eqb_eq in E. injection HO as -> ->. subst. now left.
  - destruct (Nat.eqb id0 id); [discriminate | right; now apply IH].
  - destruct (Nat.eqb id0 id); [discriminate | right; now apply IH].
  - destruct (holder id l) as [[k' c']|] eqn:HL; [|discriminate]. destruct (Nat.eqb c' c0); [discriminate|]. injection HO as -> ->. right. now apply IH.
Qed.
Lemma ninv_consume : forall s c q, ninv s ->
  ninv (mkB (b_map s) (b_made s) (b_exch s) (b_bind s) (b_ready s) (b_flight s) (b_cons s ++ [mkK c q true true]) (b_dead s) (b_calls s) (b_pubs s) (b_next s) (BCons (length (b_cons s)) c q :: b_log s)).
Proof.
  intros s c q NI. constructor; cbn [b_ready b_flight b_cons b_log b_pubs b_next].
  - apply NI.
  - apply NI.
  - intros q' m H. destruct (ni_ready _ NI _ _ H) as (A1 & A2 & A3). repeat split; [cbn; auto | exact A2|].
    intros X. apply answered_cons in X. destruct X as [X|[X|X]]; [auto | discriminate | discriminate].
  - intros f H. destruct (ni_flight _ NI _ H) as (A1 & A2 & x & A3 & A4 & A5 & A6). repeat split; [cbn; auto | |].
    + intros X. apply answered_cons in X. destruct X as [X|[X|X]]; [auto | discriminate | discriminate].
    + exists x. repeat split; auto; [|cbn; auto]. rewrite nth_error_app1; [exact A3|]. apply nth_error_Some. congruence.
  - intros p id q' [X|X]; [discriminate | now apply (ni_route _ NI) in X].
  - intros p id q1 p' id' q2 [X|X] [Y|Y]; try discriminate. now apply (ni_route1 _ NI).
  - intros a id [X|X] AB; [subst; destruct AB|]. destruct (ni_about _ NI _ _ X AB) as (k & c' & Y). exists k, c'. cbn. auto.
  - intros id k c' [X|X]; [discriminate|]. destruct (ni_give _ NI _ _ _ X) as (p & q' & Y1 & Y2). exists p, q'. cbn. auto.
  - intros p id q' [X|X]; [discriminate|]. destruct (ni_kept _ NI _ _ _ X) as [Y|[Y|[Y|Y]]]; auto.
    + right; right; left. destruct Y; [left | right]; cbn; auto.
    + right; right; right. cbn. auto.
  - intros k x H. apply nth_app_new in H. destruct H as [[-> ->]|H]; [now left | right; now apply (ni_cons _ NI)].
  - intros k c' q' [X|X].
    + injection X as <- <- <-. exists (mkK c q true true). rewrite nth_error_app2, Nat.sub_diag by lia. auto.
    + destruct (ni_cons1 _ NI _ _ _ X) as (x & X1 & X2). exists x. split; [|exact X2]. rewrite nth_error_app1; [exact X1|]. apply nth_error_Some. congruence.
Qed.
Lemma ninv_give : forall s k x a m b, ninv s -> nth_error (b_cons s) k = Some x -> b_ready s = a ++ (k_q x, m) :: b ->
  ninv (mkB (b_map s) (b_made s) (b_exch s) (b_bind s) (a ++ b) (b_flight s ++ [mkF m (k_q x) k InBuffer]) (upd k (awake true x) (b_cons s)) (b_dead s) (b_calls s)
               (b_pubs s) (b_next s) (BGive (m_id m) k (k_conn x) :: b_log s)).
Proof.
  intros s k x a m b NI Hk R. assert (SC := same_cons_upd _ _ _ true Hk).
  assert (Rm : In (k_q x, m) (b_ready s)) by (rewrite R; apply in_app_iff; right; now left). destruct (ni_ready _ NI _ _ Rm) as (M1 & M2 & M3).
  constructor; cbn [b_ready b_flight b_cons b_log b_pubs b_next].
  - intros id. pose proof (ni_once _ NI id) as O. unfold places in *. cbn [b_ready b_flight]. rewrite R, cnt_mid in O. rewrite (cnt_app _ (f_is id)), cnt_one.
    change (f_is id (mkF m (k_q x) k InBuffer)) with (r_is id (k_q x, m)). lia.
  - pose proof (ni_sorted _ NI) as S. rewrite R in S. apply sorted_app in S. destruct S as (S1 & S2 & S3). inversion S2; subst. apply sorted_join; auto. intros y z Hy Hz. apply S3; [exact Hy | now right].
  - intros q' m' H. assert (NE : m_id m' <> m_id m) by (eapply places_unique_r; eauto).
    destruct (ni_ready _ NI q' m') as (A1 & A2 & A3); [rewrite R; now apply in_mid|]. repeat split; [cbn; auto | |].
    + cbn. destruct (Nat.eqb (m_id m) (m_id m')) eqn:E; [apply Nat.eqb_eq in E; congruence | exact A2].
    + intros X. apply answered_cons in X. destruct X as [X|[X|X]]; [auto | discriminate | discriminate].
  - intros f H. apply in_app_iff in H. destruct H as [H|[<-|[]]].
    + destruct (ni_flight _ NI _ H) as (A1 & A2 & y & A3 & A4 & A5 & A6). repeat split; [cbn; auto | |].
      * intros X. apply answered_cons in X. destruct X as [X|[X|X]]; [auto | discriminate | discriminate].
      * destruct (same_cons_nth _ _ _ _ SC A3) as (y' & B1 & B2 & B3). exists y'. rewrite B2, B3. repeat split; auto; [|cbn; auto].
        cbn. destruct (Nat.eqb (m_id m) (m_id (f_msg f))) eqn:E; [|exact A5]. apply Nat.eqb_eq in E. exfalso. eapply places_unique_rf; eauto.
    + cbn [f_msg f_q f_cons]. repeat split; [cbn; auto | |].
      * intros X. apply answered_cons in X. destruct X as [X|[X|X]]; [auto | discriminate | discriminate].
      * destruct (same_cons_nth _ _ _ _ SC Hk) as (y' & B1 & B2 & B3). exists y'. rewrite B2, B3. repeat split; auto; [|cbn; auto]. cbn. now rewrite Nat.eqb_refl.
  - intros p id q' [X|X]; [discriminate | now apply (ni_route _ NI) in X].
  - intros p id q1 p' id' q2 [X|X] [Y|Y]; try discriminate. now apply (ni_route1 _ NI).
  - intros act id [X|X] AB; [subst; cbn in AB; subst; exists k, (k_conn x); now left|]. destruct (ni_about _ NI _ _ X AB) as (k' & c' & Y). exists k', c'. cbn. auto.
  - intros id k' c' [X|X].
    + injection X as <- <- <-. exists (m_pub m), (k_q x). split; [now right|]. right. now apply (ni_cons _ NI).
    + destruct (ni_give _ NI _ _ _ X) as (p & q' & Y1 & Y2). exists p, q'. cbn. auto.
  - intros p id q' [X|X]; [discriminate|]. destruct (ni_kept _ NI _ _ _ X) as [(m' & Y1 & Y2)|[(f & Y1 & Y2)|[Y|Y]]].
    + rewrite R, in_app_iff in Y1. cbn in Y1. destruct Y1 as [Y1|[Y1|Y1]].
      * left. exists m'. rewrite in_app_iff. auto.
      * injection Y1 as <- <-. right; left. exists (mkF m (k_q x) k InBuffer). split; [apply in_app_iff; right; now left | auto].
      * left. exists m'. rewrite in_app_iff. auto.
    + right; left. exists f. rewrite in_app_iff. auto.
    + right; right; left. destruct Y; [left | right]; cbn; auto.
    + right; right; right. cbn. auto.
  - intros k' y H. destruct (same_cons_nth _ _ _ _ (same_cons_sym _ _ SC) H) as (y' & B1 & <- & <-). right. now apply (ni_cons _ NI).
  - intros k' c q' [H|H]; [discriminate|]. destruct (ni_cons1 _ NI _ _ _ H) as (y & X1 & X2 & X3). destruct (same_cons_nth _ _ _ _ SC X1) as (y' & B1 & B2 & B3).
    exists y'. rewrite B2, B3. auto.
Qed.
Lemma ninv_answer : forall s id a f b act, ninv s -> b_flight s = a ++ f :: b -> m_id (f_msg f) = id -> answers id act -> ninv (set_flight s (a ++ b) (b_cons s) [act]).
Proof.
  intros s id a f b act NI F E AC.
  assert (Ff : In f (b_flight s)) by (rewrite F; apply in_app_iff; right; now left). destruct (ni_flight _ NI _ Ff) as (M1 & M2 & y & M3 & M4 & M5 & M6).
  assert (NR : forall p i q, act <> BRoute p i q) by (intros; destruct AC; subst; discriminate).
  assert (NG : forall i k c, act <> BGive i k c) by (intros; destruct AC; subst; discriminate).
  assert (NC : forall k c q, act <> BCons k c q) by (intros; destruct AC; subst; discriminate).
  assert (HO : forall i, i <> id -> holder i (act :: b_log s) = holder i (b_log s)).
  { intros i NE. destruct AC as [-> | ->]; cbn; (destruct (Nat.eqb id i) eqn:E'; [apply Nat.eqb_eq in E'; congruence | reflexivity]). }
  assert (AN : forall i, i <> id -> answered i (act :: b_log s) -> answered i (b_log s)).
  { intros i NE X. apply answered_cons in X. destruct X as [X|X]; [exact X|]. exfalso. destruct AC as [-> | ->], X as [X|X]; congruence. }
  assert (AN' : answered id (act :: b_log s)) by (destruct AC as [-> | ->]; [left | right]; now left).
  constructor; unfold set_flight; cbn [b_ready b_flight b_cons b_log b_pubs b_next app].
  - intros i. pose proof (ni_once _ NI i) as O. unfold places in *. cbn [b_ready b_flight]. rewrite F, cnt_mid in O. lia.
  - apply NI.
  - intros q' m' H. assert (NE : m_id m' <> id) by (intros X; eapply places_unique_rf; eauto; congruence). destruct (ni_ready _ NI _ _ H) as (A1 & A2 & A3). repeat split; [cbn; auto | |].
    + now rewrite HO.
    + intros X. apply AN in X; auto.
  - intros g H. assert (NE : m_id (f_msg g) <> id) by (rewrite <- E; eapply places_unique_f; eauto).
    destruct (ni_flight _ NI g) as (A1 & A2 & x & A3 & A4 & A5 & A6); [rewrite F; now apply in_mid|]. repeat split; [cbn; auto | |].
    + intros X. apply AN in X; auto.
    + exists x. rewrite HO by exact NE. repeat split; auto. cbn. auto.
  - intros p i q' [X|X]; [now apply NR in X | now apply (ni_route _ NI) in X].
  - intros p i q1 p' i' q2 [X|X] [Y|Y]; try (now apply NR in X); try (now apply NR in Y). now apply (ni_route1 _ NI).
  - intros x i [X|X] AB.
    + subst x. assert (i = id) by (destruct AC; subst act; cbn in AB; congruence). subst i. rewrite <- E. exists (f_cons f), (k_conn y). now right.
    + destruct (ni_about _ NI _ _ X AB) as (k' & c' & Y). exists k', c'. cbn. auto.
  - intros i k' c' [X|X]; [now apply NG in X|]. destruct (ni_give _ NI _ _ _ X) as (p & q' & Y1 & Y2). exists p, q'. cbn. auto.
  - intros p i q' [X|X]; [now apply NR in X|]. destruct (ni_kept _ NI _ _ _ X) as [Y|[(g & Y1 & Y2 & Y3 & Y4)|[Y|Y]]]; auto.
    + rewrite F, in_app_iff in Y1. cbn in Y1. destruct Y1 as [Y1|[Y1|Y1]].
      * right; left. exists g. rewrite in_app_iff. auto.
      * subst g. right; right; left. rewrite <- Y3, E. exact AN'.
      * right; left. exists g. rewrite in_app_iff. auto.
    + right; right; left. destruct Y; [left | right]; cbn; auto.
    + right; right; right. cbn. auto.
  - intros k' x H. right. now apply (ni_cons _ NI).
  - intros k' c q' [X|X]; [now apply NC in X|]. now apply (ni_cons1 _ NI).
Qed.
Lemma ninv_micro : forall s t, minv s -> ninv s -> mic s t -> ninv t.
Proof.
  intros s t MI NI H. destruct H.
  - apply core_eq in H. destruct H as (H2 & H3 & H4 & H5 & H6 & H7). apply (ninv_keep s _ []); auto; rewrite ?H4, ?H5, ?H3; auto; [apply same_cons_refl | eauto | eauto].
  - apply core_eq in H. destruct H as (H3 & H4 & H5 & H6 & H7 & H8). apply (ninv_keep s _ []); auto; rewrite ?H4, ?H5, ?H6; auto; [apply same_cons_refl | eauto | eauto].
  - now apply ninv_close.
  - now apply ninv_gone.
  - destruct H as [->|(q & -> & Kq)]; [|now apply ninv_publish]. unfold publish. cbn [route]. apply (ninv_keep s _ [BPub (b_pubs s) n m body]); cbn; auto; [now repeat constructor | apply same_cons_refl | eauto | eauto].
  - now apply ninv_consume.
  - now apply ninv_give.
  - apply (ninv_keep s _ [BYield k (m_pub (f_msg f)) y]); cbn [set_flight b_ready b_log b_cons b_next b_pubs b_flight app]; auto; rewrite ?H1.
    + now repeat constructor.
    + apply same_cons_refl.
    + intros id. now rewrite move_cnt.
    + apply move_in.
    + apply move_in'.
  - apply (ninv_keep s _ []); cbn [set_flight b_ready b_log b_cons b_next b_pubs b_flight app]; auto; rewrite ?H1.
    + now apply same_cons_upd.
    + intros id. now rewrite move_cnt.
    + apply move_in.
    + apply move_in'.
  - apply (ninv_keep s _ []); cbn [set_flight b_ready b_log b_cons b_next b_pubs b_flight app]; auto; eauto. now apply same_cons_upd.
  - apply (ninv_keep s _ []); cbn [set_flight b_ready b_log b_cons b_next b_pubs b_flight app]; auto; eauto. now apply same_cons_upd.
  - eapply ninv_answer; eauto.
Qed.
Lemma hist_micro : forall s t, minv s -> ninv s -> hist (b_log s) -> mic s t -> hist (b_log t).
Proof.
  intros s t MI NI HI H. destruct H.
  - apply core_eq in H. destruct H as (H2 & H3 & H4 & H5 & H6 & H7). now rewrite H7.
  - apply core_eq in H. destruct H as (H3 & H4 & H5 & H6 & H7 & H8). now rewrite H8.
  - cbn. auto.
  - cbn. auto.
  - destruct H as [->|(q & -> & Kq)]; unfold publish; cbn [route b_log hist fits]; [auto|]. repeat split; auto; destruct H as [H|H]; try discriminate; now apply (ni_route _ NI) in H.
  - cbn. auto.
  - cbn [b_log hist]. split; [|exact HI]. assert (Rm : In (k_q x, m) (b_ready s)) by (rewrite H1; apply in_app_iff; right; now left).
    destruct (ni_ready _ NI _ _ Rm) as (M1 & M2 & M3). cbn [fits]. split; [exact M2|]. split; [exact M3|]. exists (m_pub m), (k_q x). repeat split; auto.
    + now apply (ni_cons _ NI).
    + intros G. apply (mi_gone _ MI) in G. destruct G as [_ G]. apply (mi_ready _ MI) in Rm. congruence.
    + intros p' id' R L. destruct (ni_kept _ NI _ _ _ R) as [(m' & Y1 & Y2 & Y3)|[(f & Y1 & Y2 & Y3 & Y4)|[Y|Y]]].
      * exfalso. pose proof (ni_sorted _ NI) as S. rewrite H1 in S, Y1. apply sorted_app in S. destruct S as (_ & S & _). rewrite in_app_iff in Y1. cbn in Y1.
        destruct Y1 as [Y1|[Y1|Y1]]; [apply H2 in Y1; now apply Y1 | injection Y1 as <-; lia|]. inversion S as [|? ? _ SF]; subst. rewrite Forall_forall in SF. apply SF in Y1. unfold le_id in Y1. cbn in Y1. lia.
      * destruct (ni_flight _ NI _ Y1) as (_ & _ & y & _ & _ & _ & G). rewrite Y3 in G. eauto.
      * destruct Y as [Y|Y]; eapply (ni_about _ NI); eauto; reflexivity.
      * exfalso. apply (mi_gone _ MI) in Y. destruct Y as [_ Y]. apply (mi_ready _ MI) in Rm. congruence.
  - cbn [set_flight b_log hist app]. split; [|exact HI]. assert (Ff : In f (b_flight s)) by (rewrite H1; apply in_app_iff; right; now left).
    destruct (ni_flight _ NI _ Ff) as (M1 & M2 & z & M3 & M4 & M5 & M6). cbn [fits]. rewrite H2 in M6. eauto 6.
  - exact HI.
  - exact HI.
  - exact HI.
  - cbn [set_flight b_log hist app]. split; [|exact HI]. assert (Ff : In f (b_flight s)) by (rewrite H; apply in_app_iff; right; now left).
    destruct (ni_flight _ NI _ Ff) as (M1 & M2 & z & M3 & M4 & M5 & M6). rewrite H0 in *. destruct H2 as [-> | ->]; cbn [fits]; eauto.
Qed.
Lemma inv_micro : forall s t, inv s -> mic s t -> inv t.
Proof. intros s t (MI & NI & HI) H. split; [eapply minv_micro; eauto|]. split; [eapply ninv_micro; eauto | eapply hist_micro; eauto]. Qed.
Lemma inv_init : inv b_init.
Proof.
  split; [|split; [|exact Logic.I]].
  - constructor; cbn; try easy; constructor.
  - constructor; cbn; try easy; try (intros; unfold places, cnt; cbn; lia); try constructor.
    + now destruct k.
Qed.
Lemma inv_run : forall tr s, run_from stp b_init tr = Some s -> inv s.
Proof. intros tr s R. eapply (reach_inv decode qos inv); eauto; [apply inv_micro | apply inv_init]. Qed.
End Inv.
