(** C83: the prefetch limit. *)
From Coq Require Import List Arith Lia Bool.
From Verif Require Import Base BaseFacts ConnModel ConnProps AmqpModel AmqpSpec AmqpProofs AmqpInv AmqpProps.
Import ListNotations.
Open Scope nat_scope.

(** * Spec *)
(** Consumer [k] holds each of the copies [ids]: they were delivered to it, it answered none of them, its connection did not close. *)
Definition holds (l : list bact) (k : nat) (ids : list nat) : Prop := NoDup ids /\ forall id, In id ids -> exists c, holder id l = Some (k, c).
(** A copy is delivered only to a consumer that holds fewer copies than the limit of its connection (0: no limit). *)
Definition within (qos : nat -> nat) (l : list bact) : Prop :=
  forall l1 id k c l2, l = l1 ++ BGive id k c :: l2 -> forall ids, holds l2 k ids -> qos c = 0 \/ length ids < qos c.

Section Prefetch.
Variable decode : nat -> option nat.
Variable qos : nat -> nat.
Local Notation stp := (b_step decode qos).
Local Notation mic := (micro decode qos).
Local Notation reach := (reach decode qos).

Record pinv (s : broker) : Prop := {
  pi_held : forall k x, nth_error (b_cons s) k = Some x -> qos (k_conn x) = 0 \/ held s k <= qos (k_conn x);
  pi_flight : forall id k c, holder id (b_log s) = Some (k, c) -> exists f, In f (b_flight s) /\ m_id (f_msg f) = id /\ f_cons f = k;
  pi_log : within qos (b_log s)
}.

Lemma held_ids : forall s k ids, pinv s -> holds (b_log s) k ids -> length ids <= held s k.
Proof.
  intros s k ids P [ND H]. unfold held. rewrite <- (map_length (fun f => m_id (f_msg f))). apply NoDup_incl_length; [exact ND|].
  intros id I. destruct (H id I) as (c & HO). destruct (pi_flight _ P _ _ _ HO) as (f & F & E & K). apply in_map_iff. exists f. split; [exact E|].
  apply filter_In. split; [exact F|]. now apply Nat.eqb_eq.
Qed.
Lemma within_other : forall a l, (forall id k c, a <> BGive id k c) -> within qos l -> within qos (a :: l).
Proof.
  intros a l NG W l1 id k c l2 E. destruct l1 as [|b l1]; [injection E as E _; destruct (NG _ _ _ E)|]. injection E as _ E. eapply W; eauto.
Qed.
Definition calm (a : bact) : Prop := match a with BGive _ _ _ | BAck _ | BNack _ | BClose _ => False | _ => True end.
Definition key (f : flight) : nat * nat := (m_id (f_msg f), f_cons f).
Lemma held_key : forall s k, held s k = length (filter (fun p => Nat.eqb (snd p) k) (map key (b_flight s))).
Proof.
  intros s k. unfold held. induction (b_flight s) as [|f l IH]; [reflexivity|]. cbn. destruct (Nat.eqb (f_cons f) k); cbn; now rewrite IH.
Qed.
(** A step that neither delivers nor takes a delivery away. *)
Lemma pinv_calm : forall s t l, pinv s -> map key (b_flight t) = map key (b_flight s) -> b_log t = l ++ b_log s -> Forall calm l ->
  (forall k x, nth_error (b_cons t) k = Some x -> held s k = 0 \/ exists y, nth_error (b_cons s) k = Some y /\ k_conn x = k_conn y) -> pinv t.
Proof.
  intros s t l [P1 P2 P3] EF EL Q EC. constructor.
  - intros k x N. assert (EH : held t k = held s k) by (now rewrite !held_key, EF). rewrite EH. destruct (EC _ _ N) as [->|(y & N' & ->)]; [right; lia|now apply P1].
  - intros id k c H. assert (HO : holder id (b_log s) = Some (k, c)).
    { rewrite EL in H. clear - H Q. induction Q as [|a l Qa Q IH]; [exact H|]. apply IH. cbn [app] in H. destruct a; try (now destruct Qa); exact H. }
    destruct (P2 id k c HO) as (f & F & E1 & E2). assert (I : In (key f) (map key (b_flight t))) by (rewrite EF; now apply in_map).
    apply in_map_iff in I. destruct I as (g & E & G). exists g. unfold key in E. injection E as Ea Eb. repeat split; congruence.
  - rewrite EL. clear EL. induction Q as [|a l Qa Q IH]; [exact P3|]. cbn [app]. apply within_other; [|exact IH]. intros id k c ->. exact Qa.
Qed.
Lemma awake_conn : forall s k b x, nth_error (b_cons s) k = Some x -> forall k' y, nth_error (upd k (awake b x) (b_cons s)) k' = Some y ->
  exists z, nth_error (b_cons s) k' = Some z /\ k_conn y = k_conn z.
Proof.
  intros s k b x N k' y H. apply upd_nth in H. destruct H as [(-> & ->)|(_ & H)]; [exists x; auto|exists y; auto].
Qed.
Lemma map_conn : forall (s : broker) g, (forall x, k_conn (g x) = k_conn x) -> forall k y, nth_error (map g (b_cons s)) k = Some y ->
  exists z, nth_error (b_cons s) k = Some z /\ k_conn y = k_conn z.
Proof.
  intros s g G k y H. rewrite nth_error_map in H. destruct (nth_error (b_cons s) k) as [z|]; [|discriminate]. injection H as <-. exists z. auto.
Qed.

Lemma pinv_micro : forall s t, inv s /\ pinv s -> mic s t -> inv t /\ pinv t.
Proof.
  intros s t [IV P] M. split; [eapply inv_micro; eauto|]. assert (IV' := IV). destruct IV' as (_ & NI & _). destruct M.
  - apply core_eq in H. destruct H as (_ & E2 & E3 & _ & _ & E6). eapply (pinv_calm s _ []); eauto; [now rewrite E2|]. intros k x N. right. rewrite E3 in N. eauto.
  - apply core_eq in H. destruct H as (_ & E2 & E3 & _ & _ & E6). eapply (pinv_calm s _ []); eauto; [now rewrite E2|]. intros k x N. right. rewrite E3 in N. eauto.
  - (* close *)
    destruct P as [P1 P2 P3]. constructor.
    + intros k x N. cbn [close b_cons] in N. apply map_conn in N; [|intros y; now destruct (Nat.eqb (k_conn y) c)]. destruct N as (y & N & ->).
      destruct (P1 _ _ N) as [Z|L]; [now left|right]. unfold held in *. cbn [close b_flight].
      etransitivity; [|exact L]. clear. induction (b_flight s) as [|f l IH]; [reflexivity|]. cbn.
      destruct (of_conn s c (f_cons f)); cbn; destruct (Nat.eqb (f_cons f) k); cbn; lia.
    + intros id k c0 H. cbn [close b_log holder] in H. destruct (holder id (b_log s)) as [[k' c']|] eqn:HO; [|discriminate].
      destruct (Nat.eqb c' c) eqn:E; [discriminate|]. injection H as -> ->. destruct (P2 _ _ _ HO) as (f & F & E1 & E2). exists f. split; [|auto].
      cbn [close b_flight]. apply filter_In. split; [exact F|]. apply negb_true_iff. unfold of_conn.
      destruct (ni_flight _ NI f F) as (_ & _ & x & N & _ & HO' & _). rewrite N. rewrite E1, HO in HO'. injection HO' as _ ->. exact E.
    + cbn [close b_log]. apply within_other; [discriminate|exact P3].
  - eapply (pinv_calm s _ [BGone q]); auto; [repeat constructor|]. intros k x N. right. cbn [gone b_cons] in N. apply map_conn in N; [exact N|]. intros y. now destruct (Nat.eqb (k_q y) q).
  - destruct H as [->|(q & -> & _)]; [eapply (pinv_calm s _ [_])|eapply (pinv_calm s _ [_; _])]; cbn; eauto; repeat constructor.
  - eapply (pinv_calm s _ [_]); cbn; eauto; [repeat constructor|]. intros k x N. apply nth_app_new in N. destruct N as [(-> & ->)|N]; [|right; eauto]. left.
    unfold held. destruct (filter (fun f => Nat.eqb (f_cons f) (length (b_cons s))) (b_flight s)) as [|f l] eqn:E; [reflexivity|]. exfalso.
    assert (F : In f (filter (fun f => Nat.eqb (f_cons f) (length (b_cons s))) (b_flight s))) by (rewrite E; now left).
    apply filter_In in F. destruct F as [F K]. apply Nat.eqb_eq in K. destruct (ni_flight _ NI f F) as (_ & _ & x & N & _). rewrite K in N.
    assert (length (b_cons s) < length (b_cons s)) by (apply nth_error_Some; congruence). lia.
  - (* a delivery *)
    pose proof (held_ids s k) as HI. assert (PP := P). destruct P as [P1 P2 P3]. constructor.
    + intros k' x' N. cbn [b_cons] in N. destruct (awake_conn s k true x H k' x' N) as (z & Nz & Ez). rewrite Ez.
      assert (HK : held (mkB (b_map s) (b_made s) (b_exch s) (b_bind s) (a ++ b) (b_flight s ++ [mkF m (k_q x) k InBuffer]) (upd k (awake true x) (b_cons s)) (b_dead s) (b_calls s)
               (b_pubs s) (b_next s) (BGive (m_id m) k (k_conn x) :: b_log s)) k' = held s k' + (if Nat.eqb k k' then 1 else 0)).
      { unfold held. cbn [b_flight]. rewrite filter_app, app_length. cbn. now destruct (Nat.eqb k k'). }
      rewrite HK. destruct (Nat.eqb_spec k k') as [<-|D].
      * rewrite H in Nz. injection Nz as <-. destruct H3 as [Z|L]; [now left|right; lia].
      * destruct (P1 _ _ Nz) as [Z|L]; [now left|right; lia].
    + intros id k' c' HO. cbn [b_log holder b_flight] in *. destruct (Nat.eqb_spec (m_id m) id) as [E|D].
      * injection HO as <- <-. exists (mkF m (k_q x) k InBuffer). rewrite in_app_iff. cbn. auto.
      * destruct (P2 _ _ _ HO) as (f & F & E). exists f. rewrite in_app_iff. auto.
    + cbn [b_log]. intros l1 id k' c' l2 E ids HD. destruct l1 as [|y l1]; [|injection E as _ E; eapply P3; eauto].
      injection E as <- <- <- <-. specialize (HI ids PP HD). destruct H3 as [Z|L]; [now left|right; lia].
  - eapply (pinv_calm s _ [_]); cbn; eauto; [rewrite H1, !map_app; cbn; reflexivity|repeat constructor].
  - eapply (pinv_calm s _ []); cbn; eauto; [rewrite H1, !map_app; cbn; reflexivity|]. intros k' y N. right. eapply awake_conn; eauto.
  - eapply (pinv_calm s _ []); cbn; eauto. intros k' y N. right. eapply awake_conn; eauto.
  - eapply (pinv_calm s _ []); cbn; eauto. intros k' y N. right. eapply awake_conn; eauto.
  - (* an answer *)
    destruct P as [P1 P2 P3]. constructor.
    + intros k x N. destruct (P1 _ _ N) as [Z|L]; [now left|right]. unfold held in *. cbn [set_flight b_flight]. rewrite H in L. rewrite !filter_app, !app_length in *. cbn in L.
      destruct (Nat.eqb (f_cons f) k); cbn in L; lia.
    + intros id' k c HO. cbn [set_flight b_log b_flight app] in *.
      assert (HO' : id' <> id /\ holder id' (b_log s) = Some (k, c)).
      { destruct H2 as [-> | ->]; cbn [holder] in HO; destruct (Nat.eqb_spec id id') as [E|D]; try discriminate; auto. }
      destruct HO' as [D HO']. destruct (P2 _ _ _ HO') as (g & G & E1 & E2). exists g. split; [|auto]. rewrite H in G. rewrite in_app_iff in *. cbn in G.
      destruct G as [G|[<-|G]]; auto. congruence.
    + cbn [set_flight b_log app]. apply within_other; [|exact P3]. intros i k c. destruct H2 as [-> | ->]; discriminate.
Qed.
Lemma reach_p : forall s, reach s -> inv s /\ pinv s.
Proof.
  intros s (tr & R). eapply (reach_inv decode qos (fun s => inv s /\ pinv s)); eauto; [intros a b H M; eapply pinv_micro; eauto|].
  split; [apply inv_init|]. constructor; cbn; try discriminate; [intros [|k] x N; discriminate|]. intros l1 id k c l2 E. destruct l1; discriminate.
Qed.

(** ** C83 *)
(** Whatever happens, no consumer is handed a message while it holds as many as its connection's limit, so it never holds more. *)
Theorem C83_within : forall s, reach s -> within qos (b_log s).
Proof. intros s R. apply reach_p in R. apply R. Qed.
Theorem C83_limit : forall s k c q ids, reach s -> In (BCons k c q) (b_log s) -> qos c <> 0 -> holds (b_log s) k ids -> length ids <= qos c.
Proof.
  intros s k c q ids R C Z HD. apply reach_p in R. destruct R as [(_ & NI & _) P]. destruct (ni_cons1 _ NI _ _ _ C) as (x & N & <- & _).
  pose proof (held_ids s k ids P HD). destruct (pi_held _ P _ _ N); [contradiction|lia].
Qed.
(** With the default limit of 1: between two deliveries to a consumer, it answered the first or its connection closed. *)
Theorem C83_one_at_a_time : forall s l1 id k c l2 id' c' l3, reach s -> qos c = 1 ->
  b_log s = l1 ++ BGive id k c :: l2 ++ BGive id' k c' :: l3 -> In (BAck id') l2 \/ In (BNack id') l2 \/ In (BClose c') l2.
Proof.
  intros s l1 id k c l2 id' c' l3 R Q E. pose proof (C83_within s R) as W. apply reach_inv' in R. destruct R as (_ & _ & H).
  assert (DEC : forall a, In a l2 \/ ~ In a l2).
  { intros a. destruct (in_dec (fun x y : bact => ltac:(decide equality; try apply Nat.eq_dec; decide equality)) a l2); auto. }
  destruct (DEC (BAck id')) as [A|A]; [now left|]. destruct (DEC (BNack id')) as [B|B]; [auto|]. destruct (DEC (BClose c')) as [C|C]; [auto|]. exfalso.
  assert (HO : holder id' (l2 ++ BGive id' k c' :: l3) = Some (k, c')).
  { apply holder_stays; [|intros [X|X]; contradiction|exact C]. rewrite E in H. apply hist_tail in H. apply H. }
  destruct (W _ _ _ _ _ E [id']) as [Z|Z]; [|congruence|cbn in Z; lia].
  split; [constructor; [intros []|constructor]|]. intros i [<-|[]]. eauto.
Qed.
End Prefetch.

(** ** Examples *)
(** Two consumers with limit 2 and five messages: the third delivery to the first consumer is refused until it answers. *)
Definition five : list b_event :=
  [ECall 0 (receiver_ops Single 7); EOp 0; EOp 0; ECall 1 (receiver_ops Single 7); EOp 1; EOp 1;
   ECall 2 (publish_ops Single 7 1); EOp 2; ECall 2 (publish_ops Single 7 2); EOp 3; ECall 2 (publish_ops Single 7 3); EOp 4; ECall 2 (publish_ops Single 7 4); EOp 5].
Example C83_ex_limit : let s := do_run 2 (five ++ [EDeliver 0; EDeliver 0; EDeliver 1]) in
  reach ok (prefetch 2) s /\ holds (b_log s) 0 [0; 1] /\ holds (b_log s) 1 [2] /\ In (BCons 0 0 0) (b_log s) /\
  b_step ok (prefetch 2) s (EDeliver 0) = None /\ b_step ok (prefetch 2) s (EDeliver 1) <> None.
Proof.
  cbn zeta. split; [exists (five ++ [EDeliver 0; EDeliver 0; EDeliver 1]); vm_compute; reflexivity|].
  split; [split; [repeat constructor; cbn; intuition discriminate|]; intros id [<-|[<-|[]]]; exists 0; vm_compute; reflexivity|].
  split; [split; [repeat constructor; cbn; tauto|]; intros id [<-|[]]; exists 1; vm_compute; reflexivity|].
  split; [vm_compute; tauto|]. split; [vm_compute; reflexivity|]. vm_compute. discriminate.
Qed.
(** With the limit 1, an answer makes room. *)
Example C83_ex_one : let s := do_run 1 (five ++ [EDeliver 0; EPoll 0; EAck 0; EDeliver 0]) in
  reach ok (prefetch 1) s /\ exists l1 l2 l3, b_log s = l1 ++ BGive 1 0 0 :: l2 ++ BGive 0 0 0 :: l3 /\ In (BAck 0) l2 /\
  b_step ok (prefetch 1) (do_run 1 (five ++ [EDeliver 0; EPoll 0])) (EDeliver 0) = None.
Proof.
  cbn zeta. split; [exists (five ++ [EDeliver 0; EPoll 0; EAck 0; EDeliver 0]); vm_compute; reflexivity|].
  exists [], [BAck 0; BYield 0 0 1]. eexists. split; [vm_compute; reflexivity|]. split; [now left|vm_compute; reflexivity].
Qed.

Print Assumptions C83_within.
Print Assumptions C83_limit.
Print Assumptions C83_one_at_a_time.
