(** C42, C43, C44, C55 and C56: AMQP queues. *)
From Coq Require Import List Arith Lia Bool Sorting.Sorted.
From Verif Require Import Base BaseFacts ConnModel ConnProps AmqpModel AmqpSpec AmqpProofs AmqpInv.
Import ListNotations.
Open Scope nat_scope.

Lemma hist_tail : forall l1 l2, hist (l1 ++ l2) -> hist l2.
Proof. intros l1; induction l1 as [|a l1 IH]; intros l2 H; [exact H | apply IH; apply H]. Qed.
Lemma holder_stays : forall l2 id k' c' l3, hist (l2 ++ BGive id k' c' :: l3) -> ~ answered id l2 -> ~ In (BClose c') l2 -> holder id (l2 ++ BGive id k' c' :: l3) = Some (k', c').
Proof.
  intros l2; induction l2 as [|a l2 IH]; intros id k' c' l3 H NA NC; [cbn; now rewrite Nat.eqb_refl|]. destruct H as [F H].
  assert (HO : holder id (l2 ++ BGive id k' c' :: l3) = Some (k', c')).
  { apply IH; [exact H | | cbn in NC; tauto]. intros [X|X]; apply NA; [left | right]; now right. }
  cbn [app]. destruct a; cbn [holder app] in *; try exact HO.
  - destruct (Nat.eqb id0 id) eqn:E; [|exact HO]. apply Nat.eqb_eq in E. subst. destruct F as [F _]. congruence.
  - destruct (Nat.eqb id0 id) eqn:E; [|exact HO]. apply Nat.eqb_eq in E. subst. exfalso. apply NA. left. now left.
  - destruct (Nat.eqb id0 id) eqn:E; [|exact HO]. apply Nat.eqb_eq in E. subst. exfalso. apply NA. right. now left.
  - rewrite HO. destruct (Nat.eqb c' c) eqn:E; [|reflexivity]. apply Nat.eqb_eq in E. subst. exfalso. apply NC. now left.
Qed.
Lemma hist_route1 : forall l p id q p' q', hist l -> In (BRoute p id q) l -> In (BRoute p' id q') l -> p = p' /\ q = q'.
Proof.
  intros l; induction l as [|a l IH]; intros p id q p' q' H X Y; [easy|]. destruct H as [F H]. destruct X as [X|X], Y as [Y|Y].
  - subst. injection Y as <- <-. auto.
  - subst. cbn in F. apply F in Y. lia.
  - subst. cbn in F. apply F in X. lia.
  - eauto.
Qed.
Lemma in_two : forall (A : Type) (l : list A) x y, In x l -> In y l -> x = y \/ (exists l1 l2 l3, l = l1 ++ x :: l2 ++ y :: l3) \/ (exists l1 l2 l3, l = l1 ++ y :: l2 ++ x :: l3).
Proof.
  intros A l x y X Y. apply in_split in X. destruct X as (l1 & l2 & ->). apply in_app_iff in Y. destruct Y as [Y|[Y|Y]].
  - apply in_split in Y. destruct Y as (a & b & ->). right; right. exists a, b, l2. now rewrite <- app_assoc.
  - auto.
  - apply in_split in Y. destruct Y as (a & b & ->). right; left. exists l1, a, b. reflexivity.
Qed.

Section Props.
Variable decode : nat -> option nat.
Variable qos : nat -> nat.
Local Notation stp := (b_step decode qos).
Local Notation mic := (micro decode qos).
Definition reach (s : broker) : Prop := exists tr, run_from stp b_init tr = Some s.

Lemma reach_inv' : forall s, reach s -> inv s.
Proof. intros s (tr & R). eapply inv_run; eauto. Qed.
Lemma reach_k : forall s, reach s -> kinv s.
Proof. intros s (tr & R). eapply (run_from_inv _ _ stp kinv); [apply kinv_step | | exact R]. constructor; [constructor | easy]. Qed.
Lemma reach_more : forall s tr s', reach s -> run_from stp s tr = Some s' -> reach s'.
Proof. intros s tr s' (t & R) R'. exists (t ++ tr). apply run_from_app. eauto. Qed.
Lemma micro_log : forall s t, mic s t -> exists l, b_log t = l ++ b_log s.
Proof.
  intros s t H. destruct H; try (exists []; reflexivity); try (eexists [_]; reflexivity).
  - apply core_eq in H. exists []. apply H.
  - apply core_eq in H. exists []. apply H.
  - destruct H as [->|(q & -> & _)]; [eexists [_]; reflexivity | eexists [_; _]; reflexivity].
Qed.
Lemma run_log : forall s tr s', kinv s -> run_from stp s tr = Some s' -> exists l, b_log s' = l ++ b_log s.
Proof.
  intros s tr s' K R.
  enough ((exists l, b_log s' = l ++ b_log s) /\ kinv s') by tauto.
  eapply (run_from_inv _ _ stp (fun t => (exists l, b_log t = l ++ b_log s) /\ kinv t)); [|split; [exists []; reflexivity | exact K] | exact R].
  intros a e b [(l & E) Ka] St. split; [|eapply kinv_step; eauto]. apply step_micro in St; [|exact Ka]. revert l E. clear - St. induction St; intros l E; [eauto|].
  apply micro_log in H. destruct H as (l' & E'). apply (IHSt (l' ++ l)). now rewrite E', E, app_assoc.
Qed.

(** *** C44: exactly-once queues *)
Theorem C44_one_holder : forall s, reach s -> one_holder (b_log s).
Proof. intros s R l1 id k c l2 E. apply reach_inv' in R. destruct R as (_ & _ & H). rewrite E in H. apply hist_split in H. apply H. Qed.
Theorem C44_settled : forall s, reach s -> settled (b_log s).
Proof.
  intros s R l1 id a l2 E AN b Hb AB. apply reach_inv' in R. destruct R as (_ & _ & H). rewrite E in H. apply in_split in Hb. destruct Hb as (l3 & l4 & ->).
  rewrite <- app_assoc in H. apply hist_split in H.
  assert (X : answered id (l4 ++ a :: l2)) by (destruct AN as [-> | ->]; [left | right]; apply in_app_iff; right; now left).
  destruct b; cbn in AB; try contradiction; subst; cbn in H; tauto.
Qed.
Theorem C44_again_after_close : forall s, reach s -> again_after_close (b_log s).
Proof.
  intros s R l1 id k c l2 k' c' l3 E. apply reach_inv' in R. destruct R as (_ & _ & H). rewrite E in H.
  destruct (in_dec Nat.eq_dec c' (flat_map (fun a => match a with BClose c => [c] | _ => [] end) l2)) as [I|NI].
  - apply in_flat_map in I. destruct I as (a & Ha & I). destruct a; try contradiction. destruct I as [<-|[]]. exact Ha.
  - exfalso. assert (F := hist_split _ _ _ H). destruct F as (F1 & F2 & _). apply hist_tail in H. destruct H as [_ H]. rewrite holder_stays in F1; [discriminate | exact H | |].
    + intros [X|X]; apply F2; [left | right]; apply in_app_iff; auto.
    + intros X. apply NI, in_flat_map. exists (BClose c'). split; [exact X | now left].
Qed.
Theorem C44_from_queue : forall s, reach s -> from_queue (b_log s).
Proof. intros s R l1 id k c l2 E. apply reach_inv' in R. destruct R as (_ & _ & H). rewrite E in H. apply hist_split in H. destruct H as (_ & _ & p & q & A & B & _). eauto. Qed.

(** *** C55: order *)
Theorem C55_first_in_first_out : forall s, reach s -> first_in_first_out (b_log s).
Proof.
  intros s R l1 id k c l2 l3 p q l4 p' id' E1 E2 I. apply reach_inv' in R. destruct R as (_ & _ & H). rewrite E1 in H. assert (F := hist_split _ _ _ H). apply hist_tail in H. destruct H as [_ H].
  destruct F as (_ & _ & p0 & q0 & A & _ & _ & B). assert (X : In (BRoute p id q) l2) by (rewrite E2; apply in_app_iff; right; now left).
  destruct (hist_route1 _ _ _ _ _ _ H A X) as [-> ->]. apply (B p' id'); [rewrite E2; apply in_app_iff; right; now right|].
  rewrite E2 in H. apply hist_split in H. cbn in H. now apply H in I.
Qed.

(** *** C56: nothing is lost *)
Theorem C56_kept : forall s p id q, reach s -> In (BRoute p id q) (b_log s) ->
  (exists m, In (q, m) (b_ready s) /\ m_id m = id) \/ (exists f, In f (b_flight s) /\ f_q f = q /\ m_id (f_msg f) = id) \/ In (BAck id) (b_log s) \/ In (BNack id) (b_log s) \/ In (BGone q) (b_log s).
Proof.
  intros s p id q R H. apply reach_inv' in R. destruct R as (_ & NI & _). destruct (ni_kept _ NI _ _ _ H) as [(m & A & B & _)|[(f & A & B & C & _)|[[X|X]|X]]]; eauto 6.
Qed.
Theorem C56_one_place : forall s id, reach s -> length (filter (fun x => Nat.eqb (m_id (snd x)) id) (b_ready s)) + length (filter (fun f => Nat.eqb (m_id (f_msg f)) id) (b_flight s)) <= 1.
Proof. intros s id R. apply reach_inv' in R. destruct R as (_ & NI & _). apply (ni_once _ NI id). Qed.

(** *** C42: broadcasts *)
Theorem C42_one_only : forall s p k k', reach s -> (forall c, ~ In (BClose c) (b_log s)) -> got (b_log s) p k -> got (b_log s) p k' -> k = k'.
Proof.
  intros s p k k' R NC (id & q & c & A & B) (id' & q' & c' & A' & B'). assert (I := R). apply reach_inv' in I. destruct I as (_ & NI & _).
  destruct (ni_route1 _ NI _ _ _ _ _ _ A A' (or_introl eq_refl)) as (_ & <- & _).
  destruct (in_two _ _ _ _ B B') as [E|[(l1 & l2 & l3 & E)|(l1 & l2 & l3 & E)]].
  - now injection E.
  - exfalso. pose proof (C44_again_after_close _ R _ _ _ _ _ _ _ _ E) as X. apply (NC c'). rewrite E. apply in_app_iff. right; right. apply in_app_iff. auto.
  - exfalso. pose proof (C44_again_after_close _ R _ _ _ _ _ _ _ _ E) as X. apply (NC c). rewrite E. apply in_app_iff. right; right. apply in_app_iff. auto.
Qed.
(** Nothing is returned by poll_next that was not delivered to that consumer. *)
Theorem C42_yielded_was_given : forall s k p x, reach s -> In (BYield k p x) (b_log s) -> got (b_log s) p k.
Proof.
  intros s k p x R H. apply reach_inv' in R. destruct R as (_ & _ & HI). apply in_split in H. destruct H as (l1 & l2 & E). rewrite E in HI. apply hist_split in HI. cbn in HI.
  destruct HI as (id & q & c & A & B). exists id, q, c. rewrite E. split; apply in_app_iff; right; now right.
Qed.
(** A broadcast to a declared queue is put in that one queue. *)
Theorem C42_routed_partial : forall s i c n body ops q, reach s -> nth_error (b_calls s) i = Some (c, OPublish Broadcast n body :: ops) -> In n (b_exch s) -> In (n, q) (b_bind s) ->
  lookup n (b_map s) = Some q /\ exists s', stp s (EOp i) = Some s' /\ b_log s' = BRoute (b_pubs s) (b_next s) q :: BPub (b_pubs s) n Broadcast body :: b_log s.
Proof.
  intros s i c n body ops q R H X B. assert (K := reach_k _ R). assert (L := ki_name _ K _ _ B). split; [exact L|]. cbn [b_step]. rewrite H. eexists. split; [reflexivity|]. cbn [do_op b_exch].
  apply has_spec in X. rewrite X. match goal with |- context [bound ?t n] => change (bound t n) with (bound s n) end. destruct (bound_one s n K) as [E|(q' & E & L')].
  - exfalso. assert (Y : In q (bound s n)) by (unfold bound; apply in_map_iff; exists (n, q); split; [reflexivity | apply filter_In; split; [exact B | apply Nat.eqb_refl]]). now rewrite E in Y.
  - rewrite E. rewrite L in L'. injection L' as <-. reflexivity.
Qed.
(** Once it is there, somebody gets it, as long as some consumer of the queue can take more. *)
Theorem C42_partial : forall s p id q k x, reach s -> In (BRoute p id q) (b_log s) -> ~ In (BGone q) (b_log s) ->
  nth_error (b_cons s) k = Some x -> k_q x = q -> k_live x = true -> (qos (k_conn x) = 0 \/ held s k < qos (k_conn x)) -> stp s (EDeliver k) = None ->
  exists k' c', In (BGive id k' c') (b_log s).
Proof.
  intros s p id q k x R H NG Hk Q L C ST. apply reach_inv' in R. destruct R as (MI & NI & _). destruct (ni_kept _ NI _ _ _ H) as [(m & A & B & _)|[(f & A & B & D & _)|[X|X]]].
  - exfalso. cbn [b_step] in ST. rewrite Hk, L in ST. assert (Y : (qos (k_conn x) =? 0) || (held s k <? qos (k_conn x)) = true).
    { apply orb_true_iff. destruct C as [C|C]; [left; now apply Nat.eqb_eq | right; now apply Nat.ltb_lt]. }
    rewrite Y in ST. cbn [andb] in ST. destruct (cut (fun p0 => Nat.eqb (fst p0) (k_q x)) (b_ready s)) as [[[a [q' m']] b]|] eqn:CU; [discriminate|].
    pose proof (cut_none _ _ _ CU _ A) as Z. cbn in Z. rewrite Q, Nat.eqb_refl in Z. discriminate.
  - destruct (ni_flight _ NI _ A) as (_ & _ & y & _ & _ & _ & G). rewrite D in G. eauto.
  - destruct X as [X|X]; eapply (ni_about _ NI); eauto; reflexivity.
  - contradiction.
Qed.

(** *** C43: messages that cannot be decoded *)
Definition stalled (k c : nat) (s : broker) : Prop :=
  0 < qos c /\ (exists x, nth_error (b_cons s) k = Some x /\ k_conn x = c) /\ qos c <= held s k /\ forall f, In f (b_flight s) -> f_cons f = k -> f_at f = Dropped.
Lemma held_cnt : forall s k, held s k = cnt (fun f => Nat.eqb (f_cons f) k) (b_flight s).
Proof. reflexivity. Qed.
Definition to_k (k : nat) (a : bact) : Prop := match a with BGive _ k' _ | BYield k' _ _ => k' = k | _ => False end.
Lemma same_cons_conn : forall l l' k c, same_cons l l' -> (exists x, nth_error l k = Some x /\ k_conn x = c) -> exists x, nth_error l' k = Some x /\ k_conn x = c.
Proof. intros l l' k c SC (x & A & <-). destruct (same_cons_nth _ _ _ _ SC A) as (x' & B & C & _). eauto. Qed.
Lemma stalled_micro : forall k c s t, stalled k c s -> mic s t -> (stalled k c t /\ exists l, b_log t = l ++ b_log s /\ forall a, In a l -> ~ to_k k a) \/ In (BClose c) (b_log t).
Proof.
  intros k c s t (Q & X & HD & D) H. destruct H.
  - apply core_eq in H. destruct H as (H2 & H3 & H4 & H5 & H6 & H7). left. split; [|exists []; rewrite H7; auto]. unfold stalled, held. now rewrite H3, H4.
  - apply core_eq in H. destruct H as (H3 & H4 & H5 & H6 & H7 & H8). left. split; [|exists []; rewrite H8; auto]. unfold stalled, held. now rewrite H4, H5.
  - destruct (Nat.eq_dec c0 c) as [->|NE]; [right; now left|]. left. split; [|exists [BClose c0]; split; [reflexivity | intros a [<-|[]]; easy]].
    split; [exact Q|]. split; [|split].
    + eapply same_cons_conn; [|exact X]. cbn. apply same_cons_map. intros x. destruct (Nat.eqb (k_conn x) c0); auto.
    + rewrite held_cnt in *. cbn [close b_flight]. rewrite <- (cnt_filter_split _ _ (fun f => of_conn s c0 (f_cons f))) in HD.
      replace (cnt _ (filter (fun f => of_conn s c0 (f_cons f)) (b_flight s))) with 0 in HD; [exact HD|]. symmetry. apply cnt_zero. intros f Hf. apply filter_In in Hf. destruct Hf as [Hf OC].
      apply Nat.eqb_neq. intros E. destruct X as (x & X & C). rewrite E, (of_conn_spec _ _ _ _ X), C in OC. apply Nat.eqb_eq in OC. congruence.
    + cbn [close b_flight]. intros f Hf. apply filter_In in Hf. now apply D.
  - left. split; [|exists [BGone q]; split; [reflexivity | intros a [<-|[]]; easy]]. split; [exact Q|]. split; [|split; [exact HD | exact D]].
    eapply same_cons_conn; [|exact X]. cbn. apply same_cons_map. intros x. destruct (Nat.eqb (k_q x) q); auto.
  - left. destruct H as [->|(q & -> & _)].
    + split; [repeat split; assumption|]. exists [BPub (b_pubs s) n m body]. split; [reflexivity | intros a [<-|[]]; easy].
    + split; [repeat split; assumption|]. exists [BRoute (b_pubs s) (b_next s) q; BPub (b_pubs s) n m body]. split; [reflexivity | intros a [<-|[<-|[]]]; easy].
  - left. split; [|eexists [_]; split; [reflexivity | intros a [<-|[]]; easy]]. split; [exact Q|]. split; [|split; [exact HD | exact D]].
    destruct X as (x & X & C). exists x. split; [|exact C]. cbn. rewrite nth_error_app1; [exact X|]. apply nth_error_Some. congruence.
  - destruct X as (x0 & X & C). destruct (Nat.eq_dec k0 k) as [->|NE].
    + exfalso. assert (x0 = x) by congruence. subst x0. rewrite C in H3. lia.
    + left. split; [|eexists [_]; split; [reflexivity | intros ? [<-|[]]; cbn; congruence]]. split; [exact Q|]. split; [|split].
      * exists x0. split; [|exact C]. cbn. now rewrite upd_nth_other.
      * rewrite held_cnt in *. cbn [b_flight]. rewrite cnt_app. lia.
      * cbn [b_flight]. intros f Hf. apply in_app_iff in Hf. destruct Hf as [Hf|[<-|[]]]; [auto | cbn; congruence].
  - destruct (Nat.eq_dec k0 k) as [->|NE].
    + exfalso. assert (Y : f_at f = Dropped) by (apply D; [rewrite H1; apply in_app_iff; right; now left | exact H2]). congruence.
    + left. split; [|eexists [_]; split; [reflexivity | intros ? [<-|[]]; cbn; congruence]]. split; [exact Q|]. split; [exact X|]. split.
      * rewrite held_cnt in *. cbn [set_flight b_flight]. rewrite H1 in HD. rewrite cnt_mid in *. exact HD.
      * cbn [set_flight b_flight]. intros g Hg E. apply in_app_iff in Hg. destruct Hg as [Hg|[<-|Hg]]; [| cbn in E; congruence |]; apply D; auto; rewrite H1; apply in_app_iff; [left | right; right]; exact Hg.
  - destruct (Nat.eq_dec k0 k) as [->|NE].
    + exfalso. assert (Y : f_at f = Dropped) by (apply D; [rewrite H1; apply in_app_iff; right; now left | exact H2]). congruence.
    + left. split; [|exists []; split; [reflexivity | easy]]. split; [exact Q|]. split; [|split].
      * eapply same_cons_conn; [|exact X]. cbn. now apply same_cons_upd.
      * rewrite held_cnt in *. cbn [set_flight b_flight]. rewrite H1 in HD. rewrite cnt_mid in *. exact HD.
      * cbn [set_flight b_flight]. intros g Hg E. apply in_app_iff in Hg. destruct Hg as [Hg|[<-|Hg]]; [| reflexivity |]; apply D; auto; rewrite H1; apply in_app_iff; [left | right; right]; exact Hg.
  - left. split; [|exists []; split; [reflexivity | easy]]. split; [exact Q|]. split; [|split; assumption]. eapply same_cons_conn; [|exact X]. cbn. now apply same_cons_upd.
  - left. split; [|exists []; split; [reflexivity | easy]]. split; [exact Q|]. split; [|split; assumption]. eapply same_cons_conn; [|exact X]. cbn. now apply same_cons_upd.
  - left. assert (NE : f_cons f <> k). { intros E. assert (Y : f_at f = Dropped) by (apply D; [rewrite H; apply in_app_iff; right; now left | exact E]). congruence. }
    split; [|exists [act]; split; [reflexivity | intros ? [<-|[]]; destruct H2; subst; easy]]. split; [exact Q|]. split; [exact X|]. split.
    + rewrite held_cnt in *. cbn [set_flight b_flight]. rewrite H, cnt_mid in HD. apply Nat.eqb_neq in NE. rewrite NE in HD. exact HD.
    + cbn [set_flight b_flight]. intros g Hg E. apply D; [rewrite H; now apply in_mid | exact E].
Qed.
(** A consumer whose whole prefetch is taken by messages it could not decode gets nothing more until its connection closes. *)
Theorem C43_stalls : forall s k c tr s', reach s -> stalled k c s -> run_from stp s tr = Some s' -> ~ In (BClose c) (b_log s') ->
  exists l, b_log s' = l ++ b_log s /\ forall a, In a l -> ~ to_k k a.
Proof.
  intros s k c tr s' R ST RUN NC.
  set (I := fun t => kinv t /\ ((stalled k c t /\ exists l, b_log t = l ++ b_log s /\ forall a, In a l -> ~ to_k k a) \/ In (BClose c) (b_log t))).
  assert (X : I s').
  { eapply (run_from_inv _ _ stp I); [|split; [exact (reach_k _ R) | left; split; [exact ST | exists []; split; [reflexivity | easy]]] | exact RUN].
    intros a e b [Ka Ia] St. split; [eapply kinv_step; eauto|]. apply step_micro in St; [|exact Ka]. clear - Ia St. revert Ia. induction St; intros Ia; [exact Ia|]. apply IHSt.
    destruct Ia as [(ST & l & E & N)|C].
    - destruct (stalled_micro _ _ _ _ ST H) as [(ST' & l' & E' & N')|C']; [|now right]. left. split; [exact ST'|]. exists (l' ++ l). split; [now rewrite E', E, app_assoc|].
      intros a0 Ha. apply in_app_iff in Ha. destruct Ha; auto.
    - right. destruct (micro_log _ _ H) as (l' & ->). apply in_app_iff. now right. }
  destruct X as [_ [(_ & X)|X]]; [exact X | contradiction].
Qed.
Lemma held_bound : forall s k x, reach s -> nth_error (b_cons s) k = Some x -> 0 < qos (k_conn x) -> held s k <= qos (k_conn x).
Proof.
  intros s k x (tr & R). revert k x.
  assert (G : forall k x, nth_error (b_cons s) k = Some x -> (0 < qos (k_conn x) -> held s k <= qos (k_conn x))).
  2: { intros k x A B. eauto. }
  assert (P : (forall k x, nth_error (b_cons s) k = Some x -> (0 < qos (k_conn x) -> held s k <= qos (k_conn x))) /\ (forall f, In f (b_flight s) -> f_cons f < length (b_cons s))).
  2: apply P.
  revert tr s R. apply (reach_inv decode qos); [|split; [now intros [|k] x H | easy]].
  intros s t [A B] H. destruct H.
  - apply core_eq in H. destruct H as (H2 & H3 & H4 & H5 & H6 & H7). unfold held. now rewrite H3, H4.
  - apply core_eq in H. destruct H as (H3 & H4 & H5 & H6 & H7 & H8). unfold held. now rewrite H4, H5.
  - assert (SC : same_cons (b_cons s) (b_cons (close s c))) by (cbn; apply same_cons_map; intros x; destruct (Nat.eqb (k_conn x) c); auto). split.
    + intros k x Hk Q. destruct (same_cons_nth _ _ _ _ (same_cons_sym _ _ SC) Hk) as (y & Y1 & Y2 & _). rewrite <- Y2 in *. specialize (A k y Y1 Q). rewrite held_cnt in *. cbn [close b_flight].
      pose proof (cnt_filter_le _ (fun f => Nat.eqb (f_cons f) k) (fun f => negb (of_conn s c (f_cons f))) (b_flight s)). lia.
    + cbn. intros f Hf. rewrite map_length. apply filter_In in Hf. now apply B.
  - assert (SC : same_cons (b_cons s) (b_cons (gone s n q))) by (cbn; apply same_cons_map; intros x; destruct (Nat.eqb (k_q x) q); auto). split.
    + intros k x Hk Q. destruct (same_cons_nth _ _ _ _ (same_cons_sym _ _ SC) Hk) as (y & Y1 & Y2 & _). rewrite <- Y2 in *. exact (A k y Y1 Q).
    + cbn. intros f Hf. rewrite map_length. auto.
  - destruct H as [->|(q & -> & _)]; split; assumption.
  - cbn [b_cons b_flight]. split.
    + intros k x Hk Q. apply nth_app_new in Hk. destruct Hk as [[-> ->]|Hk]; [|exact (A k x Hk Q)]. rewrite held_cnt. cbn [b_flight].
      replace (cnt _ (b_flight s)) with 0; [lia|]. symmetry. apply cnt_zero. intros f Hf. apply Nat.eqb_neq. apply B in Hf. lia.
    + intros f Hf. rewrite app_length. apply B in Hf. lia.
  - cbn [b_cons b_flight]. assert (SC := same_cons_upd _ _ _ true H). split.
    + intros k' y Hk Q. destruct (same_cons_nth _ _ _ _ (same_cons_sym _ _ SC) Hk) as (y' & Y1 & Y2 & _). rewrite <- Y2 in *. specialize (A k' y' Y1 Q). rewrite held_cnt in *. cbn [b_flight].
      rewrite cnt_app, cnt_one. cbn [f_cons]. destruct (Nat.eqb k k') eqn:E; cbn [b2n]; [|lia]. apply Nat.eqb_eq in E. subst k'. assert (y' = x) by congruence. subst y'. lia.
    + intros f Hf. rewrite upd_length. apply in_app_iff in Hf. destruct Hf as [Hf|[<-|[]]]; [auto|]. cbn. apply nth_error_Some. congruence.
  - cbn [set_flight b_cons b_flight]. split.
    + intros k' y' Hk Q. specialize (A k' y' Hk Q). rewrite held_cnt in *. cbn [set_flight b_flight]. rewrite H1 in A. rewrite cnt_mid in *. exact A.
    + intros g Hg. apply in_app_iff in Hg. destruct Hg as [Hg|[<-|Hg]]; [apply B; rewrite H1; apply in_app_iff; auto | apply (B f); rewrite H1; apply in_app_iff; right; now left | apply B; rewrite H1; apply in_app_iff; right; now right].
  - cbn [set_flight b_cons b_flight]. assert (SC := same_cons_upd _ _ _ false H). split.
    + intros k' y' Hk Q. destruct (same_cons_nth _ _ _ _ (same_cons_sym _ _ SC) Hk) as (y & Y1 & Y2 & _). rewrite <- Y2 in *. specialize (A k' y Y1 Q). rewrite held_cnt in *. cbn [set_flight b_flight]. rewrite H1 in A. rewrite cnt_mid in *. exact A.
    + intros g Hg. rewrite upd_length. apply in_app_iff in Hg. destruct Hg as [Hg|[<-|Hg]]; [apply B; rewrite H1; apply in_app_iff; auto | apply (B f); rewrite H1; apply in_app_iff; right; now left | apply B; rewrite H1; apply in_app_iff; right; now right].
  - cbn [set_flight b_cons b_flight]. assert (SC := same_cons_upd _ _ _ false H). split.
    + intros k' y' Hk Q. destruct (same_cons_nth _ _ _ _ (same_cons_sym _ _ SC) Hk) as (y & Y1 & Y2 & _). rewrite <- Y2 in *. exact (A k' y Y1 Q).
    + intros g Hg. rewrite upd_length. auto.
  - cbn [set_flight b_cons b_flight]. assert (SC := same_cons_upd _ _ _ true H). split.
    + intros k' y' Hk Q. destruct (same_cons_nth _ _ _ _ (same_cons_sym _ _ SC) Hk) as (y & Y1 & Y2 & _). rewrite <- Y2 in *. exact (A k' y Y1 Q).
    + intros g Hg. rewrite upd_length. auto.
  - cbn [set_flight b_cons b_flight]. split.
    + intros k' y' Hk Q. specialize (A k' y' Hk Q). rewrite held_cnt in *. cbn [set_flight b_flight]. rewrite H, cnt_mid in A. lia.
    + intros g Hg. apply B. rewrite H. now apply in_mid.
Qed.
(** With the default prefetch of 1, one such message is enough. *)
Theorem C43_one_is_enough : forall s k x f, reach s -> nth_error (b_cons s) k = Some x -> qos (k_conn x) = 1 -> In f (b_flight s) -> f_cons f = k -> f_at f = Dropped -> stalled k (k_conn x) s.
Proof.
  intros s k x f R Hk Q F E D. assert (HB := held_bound _ _ _ R Hk ltac:(lia)). apply in_split in F. destruct F as (a & b & F).
  split; [lia|]. split; [eauto|]. rewrite Q in *. rewrite held_cnt in *. rewrite F, cnt_mid in *. rewrite E, Nat.eqb_refl in *. cbn [b2n] in *. split; [lia|].
  intros g Hg Eg. apply in_app_iff in Hg. destruct Hg as [Hg|[<-|Hg]]; [|exact D|].
  - exfalso. assert (1 <= cnt (fun f => Nat.eqb (f_cons f) k) (a ++ b)) by (eapply cnt_in; [apply in_app_iff; left; exact Hg | now apply Nat.eqb_eq]). lia.
  - exfalso. assert (1 <= cnt (fun f => Nat.eqb (f_cons f) k) (a ++ b)) by (eapply cnt_in; [apply in_app_iff; right; exact Hg | now apply Nat.eqb_eq]). lia.
Qed.

(** What holds: a consumer with spare prefetch and an empty buffer gets the first message of its queue, whatever it failed to decode before. *)
Theorem C43_partial : forall s k x a m b y, reach s -> nth_error (b_cons s) k = Some x -> k_live x = true -> (qos (k_conn x) = 0 \/ held s k < qos (k_conn x)) ->
  (forall f, In f (b_flight s) -> f_cons f = k -> f_at f <> InBuffer) ->
  b_ready s = a ++ (k_q x, m) :: b -> (forall z, In z a -> fst z <> k_q x) -> decode (m_body m) = Some y ->
  exists s', run_from stp s [EDeliver k; EPoll k] = Some s' /\ b_log s' = BYield k (m_pub m) y :: BGive (m_id m) k (k_conn x) :: b_log s.
Proof.
  intros s k x a m b y R Hk L Q NB RD FA D.
  assert (CU : forall (T : Type) (f : T -> bool) l1 z l2, (forall w, In w l1 -> f w = false) -> f z = true -> cut f (l1 ++ z :: l2) = Some (l1, z, l2)).
  { intros T f l1; induction l1 as [|w l1 IH]; intros z l2 H Fz; cbn; [now rewrite Fz|]. rewrite (H w) by now left. rewrite IH; auto. intros v Hv. apply H. now right. }
  assert (Qb : (qos (k_conn x) =? 0) || (held s k <? qos (k_conn x)) = true).
  { apply orb_true_iff. destruct Q as [Q|Q]; [left; now apply Nat.eqb_eq | right; now apply Nat.ltb_lt]. }
  assert (ST : exists s1, stp s (EDeliver k) = Some s1 /\ b_log s1 = BGive (m_id m) k (k_conn x) :: b_log s /\ b_flight s1 = b_flight s ++ [mkF m (k_q x) k InBuffer] /\ nth_error (b_cons s1) k = Some (awake true x)).
  { cbn [b_step]. rewrite Hk, L, Qb. cbn [andb]. rewrite RD, CU; [|intros w Hw; apply Nat.eqb_neq; auto | apply Nat.eqb_refl]. eexists. split; [reflexivity|]. cbn. repeat split.
    apply upd_nth_same. apply nth_error_Some. congruence. }
  destruct ST as (s1 & ST & L1 & F1 & C1). cbn [run_from]. rewrite ST. cbn [b_step]. rewrite C1. cbn [k_awake awake]. rewrite F1.
  rewrite (CU _ (in_buffer k) (b_flight s) (mkF m (k_q x) k InBuffer) []); [|intros w Hw|unfold in_buffer; cbn; now rewrite Nat.eqb_refl].
  - cbn [f_msg]. rewrite D. eexists. split; [reflexivity|]. cbn. now rewrite L1.
  - unfold in_buffer. destruct (Nat.eqb (f_cons w) k) eqn:E; [|reflexivity]. apply Nat.eqb_eq in E. specialize (NB w Hw E). destruct (f_at w); [congruence | reflexivity | reflexivity].
Qed.
(** And when everything can be decoded, a consumer with messages in its buffer is always about to poll. *)
Theorem C43_awake_partial : (forall b, decode b <> None) -> forall s f, reach s -> In f (b_flight s) -> f_at f = InBuffer ->
  exists x, nth_error (b_cons s) (f_cons f) = Some x /\ k_awake x = true.
Proof.
  intros DT s f (tr & R). revert f. revert tr s R. apply (reach_inv decode qos (fun s => forall f, In f (b_flight s) -> f_at f = InBuffer -> exists x, nth_error (b_cons s) (f_cons f) = Some x /\ k_awake x = true)); [|easy].
  intros s t IH H. assert (MP : forall (g : kons -> kons), (forall x, k_awake (g x) = k_awake x) -> forall f, (exists x, nth_error (b_cons s) (f_cons f) = Some x /\ k_awake x = true) ->
    exists x, nth_error (map g (b_cons s)) (f_cons f) = Some x /\ k_awake x = true).
  { intros g Hg f (x & A & B). exists (g x). rewrite nth_error_map, A. cbn. now rewrite Hg. }
  assert (UP : forall k x b (f : flight), nth_error (b_cons s) k = Some x -> (f_cons f = k -> b = true) -> (exists x, nth_error (b_cons s) (f_cons f) = Some x /\ k_awake x = true) ->
    exists x', nth_error (upd k (awake b x) (b_cons s)) (f_cons f) = Some x' /\ k_awake x' = true).
  { intros k x b f Hk Hb (y & A & B). destruct (Nat.eq_dec k (f_cons f)) as [E|NE].
    - exists (awake b x). rewrite <- E, upd_nth_same by (apply nth_error_Some; congruence). split; [reflexivity | now apply Hb].
    - exists y. now rewrite upd_nth_other. }
  destruct H; intros f0 F AT.
  - apply core_eq in H. destruct H as (H2 & H3 & H4 & _). rewrite H3 in F. rewrite H4. auto.
  - apply core_eq in H. destruct H as (H3 & H4 & H5 & _). rewrite H4 in F. rewrite H5. auto.
  - cbn [close b_flight b_cons] in *. apply filter_In in F. destruct F as [F _]. apply MP; [intros x; now destruct (Nat.eqb (k_conn x) c) | auto].
  - cbn [gone b_flight b_cons] in *. apply MP; [intros x; now destruct (Nat.eqb (k_q x) q) | auto].
  - destruct H as [->|(q & -> & _)]; now apply IH.
  - cbn [b_flight b_cons] in *. destruct (IH f0 F AT) as (x & A & B). exists x. split; [|exact B]. rewrite nth_error_app1; [exact A|]. apply nth_error_Some. congruence.
  - cbn [b_flight b_cons] in *. apply in_app_iff in F. destruct F as [F|[<-|[]]]; [apply UP; auto|]. cbn. exists (awake true x). rewrite upd_nth_same by (apply nth_error_Some; congruence). auto.
  - cbn [set_flight b_flight b_cons] in *. apply IH; [|exact AT]. rewrite H1. apply in_app_iff in F. apply in_app_iff. destruct F as [F|[<-|F]]; [now left | discriminate | right; now right].
  - now apply DT in H5.
  - cbn [set_flight b_flight b_cons] in *. apply UP; auto. intros E. specialize (H0 f0 F). unfold in_buffer in H0. rewrite E, Nat.eqb_refl, AT in H0. discriminate.
  - cbn [set_flight b_flight b_cons] in *. apply UP; auto.
  - cbn [set_flight b_flight b_cons] in *. apply IH; [|exact AT]. rewrite H. now apply in_mid.
Qed.
End Props.

(** *** The cases *)
Definition ok (b : nat) : option nat := if b =? 99 then None else Some b.
Definition prefetch (n : nat) : nat -> nat := fun _ => n.
Definition do_run (q : nat) (tr : list b_event) : broker := match run_from (b_step ok (prefetch q)) b_init tr with Some s => s | None => b_init end.
(** Two receivers of broadcast queue 7 and a sender. *)
Definition two_receivers : list b_event :=
  [ECall 0 (receiver_ops Broadcast 7); EOp 0; EOp 0; EOp 0; EOp 0; ECall 1 (receiver_ops Broadcast 7); EOp 1; EOp 1; EOp 1; EOp 1; ECall 2 (declare_ops Broadcast 7); EOp 2; EOp 2; EOp 2;
   ECall 2 (publish_ops Broadcast 7 5); EOp 3].
Definition one_took_it : broker := do_run 1 (two_receivers ++ [EDeliver 0; EPoll 0; EAck 0]).

(** C42 is false: both consumers were there before the message was published; one gets it, and the other never will. *)
Theorem C42_refuted : exists decode qos tr s l1 l2, run_from (b_step decode qos) b_init tr = Some s /\ b_log s = l1 ++ BPub 0 7 Broadcast 5 :: l2 /\
  In (BCons 0 0 0) l2 /\ In (BCons 1 1 0) l2 /\ lookup 7 (b_map s) = Some 0 /\ got (b_log s) 0 0 /\
  (exists x, nth_error (b_cons s) 1 = Some x /\ k_live x = true) /\
  forall tr' s', run_from (b_step decode qos) s tr' = Some s' -> ~ got (b_log s') 0 1.
Proof.
  exists ok, (prefetch 1), (two_receivers ++ [EDeliver 0; EPoll 0; EAck 0]), one_took_it, [BAck 0; BYield 0 0 5; BGive 0 0 0; BRoute 0 0 0], [BCons 1 1 0; BCons 0 0 0].
  assert (RUN : run_from (b_step ok (prefetch 1)) b_init (two_receivers ++ [EDeliver 0; EPoll 0; EAck 0]) = Some one_took_it) by (vm_compute; reflexivity).
  assert (LOG : b_log one_took_it = [BAck 0; BYield 0 0 5; BGive 0 0 0; BRoute 0 0 0] ++ BPub 0 7 Broadcast 5 :: [BCons 1 1 0; BCons 0 0 0]) by (vm_compute; reflexivity).
  assert (RE : reach ok (prefetch 1) one_took_it) by (eexists; exact RUN).
  split; [exact RUN|]. split; [exact LOG|]. split; [cbn; auto|]. split; [cbn; auto|]. split; [vm_compute; reflexivity|]. split; [|split].
  - exists 0, 0, 0. rewrite LOG. cbn. auto 6.
  - exists (mkK 1 0 true true). split; vm_compute; reflexivity.
  - intros tr' s' R (id & q & c & A & B). assert (RE' := reach_more _ _ _ _ _ RE R). destruct (run_log _ _ _ _ _ (reach_k _ _ _ RE) R) as (l & E).
    assert (I := reach_inv' _ _ _ RE'). destruct I as (_ & NI & _).
    assert (R0 : In (BRoute 0 0 0) (b_log s')) by (rewrite E, LOG; apply in_app_iff; right; cbn; auto 6).
    destruct (ni_route1 _ NI _ _ _ _ _ _ A R0 (or_introl eq_refl)) as (_ & -> & _).
    rewrite E, LOG in B. apply in_app_iff in B. 
    destruct B as [B|B]; [|exfalso; clear - B; cbn in B; intuition discriminate].
    assert (ST := C44_settled _ _ _ RE'). rewrite E, LOG in ST. eapply (ST l 0 (BAck 0)); [cbn; reflexivity | now left | exact B | reflexivity].
Qed.

(** C43 is false. With prefetch 1: message 99 cannot be decoded, and message 5 behind it stays in the queue for ever, although the consumer and its connection are alive. *)
Definition bad_then_good : list b_event :=
  [ECall 0 (receiver_ops Single 7); EOp 0; EOp 0; ECall 1 (declare_ops Single 7); EOp 1; ECall 1 (publish_ops Single 7 99); EOp 2; ECall 1 (publish_ops Single 7 5); EOp 3].
Definition stuck_one : broker := do_run 1 (bad_then_good ++ [EDeliver 0; EPoll 0]).
Theorem C43_refuted : exists decode qos tr s m, run_from (b_step decode qos) b_init tr = Some s /\
  nth_error (b_cons s) 0 = Some (mkK 0 0 true false) /\ b_ready s = [(0, m)] /\ decode (m_body m) = Some 5 /\
  forall tr' s', run_from (b_step decode qos) s tr' = Some s' -> ~ In (BClose 0) (b_log s') -> forall p x, ~ In (BYield 0 p x) (b_log s').
Proof.
  exists ok, (prefetch 1), (bad_then_good ++ [EDeliver 0; EPoll 0]), stuck_one, (mkM 1 1 5).
  assert (RUN : run_from (b_step ok (prefetch 1)) b_init (bad_then_good ++ [EDeliver 0; EPoll 0]) = Some stuck_one) by (vm_compute; reflexivity).
  assert (RE : reach ok (prefetch 1) stuck_one) by (eexists; exact RUN).
  split; [exact RUN|]. split; [vm_compute; reflexivity|]. split; [vm_compute; reflexivity|]. split; [reflexivity|].
  intros tr' s' R NC p x H.
  assert (ST : stalled (prefetch 1) 0 0 stuck_one).
  { apply (C43_one_is_enough ok (prefetch 1) stuck_one 0 (mkK 0 0 true false) (mkF (mkM 0 0 99) 0 0 Dropped)); auto; vm_compute; auto. }
  destruct (C43_stalls _ _ _ _ _ _ _ RE ST R NC) as (l & E & N). rewrite E in H. apply in_app_iff in H. destruct H as [H|H]; [exact (N _ H eq_refl)|].
  clear - H. vm_compute in H. intuition discriminate.
Qed.
(** With prefetch 2 the good message is in the client's buffer, and the task that should take it is not woken: no delivery or poll can happen any more. *)
Definition stuck_two : broker := do_run 2 (bad_then_good ++ [EDeliver 0; EDeliver 0; EPoll 0]).
Theorem C43_lost_wakeup_refuted : exists decode qos tr s f, run_from (b_step decode qos) b_init tr = Some s /\
  nth_error (b_cons s) 0 = Some (mkK 0 0 true false) /\ In f (b_flight s) /\ f_cons f = 0 /\ f_at f = InBuffer /\ decode (m_body (f_msg f)) = Some 5 /\ b_ready s = [] /\
  forall k, b_step decode qos s (EDeliver k) = None /\ b_step decode qos s (EPoll k) = None.
Proof.
  exists ok, (prefetch 2), (bad_then_good ++ [EDeliver 0; EDeliver 0; EPoll 0]), stuck_two, (mkF (mkM 1 1 5) 0 0 InBuffer).
  split; [vm_compute; reflexivity|]. split; [vm_compute; reflexivity|]. split; [vm_compute; auto|]. do 4 (split; [vm_compute; reflexivity|]).
  intros [|k]; (split; [vm_compute; try reflexivity; now destruct k|]); vm_compute; try reflexivity; now destruct k.
Qed.

(** Non-vacuity: a message is delivered, its holder's connection is lost, it is delivered to the other consumer and acked; a second message follows in order. *)
Definition redeliver : list b_event :=
  [ECall 0 (receiver_ops Single 7); EOp 0; EOp 0; ECall 1 (receiver_ops Single 7); EOp 1; EOp 1; ECall 2 (publish_ops Single 7 5); EOp 2; ECall 2 (publish_ops Single 7 6); EOp 3;
   EDeliver 0; ECrash 0; EDeliver 1; EPoll 1; EAck 0; EDeliver 1; EPoll 1; ENack 1].
Definition redelivered : broker := do_run 1 redeliver.
Example C44_case : b_log redelivered =
  [BNack 1; BYield 1 1 6; BGive 1 1 1; BAck 0; BYield 1 0 5; BGive 0 1 1; BClose 0; BGive 0 0 0; BRoute 1 1 0; BPub 1 7 Single 6; BRoute 0 0 0; BPub 0 7 Single 5; BCons 1 1 0; BCons 0 0 0]
  /\ b_flight redelivered = [] /\ b_ready redelivered = [].
Proof. vm_compute. auto. Qed.
Example C44_case_reach : reach ok (prefetch 1) redelivered.
Proof. exists redeliver. vm_compute. reflexivity. Qed.
Example C43_partial_case : exists s, run_from (b_step ok (prefetch 2)) b_init (bad_then_good ++ [EDeliver 0; EPoll 0; EDeliver 0; EPoll 0]) = Some s /\ In (BYield 0 1 5) (b_log s).
Proof. eexists. split; [vm_compute; reflexivity | vm_compute; auto]. Qed.
Example C42_partial_case : exists s, run_from (b_step ok (prefetch 1)) b_init (two_receivers ++ [EDeliver 1]) = Some s /\ got (b_log s) 0 1 /\ b_step ok (prefetch 1) s (EDeliver 0) = None /\ held s 0 = 0.
Proof. eexists. split; [vm_compute; reflexivity|]. split; [exists 0, 0, 1; vm_compute; auto 6 | split; vm_compute; reflexivity]. Qed.

Print Assumptions C44_one_holder.
Print Assumptions C44_settled.
Print Assumptions C44_again_after_close.
Print Assumptions C44_from_queue.
Print Assumptions C55_first_in_first_out.
Print Assumptions C56_kept.
Print Assumptions C56_one_place.
Print Assumptions C42_one_only.
Print Assumptions C42_yielded_was_given.
Print Assumptions C42_routed_partial.
Print Assumptions C42_partial.
Print Assumptions C42_refuted.
Print Assumptions C43_stalls.
Print Assumptions C43_one_is_enough.
Print Assumptions C43_partial.
Print Assumptions C43_awake_partial.
Print Assumptions C43_refuted.
Print Assumptions C43_lost_wakeup_refuted.
