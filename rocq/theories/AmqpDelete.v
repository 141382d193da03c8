(** C69: deleting an AMQP queue. *)
From Coq Require Import List Arith Bool Lia.
From Verif Require Import Base BaseFacts ConnModel ConnProps AmqpModel AmqpSpec AmqpProofs AmqpInv AmqpProps.
Import ListNotations.

(** The operations do not declare [n]. *)
Definition undeclared (n : nat) (ops : list bop) : Prop := forall o, In o ops -> o <> OQueue n /\ o <> OExchange n.
(** Nothing is put in queue [q], declared to consume from it, or taken from it. *)
Definition touches (l : list bact) (q : nat) (a : bact) : Prop :=
  match a with
  | BRoute _ _ q' => q' = q
  | BCons _ _ q' => q' = q
  | BGive id _ _ => exists p, In (BRoute p id q) l
  | _ => False
  end.

Section Delete.
Variable decode : nat -> option nat.
Variable qos : nat -> nat.
Local Notation stp := (b_step decode qos).
Local Notation mic := (micro decode qos).
Local Notation reach := (reach decode qos).

Ltac brk H :=
  repeat match type of H with
  | match ?x with _ => _ end = _ => let E := fresh "M" in destruct x eqn:E; try discriminate H
  | (if ?x then _ else _) = _ => let E := fresh "M" in destruct x eqn:E; try discriminate H
  | (let (_, _) := ?x in _) = _ => let E := fresh "M" in destruct x eqn:E; try discriminate H
  end.

(** ** Calls *)
Lemma route_frame : forall qs s p body, b_calls (route s p body qs) = b_calls s /\ b_dead (route s p body qs) = b_dead s /\ b_exch (route s p body qs) = b_exch s /\ b_map (route s p body qs) = b_map s.
Proof. induction qs as [|q qs IH]; intros s p body; cbn [route]; [auto|]. now destruct (IH (mkB (b_map s) (b_made s) (b_exch s) (b_bind s) (b_ready s ++ [(q, mkM (b_next s) p body)]) (b_flight s) (b_cons s) (b_dead s) (b_calls s) (b_pubs s) (S (b_next s)) (BRoute p (b_next s) q :: b_log s)) p body) as (-> & -> & -> & ->). Qed.
Lemma publish_frame : forall s m n body qs, b_calls (publish s m n body qs) = b_calls s /\ b_dead (publish s m n body qs) = b_dead s /\ b_exch (publish s m n body qs) = b_exch s /\ b_map (publish s m n body qs) = b_map s.
Proof. intros. unfold publish. match goal with |- context [route ?t ?p ?b ?l] => destruct (route_frame l t p b) as (-> & -> & -> & ->) end. auto. Qed.

(** An operation leaves the calls alone or closes the caller's connection. *)
Lemma op_calls : forall s c o, (b_calls (do_op s c o) = b_calls s /\ b_dead (do_op s c o) = b_dead s) \/
  (b_calls (do_op s c o) = filter (fun p => negb (Nat.eqb (fst p) c)) (b_calls s) /\ b_dead (do_op s c o) = c :: b_dead s).
Proof.
  intros s c o. destruct o as [n|n|n|n|n|m n body|n]; cbn [do_op]; auto.
  - destruct (lookup n (b_map s)); auto.
  - destruct (has n (b_exch s)); [|auto]. destruct (lookup n (b_map s)); auto.
  - destruct (lookup n (b_map s)); auto.
  - destruct m.
    + destruct (publish_frame s Single n body (match lookup n (b_map s) with Some q => [q] | None => [] end)) as (-> & -> & _). auto.
    + destruct (has n (b_exch s)).
      * destruct (publish_frame s Broadcast n body (bound s n)) as (-> & -> & _). auto.
      * destruct (publish_frame s Broadcast n body []) as (P1 & P2 & _). right. cbn [close b_calls b_dead]. now rewrite P1, P2.
  - destruct (lookup n (b_map s)); auto.
Qed.
Lemma op_name : forall s c o n, o <> OQueue n -> lookup n (b_map s) = None -> lookup n (b_map (do_op s c o)) = None.
Proof.
  intros s c o n NQ L. destruct o as [m|m|m|m|m|md m body|m]; cbn [do_op]; auto.
  - destruct (lookup m (b_map s)); [exact L|]. cbn. destruct (Nat.eqb_spec m n); [congruence|exact L].
  - destruct (has m (b_exch s)); [|exact L]. destruct (lookup m (b_map s)); exact L.
  - destruct (lookup m (b_map s)); [|exact L]. cbn. destruct (Nat.eq_dec n m) as [->|D]; [apply lookup_remove_same|now rewrite lookup_remove_other].
  - destruct md.
    + destruct (publish_frame s Single m body (match lookup m (b_map s) with Some q => [q] | None => [] end)) as (_ & _ & _ & ->). exact L.
    + destruct (has m (b_exch s)).
      * destruct (publish_frame s Broadcast m body (bound s m)) as (_ & _ & _ & ->). exact L.
      * destruct (publish_frame s Broadcast m body []) as (_ & _ & _ & P). cbn [close b_map b_exch]. now rewrite P.
  - destruct (lookup m (b_map s)); exact L.
Qed.
Lemma op_exch : forall s c o n, o <> OExchange n -> ~ In n (b_exch s) -> ~ In n (b_exch (do_op s c o)).
Proof.
  intros s c o n NQ L. destruct o as [m|m|m|m|m|md m body|m]; cbn [do_op]; auto.
  - cbn. destruct (has m (b_exch s)); [exact L|]. intros [->|I]; [congruence|auto].
  - destruct (lookup m (b_map s)); exact L.
  - destruct (has m (b_exch s)); [|exact L]. destruct (lookup m (b_map s)); exact L.
  - destruct (lookup m (b_map s)); exact L.
  - cbn. intros I. apply filter_In in I. tauto.
  - destruct md.
    + destruct (publish_frame s Single m body (match lookup m (b_map s) with Some q => [q] | None => [] end)) as (_ & _ & -> & _). exact L.
    + destruct (has m (b_exch s)).
      * destruct (publish_frame s Broadcast m body (bound s m)) as (_ & _ & -> & _). exact L.
      * destruct (publish_frame s Broadcast m body []) as (_ & _ & P & _). cbn [close b_map b_exch]. now rewrite P.
  - destruct (lookup m (b_map s)); exact L.
Qed.

(** The call that will run operation [o] is under way, its connection is closed, or [P] holds by now. *)
Definition awaited (c : nat) (o : bop) (P : broker -> Prop) (s : broker) : Prop :=
  In c (b_dead s) \/ (exists ops, In (c, ops) (b_calls s) /\ In o ops) \/ P s.
Definition quiet_calls (n : nat) (s : broker) : Prop := forall c ops, In (c, ops) (b_calls s) -> undeclared n ops.

Lemma in_close_calls : forall c' p (l : list (nat * list bop)), In p (filter (fun p => negb (Nat.eqb (fst p) c')) l) <-> In p l /\ fst p <> c'.
Proof. intros. rewrite filter_In. split; intros [A B]; (split; [exact A|]); [apply negb_true_iff, Nat.eqb_neq in B; exact B|apply negb_true_iff, Nat.eqb_neq; exact B]. Qed.

Lemma quiet_step : forall n s e s', quiet_calls n s -> (forall c ops, e = ECall c ops -> undeclared n ops) -> stp s e = Some s' -> quiet_calls n s'.
Proof.
  intros n s e s' Q NE H. destruct e as [c ops|i|k|k|k|id|id|c|m]; cbn in H; brk H; injection H as <-; try exact Q.
  - intros c' ops' I. cbn in I. apply in_app_or in I. destruct I as [I|[I|[]]]; [eauto|]. injection I as <- <-. eauto.
  - rename n0 into c', b into o, l0 into ops. pose proof (nth_error_In _ _ M) as J.
    assert (U : forall c1 ops1, In (c1, ops1) (upd i (c', ops) (b_calls s)) -> undeclared n ops1).
    { intros c1 ops1 I. apply nth_In_upd in I. destruct I as [I|I]; [|eauto]. injection I as -> ->. intros o1 I1. apply (Q _ _ J). now right. }
    intros c1 ops1 I. match type of I with context [do_op ?t _ _] => destruct (op_calls t c' o) as [[E _]|[E _]]; rewrite E in I; cbn [b_calls] in I end.
    + eauto.
    + apply in_close_calls in I. eapply U. apply I.
  - intros c1 ops1 I. cbn in I. apply in_close_calls in I. eapply Q. apply I.
Qed.

Lemma awaited_step : forall c o (P : broker -> Prop) n s e s',
  (forall t c1 o1, o1 <> OQueue n -> o1 <> OExchange n -> P t -> P (do_op t c1 o1)) -> (forall t, P (do_op t c o)) ->
  (forall t t', b_map t' = b_map t -> b_exch t' = b_exch t -> P t -> P t') -> (forall t m q, P t -> P (gone t m q)) ->
  quiet_calls n s -> awaited c o P s -> stp s e = Some s' -> awaited c o P s'.
Proof.
  intros c o P n s e s' PO PD PF PG Q W H. destruct e as [c' ops|i|k|k|k|id|id|c'|m]; cbn in H; brk H; injection H as <-;
    try (destruct W as [W|[W|W]]; [left; exact W|right; left; exact W|right; right; revert W; apply PF; reflexivity]).
  - destruct W as [W|[(ops' & W & X)|W]]; [left; exact W|right; left|right; right; revert W; apply PF; reflexivity].
    exists ops'. split; [|exact X]. cbn. apply in_or_app. now left.
  - rename n0 into c', b into o', l0 into ops. pose proof (nth_error_In _ _ M) as J. pose proof (Q _ _ J o' (or_introl eq_refl)) as [NQ NX].
    remember (mkB (b_map s) (b_made s) (b_exch s) (b_bind s) (b_ready s) (b_flight s) (b_cons s) (b_dead s) (upd i (c', ops) (b_calls s)) (b_pubs s) (b_next s) (b_log s)) as t eqn:T.
    assert (TC : b_calls t = upd i (c', ops) (b_calls s)) by (now subst t). assert (TD : b_dead t = b_dead s) by (now subst t).
    assert (TM : b_map t = b_map s) by (now subst t). assert (TX : b_exch t = b_exch s) by (now subst t). clear T.
    destruct W as [W|[(ops1 & W & X)|W]].
    + left. destruct (op_calls t c' o') as [[_ E]|[_ E]]; rewrite E, TD; [exact W|now right].
    + assert (Y : (exists ops2, In (c, ops2) (b_calls t) /\ In o ops2) \/ (c' = c /\ o' = o)).
      { apply In_nth_error in W. destruct W as (j & W). destruct (Nat.eq_dec j i) as [->|D].
        - rewrite M in W. injection W as -> <-. destruct X as [->|X]; [now right|]. left. exists ops. split; [|exact X]. rewrite TC. apply nth_error_In with i. apply upd_nth_same. apply nth_error_Some. congruence.
        - left. exists ops1. split; [|exact X]. rewrite TC. apply nth_error_In with j. rewrite upd_nth_other; auto. }
      destruct Y as [(ops2 & Y1 & Y2)|[-> ->]]; [|right; right; apply PD].
      destruct (op_calls t c' o') as [[E D]|[E D]].
      * right; left. exists ops2. rewrite E. auto.
      * destruct (Nat.eq_dec c c') as [->|NE]; [left; rewrite D; now left|]. right; left. exists ops2. split; [|exact Y2]. rewrite E. apply in_close_calls. auto.
    + right; right. apply PO; auto. now apply (PF s).
  - destruct W as [W|[(ops' & W & X)|W]].
    + left. cbn. now right.
    + destruct (Nat.eq_dec c c') as [->|NE]; [left; cbn; now left|]. right; left. exists ops'. split; [|exact X]. cbn. apply in_close_calls. auto.
    + right; right. revert W. apply PF; reflexivity.
  - destruct W as [W|[W|W]]; [left; exact W|right; left; exact W|right; right; now apply PG].
Qed.

Lemma awaited_run : forall c o (P : broker -> Prop) n tr s s',
  (forall t c1 o1, o1 <> OQueue n -> o1 <> OExchange n -> P t -> P (do_op t c1 o1)) -> (forall t, P (do_op t c o)) ->
  (forall t t', b_map t' = b_map t -> b_exch t' = b_exch t -> P t -> P t') -> (forall t m q, P t -> P (gone t m q)) ->
  quiet_calls n s -> (forall c' ops, In (ECall c' ops) tr -> undeclared n ops) -> awaited c o P s -> run_from stp s tr = Some s' -> awaited c o P s'.
Proof.
  intros c o P n tr. induction tr as [|e tr IH]; intros s s' PO PD PF PG Q NE W H; cbn [run_from] in H; [now injection H as <-|].
  destruct (stp s e) as [s1|] eqn:S1; [|discriminate]. apply (IH s1 s'); auto.
  - eapply quiet_step; eauto. intros c' ops ->. apply (NE c'). now left.
  - intros c' ops I. apply (NE c'). now right.
  - eapply awaited_step; eauto.
Qed.

(** ** A deleted queue *)
Lemma gone_state : forall s q, reach s -> In (BGone q) (b_log s) -> (forall n, lookup n (b_map s) <> Some q) /\ (forall m, ~ In (q, m) (b_ready s)).
Proof.
  intros s q R G. destruct (reach_inv' _ _ _ R) as (MI & _ & _). destruct (mi_gone _ MI _ G) as (_ & K). split.
  - intros n L. apply lookup_known in L. congruence.
  - intros m I. apply (mi_ready _ MI) in I. congruence.
Qed.

Definition idle (s : broker) : Prop := forall q x, In (BGone q) (b_log s) -> In x (b_cons s) -> k_q x = q -> k_live x = false.
Lemma idle_keep : forall s s' a, idle s -> b_log s' = a ++ b_log s -> (forall q, ~ In (BGone q) a) -> (forall x, In x (b_cons s') -> exists y, In y (b_cons s) /\ k_q y = k_q x /\ k_live y = k_live x) -> idle s'.
Proof.
  intros s s' a D L NG C q x G I K. rewrite L in G. apply in_app_or in G. destruct G as [G|G]; [now apply NG in G|].
  destruct (C x I) as (y & Y1 & Y2 & <-). apply (D q y G Y1). congruence.
Qed.
Lemma upd_cons : forall s k x b y, nth_error (b_cons s) k = Some x -> In y (upd k (awake b x) (b_cons s)) -> exists z, In z (b_cons s) /\ k_q z = k_q y /\ k_live z = k_live y.
Proof. intros s k x b y K I. apply nth_In_upd in I. destruct I as [->|I]; [|eauto]. exists x. split; [eapply nth_error_In; eauto|auto]. Qed.
Lemma idle_micro : forall s t, minv s -> idle s -> mic s t -> idle t.
Proof.
  intros s t MI D M. destruct M as [s s' C|s s' n C|s c|s n q L|s m n body qs Q|s c n q L|s k x a m b K|s k x a f b y K|s k x a f b K|s k x K|s k x K|s id a f b act].
  - apply core_eq in C. destruct C as (_ & _ & C & _ & _ & G). apply (idle_keep s s' []); auto. rewrite C. eauto.
  - apply core_eq in C. destruct C as (_ & _ & C & _ & _ & G). apply (idle_keep s s' []); auto. rewrite C. eauto.
  - intros q x G I K. cbn in G, I. destruct G as [G|G]; [discriminate|]. apply in_map_iff in I. destruct I as (y & <- & I). destruct (Nat.eqb (k_conn y) c); [reflexivity|eauto].
  - intros q' x G I K. cbn in G, I. apply in_map_iff in I. destruct I as (y & <- & I). destruct (Nat.eqb_spec (k_q y) q); [reflexivity|].
    destruct G as [G|G]; [congruence|eauto].
  - destruct Q as [->|(q & -> & _)]; unfold publish; cbn [route].
    + apply (idle_keep s _ [BPub (b_pubs s) n m body]); auto; [|cbn; eauto]. intros q [X|[]]. discriminate.
    + apply (idle_keep s _ [BRoute (b_pubs s) (b_next s) q; BPub (b_pubs s) n m body]); auto; [|cbn; eauto]. intros q' [X|[X|[]]]; discriminate.
  - intros q' x G I K. cbn in G, I. destruct G as [G|G]; [discriminate|]. apply in_app_or in I. destruct I as [I|[<-|[]]]; [eauto|]. cbn in K. subst q'.
    apply (mi_gone _ MI) in G. apply lookup_known in L. destruct G. congruence.
  - apply (idle_keep s _ [BGive (m_id m) k (k_conn x)]); auto; [intros q [X|[]]; discriminate|]. cbn. intros y. now apply upd_cons.
  - apply (idle_keep s _ [BYield k (m_pub (f_msg f)) y]); auto; [intros q [X|[]]; discriminate|]. cbn. eauto.
  - apply (idle_keep s _ []); auto. cbn. intros y. now apply upd_cons.
  - apply (idle_keep s _ []); auto. cbn. intros y. now apply upd_cons.
  - apply (idle_keep s _ []); auto. cbn. intros y. now apply upd_cons.
  - apply (idle_keep s _ [act]); auto; [intros q [X|[]]; subst act; destruct H2; discriminate|]. cbn. eauto.
Qed.
Lemma reach_idle : forall s, reach s -> idle s.
Proof.
  intros s (tr & R). enough (inv s /\ idle s) by tauto. revert R. apply (reach_inv decode qos (fun s => inv s /\ idle s)).
  - intros a b [I D] M. split; [eapply inv_micro; eauto|]. eapply idle_micro; eauto. apply I.
  - split; [apply inv_init|]. intros q x [].
Qed.

(** Once a queue is deleted, nothing is put in it or taken from it any more. *)
Theorem C69_gone_for_good : forall s l1 q l2, reach s -> b_log s = l1 ++ BGone q :: l2 -> forall a, In a l1 -> ~ touches (b_log s) q a.
Proof.
  intros s l1 q l2 R E a I T.
  assert (X : inv s /\ forall l1 q l2 a, b_log s = l1 ++ BGone q :: l2 -> In a l1 -> ~ touches (b_log s) q a); [|destruct X as [_ X]; exact (X _ _ _ _ E I T)].
  clear l1 q l2 a E I T. destruct R as (tr & R). revert R. apply (reach_inv decode qos (fun s => inv s /\ forall l1 q l2 a, b_log s = l1 ++ BGone q :: l2 -> In a l1 -> ~ touches (b_log s) q a)).
  2:{ split; [apply inv_init|]. intros [|? ?] ? ? ? E; discriminate. }
  clear s. intros s0 t [IV P] M. split; [eapply inv_micro; eauto|]. pose proof (inv_micro _ _ _ _ IV M) as IT.
  (* one new event at the front *)
  assert (Keep : forall (s s' : broker), inv s' -> (forall l1 q l2 a, b_log s = l1 ++ BGone q :: l2 -> In a l1 -> ~ touches (b_log s) q a) ->
     b_log s' = b_log s -> forall l1 q l2 a, b_log s' = l1 ++ BGone q :: l2 -> In a l1 -> ~ touches (b_log s') q a).
  { intros s s' _ P' L l1 q l2 a E. rewrite L in *. eauto. }
  assert (One : forall (l : list bact) b, (forall l1 q l2 a, l = l1 ++ BGone q :: l2 -> In a l1 -> ~ touches l q a) ->
     (forall q, In (BGone q) l -> ~ touches (b :: l) q b) ->
     (forall p id q, b = BRoute p id q -> (forall k c, ~ In (BGive id k c) l)) ->
     forall l1 q l2 a, b :: l = l1 ++ BGone q :: l2 -> In a l1 -> ~ touches (b :: l) q a).
  { intros l b P' B F l1 q l2 a E I T. destruct l1 as [|b' l1]; [destruct I|]. injection E as <- E. destruct I as [->|I].
    - apply (B q); [|exact T]. rewrite E. apply in_or_app. right. now left.
    - apply (P' l1 q l2 a E I). destruct a as [p0 n0 m0 b0|p0 id0 q0|k0 c0 q0|id0 k0 c0|k0 p0 x0|id0|id0|c0|q0]; cbn in T |- *; try exact T.
      destruct T as (p & [T|T]); [|now exists p]. exfalso. apply (F _ _ _ T k0 c0). rewrite E. apply in_or_app. now left. }
  destruct IV as (MI & NI & _).
  destruct M as [s s' C|s s' n C|s c|s n q L|s m n body qs Q|s c n q L|s k x a m b K LV RD|s k x a f b y K|s k x a f b K|s k x K|s k x K|s id a f b act FL ID AT AN].
  - apply core_eq in C. apply (Keep s s'); auto; apply C.
  - apply core_eq in C. apply (Keep s s'); auto; apply C.
  - cbn. apply One; [exact P|intros ? _ X; exact X|discriminate].
  - cbn. apply One; [exact P|intros ? _ X; exact X|discriminate].
  - destruct Q as [->|(q & -> & KN)]; unfold publish; cbn [route b_log].
    + apply One; [exact P|intros ? _ X; exact X|discriminate].
    + apply One; [apply One; [exact P|intros ? _ X; exact X|discriminate]| |].
      * cbn. intros q' [G|G] <-; [discriminate|]. apply (mi_gone _ MI) in G. destruct G. congruence.
      * intros p id q' X k c [G|G]; [discriminate|]. injection X as <- <- <-. destruct (ni_give _ NI _ _ _ G) as (p & q0 & G1 & _). apply (ni_route _ NI) in G1. lia.
  - cbn. apply One; [exact P| |discriminate]. cbn. intros q' G <-. apply (mi_gone _ MI) in G. apply lookup_known in L. destruct G. congruence.
  - cbn. apply One; [exact P| |discriminate]. cbn. intros q G (p & [T|T]); [discriminate|].
    assert (RI : In (k_q x, m) (b_ready s)) by (rewrite RD; apply in_or_app; right; now left). destruct (ni_ready _ NI _ _ RI) as (RT & _).
    destruct (ni_route1 _ NI _ _ _ _ _ _ T RT (or_intror eq_refl)) as (_ & _ & ->). apply (mi_gone _ MI) in G. apply (mi_ready _ MI) in RI. destruct G. congruence.
  - cbn. apply One; [exact P|intros ? _ X; exact X|discriminate].
  - cbn. exact P.
  - cbn. exact P.
  - cbn. exact P.
  - cbn. apply One; [exact P|intros q _ T; destruct AN as [-> | ->]; destruct T|]. intros p i q ->. destruct AN; discriminate.
Qed.

(** What happens to a name: its queue stays until it is deleted or expires. *)
Lemma name_kept : forall n q tr s s', kinv s -> lookup n (b_map s) = Some q -> run_from stp s tr = Some s' -> lookup n (b_map s') = Some q \/ In (BGone q) (b_log s').
Proof.
  intros n q tr s s' K L R.
  enough (kinv s' /\ (lookup n (b_map s') = Some q \/ In (BGone q) (b_log s'))) by tauto.
  apply (run_from_inv _ _ stp (fun s => kinv s /\ (lookup n (b_map s) = Some q \/ In (BGone q) (b_log s)))) with (tr := tr) (s := s); [|auto|exact R].
  clear. intros s e s' [K P] S1. split; [eapply kinv_step; eauto|]. apply step_micro in S1; [|exact K]. clear K. induction S1 as [s|s t u M _ IH]; [exact P|]. apply IH. clear IH u.
  destruct P as [P|P]; [|right; destruct (micro_log _ _ _ _ M) as (l & ->); apply in_or_app; now right].
  destruct M as [s s' C MM|s s' m C LN MM|s c|s m q' L|s md m body qs Q|s c m q' L|s k x a m b K LV RD|s k x a f b y K|s k x a f b K|s k x K|s k x K|s id a f b act FL ID AT AN]; try (left; exact P).
  - left. now rewrite MM.
  - left. rewrite MM. cbn. destruct (Nat.eqb_spec m n); [congruence|exact P].
  - cbn. destruct (Nat.eq_dec n m) as [->|D]; [right; left; congruence|]. left. now rewrite lookup_remove_other.
  - left. destruct (publish_bind s md m body qs) as [_ ->]. exact P.
Qed.

(** [delete_queue] of connection [c]: when it is over and the connection is still open, and nobody declares the name meanwhile, there is no
    queue and no exchange of that name. The queue that was there has been deleted with its messages, and its consumers get nothing more
    (C69_gone_for_good). *)
Theorem C69_deleted : forall s0 c n tr s, reach s0 -> run_from stp s0 (ECall c (delete_ops n) :: tr) = Some s ->
  quiet_calls n s0 -> (forall c' ops, In (ECall c' ops) tr -> undeclared n ops) ->
  (forall ops, In (c, ops) (b_calls s) -> ~ In (OQueueDelete n) ops /\ ~ In (OExchangeDelete n) ops) -> ~ In c (b_dead s) ->
  lookup n (b_map s) = None /\ ~ In n (b_exch s) /\
  forall q, lookup n (b_map s0) = Some q -> In (BGone q) (b_log s) /\ (forall m, ~ In (q, m) (b_ready s)) /\ (forall x, In x (b_cons s) -> k_q x = q -> k_live x = false).
Proof.
  intros s0 c n tr s R H Q NE OV AL. pose proof (reach_more _ _ _ _ _ R H) as RS. pose proof H as H0. cbn [run_from] in H0. destruct (stp s0 (ECall c (delete_ops n))) as [s1|] eqn:S1; [|discriminate].
  assert (Q1 : quiet_calls n s1). { eapply quiet_step; eauto. intros c' ops X. injection X as <- <-. intros o [<-|[<-|[]]]; split; discriminate. }
  assert (W : forall o, In o (delete_ops n) -> forall P, awaited c o P s1).
  { intros o I P. right; left. exists (delete_ops n). split; [|exact I]. cbn in S1. destruct (has c (b_dead s0)); [discriminate|]. injection S1 as <-. cbn. apply in_or_app. right. now left. }
  assert (L : lookup n (b_map s) = None).
  { assert (A : awaited c (OQueueDelete n) (fun t => lookup n (b_map t) = None) s).
    { apply (awaited_run c _ _ n tr s1 s); auto.
      - intros. now apply op_name.
      - intros t. cbn [do_op]. destruct (lookup n (b_map t)) eqn:L; [|exact L]. cbn. apply lookup_remove_same.
      - intros t t' -> _. auto.
      - intros t m q L. cbn. destruct (Nat.eq_dec n m) as [->|D]; [apply lookup_remove_same|now rewrite lookup_remove_other].
      - apply W. now left. }
    destruct A as [A|[(ops & A & B)|A]]; [tauto| |exact A]. apply OV in A. tauto. }
  split; [exact L|]. split.
  { assert (A : awaited c (OExchangeDelete n) (fun t => ~ In n (b_exch t)) s).
    { apply (awaited_run c _ _ n tr s1 s); auto.
      - intros. now apply op_exch.
      - intros t. cbn. rewrite filter_In. intros [_ X]. now rewrite Nat.eqb_refl in X.
      - intros t t' _ ->. auto.
      - apply W. right. now left. }
    destruct A as [A|[(ops & A & B)|A]]; [tauto| |exact A]. apply OV in A. tauto. }
  intros q LQ. destruct (name_kept n q _ s0 s (reach_k _ _ _ R) LQ H) as [X|X]; [congruence|]. split; [exact X|]. split; [now apply gone_state|].
  intros x I K. now apply (reach_idle _ RS q x).
Qed.

(** A name declared after that gets a queue that was never used before. *)
Theorem C69_declared_anew : forall s i c n ops s', reach s -> lookup n (b_map s) = None -> nth_error (b_calls s) i = Some (c, OQueue n :: ops) -> stp s (EOp i) = Some s' ->
  exists q, lookup n (b_map s') = Some q /\ (forall m, ~ In (q, m) (b_ready s')) /\ (forall p id, ~ In (BRoute p id q) (b_log s')) /\ ~ In (BGone q) (b_log s') /\
    (forall m, In (m, q) (b_map s') -> m = n).
Proof.
  intros s i c n ops s' R L K S1. destruct (reach_inv' _ _ _ R) as (MI & _ & _). cbn in S1. rewrite K in S1. cbn in S1. rewrite L in S1. injection S1 as <-. exists (b_made s). cbn.
  rewrite Nat.eqb_refl. split; [reflexivity|].
  assert (KN : forall q, known q s = true -> q < b_made s). { intros q X. apply known_spec in X. destruct X as (m & X). now apply (mi_lt _ MI) in X. }
  split; [|split; [|split]].
  - intros m I. apply (mi_ready _ MI) in I. apply KN in I. lia.
  - intros p id I. apply (mi_routed _ MI) in I. destruct I as [I|I]; [apply KN in I; lia|]. apply (mi_gone _ MI) in I. lia.
  - intros I. apply (mi_gone _ MI) in I. lia.
  - intros m [X|X]; [now injection X as <-|]. apply (mi_lt _ MI) in X. lia.
Qed.
(** A queue that somebody consumes from neither expires nor loses its name otherwise: without a deletion of the name, it is there as long as
    the consumer's connection is open. *)
Definition no_delete (n : nat) (ops : list bop) : Prop := ~ In (OQueueDelete n) ops.
Theorem C56_consumed_queue_stays : forall s0 n q k x tr s, reach s0 -> lookup n (b_map s0) = Some q -> nth_error (b_cons s0) k = Some x -> k_q x = q -> k_live x = true ->
  (forall c ops, In (c, ops) (b_calls s0) -> no_delete n ops) -> (forall c ops, In (ECall c ops) tr -> no_delete n ops) ->
  run_from stp s0 tr = Some s -> ~ In (BClose (k_conn x)) (b_log s) ->
  lookup n (b_map s) = Some q /\ exists y, nth_error (b_cons s) k = Some y /\ k_conn y = k_conn x /\ k_q y = q /\ k_live y = true.
Proof.
  intros s0 n q k x tr s R L K KQ LV Q NE H NC. set (c := k_conn x) in *.
  pose (P := fun t : broker => In (BClose c) (b_log t) \/ (lookup n (b_map t) = Some q /\ exists y, nth_error (b_cons t) k = Some y /\ k_conn y = c /\ k_q y = q /\ k_live y = true)).
  enough (P s) as [X|X]; [contradiction|exact X|].
  assert (P0 : P s0) by (right; split; [exact L|]; exists x; auto).
  clear L K LV NC. clearbody c. revert s0 R Q P0 H. induction tr as [|e tr IH]; intros s0 R Q P0 H; cbn [run_from] in H; [now injection H as <-|].
  destruct (stp s0 e) as [s1|] eqn:S1; [|discriminate]. apply (IH) with (s0 := s1); auto; clear IH H.
  - intros c' ops I. apply (NE c'). now right.
  - apply (reach_more _ _ s0 [e]); [exact R|]. cbn. now rewrite S1.
  - (* no deletion is under way *)
    destruct e as [c' ops|i|k'|k'|k'|id|id|c'|m]; cbn in S1; brk S1; injection S1 as <-; try exact Q.
    + intros c1 ops1 I. cbn in I. apply in_app_or in I. destruct I as [I|[I|[]]]; [eauto|]. injection I as <- <-. apply (NE c'). now left.
    + rename n0 into c', b into o, l0 into ops. pose proof (nth_error_In _ _ M) as J.
      assert (U : forall c1 ops1, In (c1, ops1) (upd i (c', ops) (b_calls s0)) -> no_delete n ops1).
      { intros c1 ops1 I. apply nth_In_upd in I. destruct I as [I|I]; [|eauto]. injection I as -> ->. intros X. apply (Q _ _ J). now right. }
      intros c1 ops1 I. match type of I with context [do_op ?t _ _] => destruct (op_calls t c' o) as [[E _]|[E _]]; rewrite E in I; cbn [b_calls] in I end.
      * eauto.
      * apply in_close_calls in I. eapply U. apply I.
    + intros c1 ops1 I. cbn in I. apply in_close_calls in I. eapply Q. apply I.
  - (* the queue and its consumer stay *)
    destruct P0 as [P0|(L & y & Y1 & Y2 & Y3 & Y4)].
    { left. destruct (run_log decode qos s0 [e] s1 (reach_k _ _ _ R)) as (l & ->); [cbn; now rewrite S1|]. apply in_or_app. now right. }
    destruct (reach_inv' _ _ _ R) as (MI & _ & _).
    assert (Gone : forall t m q', b_map t = b_map s0 -> b_cons t = b_cons s0 -> lookup m (b_map t) = Some q' -> m <> n -> P (gone t m q')).
    { intros t m q' E1 E2 LM NM. right. cbn. rewrite E1 in *. rewrite E2. split; [now rewrite lookup_remove_other by auto|].
      assert (q' <> q). { intros ->. apply NM. apply lookup_in in LM, L. pose proof (map_unique _ _ snd _ _ _ (mi_vals _ MI) LM L eq_refl) as X. congruence. }
      exists y. split; [|auto]. erewrite map_nth_error by exact Y1. destruct (Nat.eqb_spec (k_q y) q'); [congruence|reflexivity]. }
    assert (Close : forall t c', b_map t = b_map s0 -> b_cons t = b_cons s0 -> P (close t c')).
    { intros t c' E1 E2. destruct (Nat.eq_dec c' c) as [->|D]; [left; cbn; now left|]. right. cbn. rewrite E1, E2. split; [exact L|].
      exists y. split; [|auto]. erewrite map_nth_error by exact Y1. destruct (Nat.eqb_spec (k_conn y) c'); [congruence|reflexivity]. }
    assert (Same : forall t, b_map t = b_map s0 -> b_cons t = b_cons s0 -> P t).
    { intros t E1 E2. right. rewrite E1, E2. split; [exact L|]. exists y. auto. }
    assert (Upd : forall t k' z b, nth_error (b_cons s0) k' = Some z -> b_map t = b_map s0 -> b_cons t = upd k' (awake b z) (b_cons s0) -> P t).
    { intros t k' z b K' E1 E2. right. rewrite E1, E2. split; [exact L|]. destruct (Nat.eq_dec k k') as [->|D].
      - exists (awake b z). assert (z = y) as -> by congruence. split; [|auto]. apply upd_nth_same. apply nth_error_Some. congruence.
      - exists y. rewrite upd_nth_other; auto. }
    destruct e as [c' ops|i|k'|k'|k'|id|id|c'|m]; cbn in S1; brk S1; injection S1 as <-; auto.
    + rename n0 into c', b into o, l0 into ops. pose proof (nth_error_In _ _ M) as J.
      match goal with |- P (do_op ?t _ _) => assert (E1 : b_map t = b_map s0) by reflexivity; assert (E2 : b_cons t = b_cons s0) by reflexivity; revert E1 E2; generalize t end.
      intros t E1 E2. destruct o as [m|m|m|m|m|md m body|m]; cbn [do_op].
      * now apply Same.
      * destruct (lookup m (b_map t)) eqn:LM; [now apply Same|]. right. cbn. rewrite E1, E2. split; [|exists y; auto]. destruct (Nat.eqb_spec m n); [congruence|exact L].
      * destruct (has m (b_exch t)); [|now apply Close]. destruct (lookup m (b_map t)); [now apply Same|now apply Close].
      * destruct (lookup m (b_map t)) eqn:LM; [|now apply Same]. apply Gone; auto. intros ->. apply (Q _ _ J). now left.
      * now apply Same.
      * assert (PF : forall qs, b_map (publish t md m body qs) = b_map s0 /\ b_cons (publish t md m body qs) = b_cons s0).
        { intros qs. unfold publish. assert (G : forall qs u p, b_map (route u p body qs) = b_map u /\ b_cons (route u p body qs) = b_cons u).
          { clear. induction qs as [|a qs IH]; intros u p; cbn [route]; [auto|]. now match goal with |- context [route ?v] => destruct (IH v p) as [-> ->] end. }
          match goal with |- context [route ?v ?p] => destruct (G qs v p) as [-> ->] end. auto. }
        destruct md; [apply Same; apply PF|]. destruct (has m (b_exch t)); [apply Same|apply Close]; apply PF.
      * destruct (lookup m (b_map t)) as [q'|]; [|now apply Close]. right. cbn. rewrite E1, E2. split; [exact L|]. exists y. split; [|auto].
        rewrite nth_error_app1; [exact Y1|]. apply nth_error_Some. congruence.
    + eapply Upd; eauto; reflexivity.
    + eapply Upd; eauto; reflexivity.
    + eapply Upd; eauto; reflexivity.
    + eapply Upd; eauto; reflexivity.
    + destruct (Nat.eq_dec m n) as [->|D]; [|apply Gone; auto]. exfalso. rewrite L in M. injection M as <-.
      apply not_true_iff_false in M0. apply M0, existsb_exists. exists y. split; [eapply nth_error_In; eauto|]. rewrite Y4, Y3. cbn. apply Nat.eqb_refl.
Qed.
End Delete.

(** A receiver holds message 5 of queue 7, and 6 waits there, when the queue is deleted: its answer to 5 has no effect, 6 is lost. *)
Definition delete_run : list b_event :=
  [ECall 0 (receiver_ops Single 7); EOp 0; EOp 0; ECall 1 (declare_ops Single 7); EOp 1; ECall 1 (publish_ops Single 7 5); EOp 2; ECall 1 (publish_ops Single 7 6); EOp 3;
   EDeliver 0; EPoll 0].
Example C69_example : exists s0 s, run_from (b_step ok (prefetch 1)) b_init delete_run = Some s0 /\
  run_from (b_step ok (prefetch 1)) s0 (ECall 0 (delete_ops 7) :: [EOp 4; EAck 0; EOp 4]) = Some s /\
  quiet_calls 7 s0 /\ lookup 7 (b_map s0) = Some 0 /\ map (fun p => m_body (snd p)) (b_ready s0) = [6] /\
  b_calls s = [(0, []); (1, []); (1, []); (1, []); (0, [])] /\ b_dead s = [] /\ b_map s = [] /\ b_ready s = [] /\ map k_live (b_cons s) = [false].
Proof.
  eexists. eexists. split; [vm_compute; reflexivity|]. split; [vm_compute; reflexivity|]. split.
  - intros c ops I. cbn in I. repeat (destruct I as [I|I]; [injection I as <- <-; intros o []|]). destruct I.
  - repeat (split; [reflexivity|]). reflexivity.
Qed.
(** A worker that declares its sender after the release brings the queue back, as in memory (C41_gone_refuted); nobody reads its result, and
    the queue is there until it expires. *)
Example C69_late_result : exists s, run_from (b_step ok (prefetch 1)) b_init
    [ECall 0 (receiver_ops Single 7); EOp 0; EOp 0; ECall 0 (delete_ops 7); EOp 1; EOp 1; ECall 1 (declare_ops Single 7); EOp 2; ECall 1 (publish_ops Single 7 5); EOp 3] = Some s /\
  b_map s = [(7, 1)] /\ map (fun p => m_body (snd p)) (b_ready s) = [5] /\ map k_live (b_cons s) = [false] /\
  option_map b_map (b_step ok (prefetch 1) s (EExpire 7)) = Some [].
Proof. eexists. split; [vm_compute; reflexivity|]. repeat (split; [reflexivity|]). reflexivity. Qed.

Example C56_consumed_example : exists s, run_from (b_step ok (prefetch 1)) b_init delete_run = Some s /\
  (lookup 7 (b_map s) = Some 0 /\ exists x, nth_error (b_cons s) 0 = Some x /\ k_q x = 0 /\ k_live x = true) /\
  b_step ok (prefetch 1) s (EExpire 7) = None /\ option_map b_map (run_from (b_step ok (prefetch 1)) s [ECrash 0; EExpire 7]) = Some [].
Proof.
  eexists. split; [vm_compute; reflexivity|]. split; [|split; vm_compute; reflexivity]. split; [reflexivity|]. eexists. split; [reflexivity|]. split; reflexivity.
Qed.
Print Assumptions C56_consumed_queue_stays.
Print Assumptions C69_gone_for_good.
Print Assumptions C69_deleted.
Print Assumptions C69_declared_anew.
