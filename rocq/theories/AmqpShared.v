(** C71: the channel of a connection, which all its clones share (paladin-core/src/queue/amqp.rs:154-162), is not closed by the crate's own calls. *)
From Coq Require Import List Arith Bool Lia.
From Verif Require Import Base BaseFacts ConnModel ConnProps AmqpModel AmqpSpec AmqpProofs AmqpInv AmqpProps AmqpDelete.
Import ListNotations.

(** What the holder of a queue handle does: declare the queue, then publish to it and consume from it (paladin-core/src/channel/queue.rs:174-196). *)
Definition session (ops : list bop) : Prop := exists m n uses, ops = declare_ops m n ++ uses /\ forall o, In o uses -> o = OConsume n \/ exists body, o = OPublish m n body.
Definition deletion (ops : list bop) : Prop := exists n, ops = delete_ops n.
(** Events with no call but sessions, and no queue going away. *)
Definition peaceful (e : b_event) : Prop := match e with ECall _ ops => session ops | EExpire _ => False | _ => True end.
Definition ordinary (e : b_event) : Prop := match e with ECall _ ops => session ops \/ deletion ops | EExpire _ | ECrash _ => False | _ => True end.
(** Connection [c] only sends, and deletes: what a leader's or a worker's senders and [release] do. *)
Definition sends (o : bop) : Prop := match o with OBind _ | OConsume _ | OPublish Broadcast _ _ => False | _ => True end.
Definition only_sends (c : nat) (e : b_event) : Prop := match e with ECall c' ops => c' = c -> Forall sends ops | _ => True end.

Fixpoint safe (E Q : nat -> Prop) (ops : list bop) : Prop :=
  match ops with
  | [] => True
  | OExchange n :: r => safe (fun k => E k \/ k = n) Q r
  | OQueue n :: r => safe E (fun k => Q k \/ k = n) r
  | OBind n :: r => E n /\ Q n /\ safe E Q r
  | OPublish Broadcast n _ :: r => E n /\ safe E Q r
  | OPublish Single _ _ :: r => safe E Q r
  | OConsume n :: r => Q n /\ safe E Q r
  | OQueueDelete _ :: _ | OExchangeDelete _ :: _ => False
  end.
Lemma safe_mono : forall ops (E E' Q Q' : nat -> Prop), (forall k, E k -> E' k) -> (forall k, Q k -> Q' k) -> safe E Q ops -> safe E' Q' ops.
Proof.
  induction ops as [|o r IH]; intros E E' Q Q' HE HQ H; [exact Logic.I|].
  destruct o as [n|n|n|n|n|[|] n body|n]; cbn [safe] in *; try (now destruct H).
  - revert H. apply IH; [intros k [A|A]; auto|auto].
  - revert H. apply IH; [auto|intros k [A|A]; auto].
  - destruct H as (A & B & C). split; [auto|]. split; [auto|]. revert C. now apply IH.
  - revert H. now apply IH.
  - destruct H as (A & C). split; [auto|]. revert C. now apply IH.
  - destruct H as (A & C). split; [auto|]. revert C. now apply IH.
Qed.
Lemma session_safe : forall ops, session ops -> forall E Q : nat -> Prop, safe E Q ops.
Proof.
  intros ops (m & n & uses & -> & U) E Q.
  assert (G : forall E Q : nat -> Prop, (m = Broadcast -> E n) -> Q n -> safe E Q uses).
  { clear E Q. induction uses as [|o r IH]; intros E Q HE HQ; [exact Logic.I|].
    assert (R : safe E Q r) by (apply IH; [intros x X; apply U; now right|exact HE|exact HQ]).
    destruct (U o (or_introl eq_refl)) as [-> | (body & ->)]; cbn [safe]; [auto|]. destruct m; cbn [safe]; auto. }
  destruct m; cbn [declare_ops app safe].
  - apply G; [discriminate|auto].
  - split; [auto|]. split; [auto|]. apply G; auto.
Qed.

Section Shared.
Variable decode : nat -> option nat.
Variable qos : nat -> nat.
Local Notation stp := (b_step decode qos).

Definition exq (s : broker) (n : nat) : Prop := has n (b_exch s) = true.
Definition quq (s : broker) (n : nat) : Prop := lookup n (b_map s) <> None.
Definition calls_safe (s : broker) : Prop := forall c ops, In (c, ops) (b_calls s) -> safe (exq s) (quq s) ops.

Lemma route_log : forall qs s p body c, In (BClose c) (b_log (route s p body qs)) -> In (BClose c) (b_log s).
Proof. induction qs as [|q qs IH]; intros s p body c H; cbn [route] in H; [exact H|]. apply IH in H. cbn in H. destruct H as [H|H]; [discriminate|exact H]. Qed.
Lemma publish_log : forall s m n body qs c, In (BClose c) (b_log (publish s m n body qs)) -> In (BClose c) (b_log s).
Proof. intros s m n body qs c H. unfold publish in H. apply route_log in H. cbn in H. destruct H as [H|H]; [discriminate|exact H]. Qed.

(** An operation that is safe closes nothing and removes nothing. *)
Lemma op_safe : forall s c o r, safe (exq s) (quq s) (o :: r) -> b_calls (do_op s c o) = b_calls s /\
  (forall k, exq s k -> exq (do_op s c o) k) /\ (forall k, quq s k -> quq (do_op s c o) k) /\ safe (exq (do_op s c o)) (quq (do_op s c o)) r /\
  forall x, In (BClose x) (b_log (do_op s c o)) -> In (BClose x) (b_log s).
Proof.
  intros s c o r H. destruct o as [n|n|n|n|n|[|] n body|n]; cbn [safe] in H; try (now destruct H).
  - cbn [do_op]. assert (X : forall k, exq s k \/ k = n -> exq (do_op s c (OExchange n)) k).
    { intros k K. unfold exq. cbn [do_op b_exch]. destruct (has n (b_exch s)) eqn:HN.
      - destruct K as [K | ->]; [exact K|exact HN].
      - unfold has. cbn [existsb]. destruct K as [K | ->]; [rewrite K; apply orb_true_r|now rewrite Nat.eqb_refl]. }
    split; [reflexivity|]. split; [intros k K; apply (X k); auto|]. split; [auto|]. split; [|auto].
    revert H. apply safe_mono; [exact X|auto].
  - assert (X : forall k, quq s k \/ k = n -> quq (do_op s c (OQueue n)) k).
    { intros k K. unfold quq. cbn [do_op]. destruct (lookup n (b_map s)) eqn:HN.
      - destruct K as [K | ->]; [exact K|rewrite HN; discriminate].
      - cbn [b_map lookup]. destruct (Nat.eqb_spec n k); [discriminate|]. destruct K as [K | ->]; [exact K|congruence]. }
    split; [cbn [do_op]; destruct (lookup n (b_map s)); reflexivity|]. split; [intros k K; unfold exq; cbn [do_op]; destruct (lookup n (b_map s)); exact K|].
    split; [intros k K; apply X; auto|]. split; [|intros x; cbn [do_op]; destruct (lookup n (b_map s)); auto].
    revert H. apply safe_mono; [|exact X]. intros k K. unfold exq. cbn [do_op]. destruct (lookup n (b_map s)); exact K.
  - destruct H as (A & B & R). unfold exq in A. unfold quq in B. cbn [do_op]. rewrite A. destruct (lookup n (b_map s)) as [q|] eqn:HN; [|congruence].
    split; [reflexivity|]. split; [auto|]. split; [auto|]. split; [exact R|auto].
  - cbn [do_op]. match goal with |- context [publish s Single n body ?l] => set (qs := l) end. destruct (publish_frame s Single n body qs) as (P1 & _ & P3 & P4).
    unfold exq, quq. rewrite P1, P3, P4. split; [reflexivity|]. split; [auto|]. split; [auto|]. split; [exact H|]. intros x. apply publish_log.
  - destruct H as (A & R). cbn [do_op]. unfold exq in A. rewrite A. destruct (publish_frame s Broadcast n body (bound s n)) as (P1 & _ & P3 & P4).
    unfold exq, quq. rewrite P1, P3, P4. split; [reflexivity|]. split; [auto|]. split; [auto|]. split; [exact R|]. intros x. apply publish_log.
  - destruct H as (A & R). unfold quq in A. cbn [do_op]. destruct (lookup n (b_map s)) as [q|] eqn:HN; [|congruence].
    split; [reflexivity|]. split; [auto|]. split; [auto|]. split; [exact R|]. intros x X. cbn in X. destruct X as [X|X]; [discriminate|exact X].
Qed.

Ltac brk H :=
  repeat match type of H with
  | match ?x with _ => _ end = _ => let E := fresh "M" in destruct x eqn:E; try discriminate H
  | (if ?x then _ else _) = _ => let E := fresh "M" in destruct x eqn:E; try discriminate H
  | (let (_, _) := ?x in _) = _ => let E := fresh "M" in destruct x eqn:E; try discriminate H
  end.

Lemma peace_step : forall s e s', calls_safe s -> peaceful e -> stp s e = Some s' ->
  calls_safe s' /\ forall c, In (BClose c) (b_log s') -> In (BClose c) (b_log s) \/ e = ECrash c.
Proof.
  intros s e s' I P H. destruct e as [c ops|i|k|k|k|id|id|c|n]; cbn [b_step] in H.
  - destruct (has c (b_dead s)); [discriminate|]. injection H as <-. split; [|auto]. intros c0 ops0 H. cbn [b_calls] in H. apply in_app_or in H.
    destruct H as [H|[H|[]]]; [exact (I _ _ H)|]. injection H as <- <-. now apply session_safe.
  - destruct (nth_error (b_calls s) i) as [[c [|o ops]]|] eqn:N; try discriminate. injection H as <-.
    match goal with |- context [do_op ?t c o] => set (s1 := t) end. assert (S1 : safe (exq s1) (quq s1) (o :: ops)) by exact (I _ _ (nth_error_In _ _ N)).
    destruct (op_safe s1 c o ops S1) as (C & X & Y & R & L). split; [|intros x H; left; exact (L x H)].
    intros c0 ops0 H. rewrite C in H. cbn [s1 b_calls] in H. apply In_nth_error in H. destruct H as (j & H). destruct (Nat.eq_dec j i) as [->|D].
    + rewrite upd_nth_same in H by (apply nth_error_Some; congruence). injection H as <- <-. exact R.
    + rewrite upd_nth_other in H by auto. apply nth_error_In in H. generalize (I _ _ H). apply safe_mono; [exact X|exact Y].
  - brk H. injection H as <-. split; [exact I|]. intros c [X|X]; [discriminate|auto].
  - brk H; injection H as <-; (split; [exact I|]); intros c X; cbn in X; [destruct X as [X|X]; [discriminate|auto]|auto|auto].
  - brk H. injection H as <-. split; [exact I|]. auto.
  - brk H. injection H as <-. split; [exact I|]. intros c [X|X]; [discriminate|auto].
  - brk H. injection H as <-. split; [exact I|]. intros c [X|X]; [discriminate|auto].
  - destruct (has c (b_dead s)); [discriminate|]. injection H as <-. split.
    + intros c0 ops0 X. cbn [close b_calls] in X. apply filter_In in X. exact (I _ _ (proj1 X)).
    + intros c0 X. cbn [close b_log] in X. destruct X as [X|X]; [injection X as ->; auto|auto].
  - destruct P.
Qed.

(** C71, as far as it holds: as long as no queue is deleted and none expires, a connection's channel closes only when the connection is lost.
    Missing to the full statement: deletions and expiries, with which it is false. *)
Theorem C71_no_deletion_partial : forall tr s, Forall peaceful tr -> run_from stp b_init tr = Some s -> forall c, In (BClose c) (b_log s) -> In (ECrash c) tr.
Proof.
  intros tr s P R c C.
  assert (G : forall tr s0, calls_safe s0 -> Forall peaceful tr -> run_from stp s0 tr = Some s -> In (BClose c) (b_log s0) \/ In (ECrash c) tr).
  { clear tr P R. induction tr as [|e tr IH]; intros s0 I P R; cbn [run_from] in R; [injection R as ->; auto|].
    destruct (stp s0 e) as [s1|] eqn:E; [|discriminate]. inversion P as [|? ? P1 P2]; subst. destruct (peace_step _ _ _ I P1 E) as (I1 & L).
    destruct (IH s1 I1 P2 R) as [X|X]; [|right; now right]. destruct (L c X) as [Y | ->]; [auto|right; now left]. }
  destruct (G tr b_init) as [X|X]; [intros ? ? []|exact P|exact R|destruct X|exact X].
Qed.

(** Connections that only send. *)
Definition calls_send (c : nat) (s : broker) : Prop := forall ops, In (c, ops) (b_calls s) -> Forall sends ops.
Lemma close_log : forall s c x, In (BClose x) (b_log (close s c)) -> x = c \/ In (BClose x) (b_log s).
Proof. intros s c x [X|X]; [injection X as ->; auto|auto]. Qed.
Lemma op_close : forall s c o x, In (BClose x) (b_log (do_op s c o)) -> In (BClose x) (b_log s) \/ (x = c /\ ~ sends o).
Proof.
  intros s c o x H. destruct o as [n|n|n|n|n|[|] n body|n]; cbn [do_op] in H.
  - auto.
  - destruct (lookup n (b_map s)); auto.
  - destruct (has n (b_exch s)), (lookup n (b_map s)); try (apply close_log in H; destruct H as [-> | H]; auto). auto.
  - destruct (lookup n (b_map s)); [|auto]. cbn in H. destruct H as [H|H]; [discriminate|auto].
  - auto.
  - apply publish_log in H. auto.
  - destruct (has n (b_exch s)); [apply publish_log in H; auto|]. apply close_log in H. destruct H as [-> | H]; [auto|]. apply publish_log in H. auto.
  - destruct (lookup n (b_map s)); [cbn in H; destruct H as [H|H]; [discriminate|auto]|]. apply close_log in H. destruct H as [-> | H]; auto.
Qed.
Lemma send_step : forall c s e s', calls_send c s -> only_sends c e -> stp s e = Some s' ->
  calls_send c s' /\ (In (BClose c) (b_log s') -> In (BClose c) (b_log s) \/ e = ECrash c).
Proof.
  intros c s e s' I P H. destruct e as [c1 ops|i|k|k|k|id|id|c1|n]; cbn [b_step] in H.
  - destruct (has c1 (b_dead s)); [discriminate|]. injection H as <-. split; [|auto]. intros ops0 H. cbn [b_calls] in H. apply in_app_or in H.
    destruct H as [H|[H|[]]]; [exact (I _ H)|]. injection H as -> <-. now apply P.
  - destruct (nth_error (b_calls s) i) as [[c1 [|o ops]]|] eqn:N; try discriminate. injection H as <-.
    match goal with |- context [do_op ?t c1 o] => set (s1 := t) end. split.
    + intros ops0 H. assert (X : In (c, ops0) (b_calls s1)).
      { destruct (op_calls s1 c1 o) as [[C _]|[C _]]; rewrite C in H; [exact H|]. apply filter_In in H. exact (proj1 H). }
      cbn [s1 b_calls] in X. apply In_nth_error in X. destruct X as (j & X). destruct (Nat.eq_dec j i) as [->|D].
      * rewrite upd_nth_same in X by (apply nth_error_Some; congruence). injection X as -> <-. pose proof (I _ (nth_error_In _ _ N)) as F. now inversion F.
      * rewrite upd_nth_other in X by auto. exact (I _ (nth_error_In _ _ X)).
    + intros H. apply op_close in H. destruct H as [H|[<- NS]]; [left; exact H|]. exfalso. apply NS. pose proof (I _ (nth_error_In _ _ N)) as F. now inversion F.
  - brk H. injection H as <-. split; [exact I|]. intros [X|X]; [discriminate|auto].
  - brk H; injection H as <-; (split; [exact I|]); intros X; cbn in X; [destruct X as [X|X]; [discriminate|auto]|auto|auto].
  - brk H. injection H as <-. split; [exact I|]. auto.
  - brk H. injection H as <-. split; [exact I|]. intros [X|X]; [discriminate|auto].
  - brk H. injection H as <-. split; [exact I|]. intros [X|X]; [discriminate|auto].
  - destruct (has c1 (b_dead s)); [discriminate|]. injection H as <-. split.
    + intros ops0 X. cbn [close b_calls] in X. apply filter_In in X. exact (I _ (proj1 X)).
    + intros X. apply close_log in X. destruct X as [-> | X]; auto.
  - brk H. injection H as <-. split; [exact I|]. intros [X|X]; [discriminate|auto].
Qed.
(** A connection that only declares single-consumer queues, publishes to them and deletes never closes its channel, whatever others do. Missing to
    the full statement: receivers and broadcast queues. *)
Theorem C71_senders_partial : forall c tr s, Forall (only_sends c) tr -> run_from stp b_init tr = Some s -> In (BClose c) (b_log s) -> In (ECrash c) tr.
Proof.
  intros c tr s P R C.
  assert (G : forall tr s0, calls_send c s0 -> Forall (only_sends c) tr -> run_from stp s0 tr = Some s -> In (BClose c) (b_log s0) \/ In (ECrash c) tr).
  { clear tr P R. induction tr as [|e tr IH]; intros s0 I P R; cbn [run_from] in R; [injection R as ->; auto|].
    destruct (stp s0 e) as [s1|] eqn:E; [|discriminate]. inversion P as [|? ? P1 P2]; subst. destruct (send_step _ _ _ _ I P1 E) as (I1 & L).
    destruct (IH s1 I1 P2 R) as [X|X]; [|right; now right]. destruct (L X) as [Y | ->]; [auto|right; now left]. }
  destruct (G tr b_init) as [X|X]; [intros ? []|exact P|exact R|destruct X|exact X].
Qed.
End Shared.

(** C71 is false: connection 0 consumes from queue 7; it also declares the broadcast queue 3, which connection 1 deletes between two operations of the
    declaration. The binding fails, the broker closes the channel, and the consumer of queue 7, which has nothing to do with it, is gone. *)
Definition race : list b_event :=
  [ECall 0 (receiver_ops Single 7); EOp 0; EOp 0; ECall 0 (declare_ops Broadcast 3); EOp 1; EOp 1; ECall 1 (delete_ops 3); EOp 2; EOp 2; EOp 1].
Theorem C71_refuted : exists tr s, Forall ordinary tr /\ run_from (b_step ok (prefetch 1)) b_init tr = Some s /\
  In (BClose 0) (b_log s) /\ In (BCons 0 0 0) (b_log s) /\ lookup 7 (b_map s) = Some 0 /\ (exists x, nth_error (b_cons s) 0 = Some x /\ k_live x = false) /\
  b_step ok (prefetch 1) s (ECall 0 (declare_ops Single 9)) = None.
Proof.
  exists race. eexists. split; [|split; [vm_compute; reflexivity|]].
  - repeat (apply Forall_cons; [try exact Logic.I|]); try apply Forall_nil; cbn [ordinary peaceful].
    + left. exists Single, 7, [OConsume 7]. split; [reflexivity|]. intros o [<-|[]]. now left.
    + left. exists Broadcast, 3, []. split; [reflexivity|]. intros o [].
    + right. now exists 3.
  - cbn. split; [auto|]. split; [auto|]. split; [reflexivity|]. split; [|reflexivity]. eexists. split; reflexivity.
Qed.

(** Two connections, a broadcast and a plain queue, declarations and publications interleaved; nothing is closed but what is lost. *)
Definition calm : list b_event :=
  [ECall 0 (receiver_ops Broadcast 3); ECall 1 (declare_ops Broadcast 3 ++ [OPublish Broadcast 3 5]); EOp 0; EOp 1; EOp 0; EOp 1; EOp 1; EOp 1; EOp 0; EOp 0;
   EDeliver 0; EPoll 0; ECrash 1].
Example C71_example : Forall peaceful calm /\ exists s, run_from (b_step ok (prefetch 1)) b_init calm = Some s /\ In (BClose 1) (b_log s) /\ ~ In (BClose 0) (b_log s) /\ In (BYield 0 0 5) (b_log s).
Proof.
  split.
  - repeat (apply Forall_cons; [try exact Logic.I|]); try apply Forall_nil; cbn [ordinary peaceful].
    + exists Broadcast, 3, [OConsume 3]. split; [reflexivity|]. intros o [<-|[]]. now left.
    + exists Broadcast, 3, [OPublish Broadcast 3 5]. split; [reflexivity|]. intros o [<-|[]]. right. eauto.
  - eexists. split; [vm_compute; reflexivity|]. cbn. split; [auto|]. split; [|auto 10]. intros X. repeat (destruct X as [X|X]; [discriminate|]). exact X.
Qed.
(** In [race], connection 1 only deletes and stays open. *)
Example C71_senders_example : Forall (only_sends 1) race.
Proof. repeat constructor; cbn; intros; discriminate. Qed.

Print Assumptions C71_no_deletion_partial.
Print Assumptions C71_senders_partial.
Print Assumptions C71_refuted.
