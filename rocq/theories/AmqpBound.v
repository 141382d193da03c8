(** C42, continued: an exchange and a queue stay bound until one of them is deleted. *)
From Coq Require Import List Arith Lia Bool.
From Verif Require Import Base BaseFacts ConnModel AmqpModel AmqpSpec AmqpProofs AmqpInv AmqpProps.
Import ListNotations.
Open Scope nat_scope.

Section Bound.
Variable decode : nat -> option nat.
Variable qos : nat -> nat.
Local Notation stp := (b_step decode qos).
Local Notation reach := (reach decode qos).
Lemma publish_exch : forall s m n body qs, b_exch (publish s m n body qs) = b_exch s.
Proof.
  intros s m n body qs. unfold publish.
  assert (H : forall s p, b_exch (route s p body qs) = b_exch s) by (induction qs as [|q qs IH]; intros s0 p; cbn; [reflexivity|now rewrite IH]).
  now rewrite H.
Qed.
Lemma has_in : forall n l, has n l = true <-> In n l.
Proof. intros n l. unfold has. rewrite existsb_exists. split; [intros (x & I & E); apply Nat.eqb_eq in E; now subst|intros I; exists n; split; [exact I|apply Nat.eqb_refl]]. Qed.

(** Only what exists is bound. *)
Theorem C42_bound_exists : forall s n q, reach s -> In (n, q) (b_bind s) -> In n (b_exch s) /\ lookup n (b_map s) = Some q.
Proof.
  intros s n q R H. split; [|exact (ki_name _ (reach_k _ _ _ R) _ _ H)]. revert n q H. destruct R as (tr & R).
  refine (run_from_inv _ _ stp (fun s => forall n q, In (n, q) (b_bind s) -> In n (b_exch s)) _ _ _ _ _ R); [|intros ? ? []].
  assert (OP : forall s c o, (forall n q, In (n, q) (b_bind s) -> In n (b_exch s)) -> forall n q, In (n, q) (b_bind (do_op s c o)) -> In n (b_exch (do_op s c o))).
  { intros s0 c o H. destruct o as [n0|n0|n0|n0|n0|[] n0 body|n0]; cbn [do_op].
    - intros n q I. cbn [b_bind b_exch] in *. destruct (has n0 (b_exch s0)); [|right]; eauto.
    - destruct (lookup n0 (b_map s0)); auto.
    - destruct (has n0 (b_exch s0)) eqn:X; [|auto]. destruct (lookup n0 (b_map s0)) as [q0|]; [|auto]. intros n q I. cbn [b_bind b_exch] in *.
      destruct (existsb _ (b_bind s0)); [eauto|]. destruct I as [I|I]; [injection I as <- <-; now apply has_in|eauto].
    - destruct (lookup n0 (b_map s0)) as [q0|]; [|auto]. intros n q I. cbn [gone b_bind b_exch] in *. apply filter_In in I. destruct I. eauto.
    - intros n q I. cbn [b_bind b_exch] in *. apply filter_In in I. destruct I as [I E]. apply filter_In. split; [eauto|exact E].
    - intros n q I. rewrite publish_exch. rewrite (proj1 (publish_bind _ _ _ _ _)) in I. eauto.
    - destruct (has n0 (b_exch s0)); intros n q I; cbn [close b_bind b_exch] in *; rewrite publish_exch; rewrite (proj1 (publish_bind _ _ _ _ _)) in I; eauto.
    - destruct (lookup n0 (b_map s0)) as [q0|]; auto. }
  intros s0 e s1 H E. destruct e; cbn [b_step] in E.
  - destruct (has c (b_dead s0)); [discriminate|]. injection E as <-. exact H.
  - destruct (nth_error (b_calls s0) i) as [[c [|o ops]]|]; try discriminate. injection E as <-. apply OP. exact H.
  - destruct (nth_error (b_cons s0) k) as [x|]; [|discriminate]. destruct (_ && _); [|discriminate]. destruct (cut _ _) as [[[a [? m]] b]|]; [|discriminate]. injection E as <-. exact H.
  - destruct (nth_error (b_cons s0) k) as [x|]; [|discriminate]. destruct (k_awake x); [|discriminate]. destruct (cut _ _) as [[[a f] b]|]; [destruct (decode _)|]; injection E as <-; exact H.
  - destruct (nth_error (b_cons s0) k) as [x|]; [|discriminate]. injection E as <-. exact H.
  - destruct (cut _ _) as [[[a f] b]|]; [|discriminate]. injection E as <-. exact H.
  - destruct (cut _ _) as [[[a f] b]|]; [|discriminate]. injection E as <-. exact H.
  - destruct (has c (b_dead s0)); [discriminate|]. injection E as <-. exact H.
  - destruct (lookup n (b_map s0)) as [q0|]; [|discriminate]. destruct (existsb _ _); [discriminate|]. injection E as <-. intros n1 q1 I. cbn [gone b_bind b_exch] in *. apply filter_In in I. destruct I. eauto.
Qed.
(** And it stays bound unless this exchange or this queue is deleted or expires. *)
Theorem C42_stays_bound : forall s e s' n q, reach s -> stp s e = Some s' -> In (n, q) (b_bind s) ->
  In (n, q) (b_bind s') \/ In (BGone q) (b_log s') \/ (exists i c ops, e = EOp i /\ nth_error (b_calls s) i = Some (c, OExchangeDelete n :: ops)).
Proof.
  intros s e s' n q R E H. pose proof (ki_name _ (reach_k _ _ _ R) _ _ H) as L.
  assert (G : forall s0 n0 q0, In (n, q) (b_bind s0) -> In (n, q) (b_bind (gone s0 n0 q0)) \/ In (BGone q) (b_log (gone s0 n0 q0))).
  { intros s0 n0 q0 I. cbn [gone b_bind b_log]. destruct (Nat.eq_dec q q0) as [->|D]; [right; now left|]. left. apply filter_In. split; [exact I|]. cbn. now apply negb_true_iff, Nat.eqb_neq. }
  destruct e; cbn [b_step] in E.
  - destruct (has c (b_dead s)); [discriminate|]. injection E as <-. now left.
  - destruct (nth_error (b_calls s) i) as [[c [|o ops]]|] eqn:C; try discriminate. injection E as <-. destruct o as [n0|n0|n0|n0|n0|[] n0 body|n0]; cbn [do_op].
    + now left.
    + destruct (lookup n0 _); now left.
    + destruct (has n0 _); [|now left]. destruct (lookup n0 _); [|now left]. left. cbn [b_bind]. destruct (existsb _ _); [exact H|now right].
    + destruct (lookup n0 _) as [q0|]; [|now left]. destruct (G (mkB (b_map s) (b_made s) (b_exch s) (b_bind s) (b_ready s) (b_flight s) (b_cons s) (b_dead s) (upd i (c, ops) (b_calls s)) (b_pubs s) (b_next s) (b_log s)) n0 q0 H); auto.
    + destruct (Nat.eq_dec n n0) as [->|D]; [right; right; exists i, c, ops; now split|]. left. cbn [b_bind]. apply filter_In. split; [exact H|]. cbn. now apply negb_true_iff, Nat.eqb_neq.
    + left. now rewrite (proj1 (publish_bind _ _ _ _ _)).
    + left. destruct (has n0 _); cbn [close b_bind]; now rewrite (proj1 (publish_bind _ _ _ _ _)).
    + destruct (lookup n0 _); now left.
  - destruct (nth_error (b_cons s) k) as [x|]; [|discriminate]. destruct (_ && _); [|discriminate]. destruct (cut _ _) as [[[a [? m]] b]|]; [|discriminate]. injection E as <-. now left.
  - destruct (nth_error (b_cons s) k) as [x|]; [|discriminate]. destruct (k_awake x); [|discriminate]. destruct (cut _ _) as [[[a f] b]|]; [destruct (decode _)|]; injection E as <-; now left.
  - destruct (nth_error (b_cons s) k) as [x|]; [|discriminate]. injection E as <-. now left.
  - destruct (cut _ _) as [[[a f] b]|]; [|discriminate]. injection E as <-. now left.
  - destruct (cut _ _) as [[[a f] b]|]; [|discriminate]. injection E as <-. now left.
  - destruct (has c (b_dead s)); [discriminate|]. injection E as <-. now left.
  - destruct (lookup n0 (b_map s)) as [q0|]; [|discriminate]. destruct (existsb _ _); [discriminate|]. injection E as <-. destruct (G s n0 q0 H); auto.
Qed.
End Bound.
(** Two exchanges bound; the first is deleted: its binding is gone, the other stays. *)
Example C42_bound_ex : option_map b_bind (run_from (b_step Some (fun _ => 0)) b_init
    [ECall 0 [OExchange 7; OQueue 7; OBind 7]; EOp 0; EOp 0; EOp 0; ECall 0 [OExchange 8; OQueue 8; OBind 8]; EOp 1; EOp 1; EOp 1; ECall 1 [OExchangeDelete 7]; EOp 2]) = Some [(8, 1)].
Proof. reflexivity. Qed.
Print Assumptions C42_bound_exists.
Print Assumptions C42_stays_bound.
