(** C84, continued: bindings, connections and expiry. *)
From Coq Require Import List Arith Lia Bool.
From Verif Require Import Base BaseFacts DurModel DurSpec DurProofs DurProps.
Import ListNotations.
Open Scope nat_scope.

(** A queue that was declared not to be durable expires after 30 minutes without use, a durable one does not. *)
Theorem C84_minutes : forall evs s q, reach evs s -> In q (d_qs s) ->
  (stands (q_name q) (d_log s) = Some NonDurable /\ a_expires (q_args q) = Some 30) \/ (stands (q_name q) (d_log s) = Some Durable /\ a_expires (q_args q) = None).
Proof.
  intros evs s q R I. pose proof (dinv_run _ _ R) as D. pose proof (di_queue _ D (q_name q)) as Q.
  assert (F : find_q (q_name q) (d_qs s) = Some q).
  { pose proof (di_names _ D) as N. clear - I N. unfold find_q. induction (d_qs s) as [|x l IH]; [easy|]. cbn in *. inversion N as [|? ? NI N']; subst.
    destruct (Nat.eqb_spec (q_name x) (q_name q)) as [E|E].
    - destruct I as [->|I]; [reflexivity|]. exfalso. apply NI. rewrite E. now apply in_map.
    - destruct I as [->|I]; [congruence|auto]. }
  rewrite F in Q. destruct Q as ([] & S & A & _); rewrite S, A; [left|right]; now split.
Qed.
(** A binding survives a restart exactly if both its exchange and its queue are durable. *)
Theorem C84_bound_restart : forall evs s n, reach evs s ->
  exists s', d_step s ERestart = Some s' /\
    (In n (d_bind s') <-> In n (d_bind s) /\ stands n (d_log s) = Some Durable /\ exists a, find_ex n (d_ex s) = Some a /\ a_durable a = true).
Proof.
  intros evs s n R. eexists. split; [reflexivity|]. cbn [restart d_bind]. rewrite filter_In. pose proof (di_queue _ (dinv_run _ _ R) n) as Q.
  destruct (find_q n (d_qs s)) as [q|].
  - destruct Q as (d & S & A & _). rewrite S, A. destruct (find_ex n (d_ex s)) as [a|].
    + rewrite andb_true_iff. split.
      * intros (I & D1 & D2). split; [exact I|]. split; [now destruct d|]. exists a. now split.
      * intros (I & D & b & E & B). injection E as <-. injection D as ->. now repeat split.
    + split; [now intros [_ X]|intros (_ & _ & a & X & _); discriminate].
  - rewrite Q. split; [|now intros (_ & X & _)]. intros [I X]. now destruct (find_ex n (d_ex s)).
Qed.
(** A connection is open until it crashes, the broker closes it or the broker restarts. *)
Theorem C84_up : forall evs s e s' c, reach evs s -> d_step s e = Some s' ->
  (In c (d_up s') -> In c (d_up s) \/ e = EConnect c) /\
  (In c (d_up s) -> In c (d_up s') \/ e = ECrash c \/ e = ERestart \/ exists l, d_log s' = LClose c :: l).
Proof.
  intros evs s e s' c _ E.
  assert (W : forall x l, (In c (without x l) -> In c l) /\ (In c l -> In c (without x l) \/ c = x)).
  { intros x l. unfold without. rewrite filter_In. split; [tauto|]. intros I. destruct (Nat.eq_dec c x) as [->|D]; [now right|]. left. split; [exact I|]. now apply negb_true_iff, Nat.eqb_neq. }
  destruct e; cbn [d_step] in E; unfold call in E.
  - destruct (_ || _); [discriminate|]. injection E as <-. cbn [d_up]. split; [intros [->|I]; auto|intros I; left; now right].
  - destruct (has c0 (d_up s)); [|discriminate]. injection E as <-. cbn [d_up]. tauto.
  - destruct (existsb _ _); [|discriminate]. destruct (has c0 (d_up s)); [|discriminate]. injection E as <-. cbn [d_up]. tauto.
  - destruct (has c0 (d_up s)); [|discriminate]. injection E as <-. cbn [d_up]. tauto.
  - destruct (nth_error (d_calls s) i) as [[c0 h [|o ops] []]|]; try discriminate. injection E as <-. cbn [d_up d_log].
    assert (HU : (In c (d_up (hang_up s c0 [LClose c0])) -> In c (d_up s) \/ EOp i = EConnect c) /\
      (In c (d_up s) -> In c (d_up (hang_up s c0 [LClose c0])) \/ EOp i = ECrash c \/ EOp i = ERestart \/ exists l, d_log (hang_up s c0 [LClose c0]) = LClose c :: l)).
    { cbn [hang_up d_up d_log app]. destruct (W c0 (d_up s)) as [W1 W2]. split; [auto|]. intros I. destruct (W2 I) as [J| ->]; [auto|]. right; right; right. now eexists. }
    destruct o; cbn [do_op].
    + destruct (find_ex n (d_ex s)); [destruct (bargs_eqb _ _)|]; cbn [d_up]; tauto.
    + destruct (find_q n (d_qs s)); [destruct (bargs_eqb _ _)|]; cbn [d_up]; tauto.
    + destruct (_ && _); cbn [d_up]; tauto.
    + destruct (o_syn o); [unfold accept; destruct (some _); cbn [d_up]; tauto|]. destruct (some _); [unfold accept; destruct (has _ _); cbn [d_up]; tauto|exact HU].
    + destruct (some _); cbn [drop_queue d_up]; tauto.
    + cbn [d_up]; tauto.
  - destruct (find_q n (d_qs s)) as [q|]; [|discriminate]. destruct (existsb _ _); [|discriminate]. injection E as <-. cbn [d_up]. tauto.
  - destruct (find_q n (d_qs s)) as [q|]; [|discriminate]. destruct (a_expires _); [|discriminate]. injection E as <-. cbn [drop_queue d_up]. tauto.
  - destruct (has c0 (d_up s)); [|discriminate]. injection E as <-. cbn [hang_up d_up]. destruct (W c0 (d_up s)) as [W1 W2]. split; [auto|]. intros I. destruct (W2 I) as [J| ->]; auto.
  - injection E as <-. cbn [restart d_up]. split; [easy|auto].
Qed.
(** Between the steps from [s0] to here there was a moment at which [P] held. *)
Definition once (s0 : dst) (tr : list d_event) (P : dst -> Prop) : Prop := exists t1 t2 m, tr = t1 ++ t2 /\ run_from d_step s0 t1 = Some m /\ P m.
Lemma once_more : forall s0 tr e (P : dst -> Prop), once s0 tr P -> once s0 (tr ++ [e]) P.
Proof. intros s0 tr e P (t1 & t2 & m & -> & R & H). exists t1, (t2 ++ [e]), m. split; [now rewrite app_assoc|auto]. Qed.
Lemma once_now : forall s0 tr e s (P : dst -> Prop), run_from d_step s0 (tr ++ [e]) = Some s -> P s -> once s0 (tr ++ [e]) P.
Proof. intros s0 tr e s P R H. exists (tr ++ [e]), [], s. split; [now rewrite app_nil_r|auto]. Qed.
(** How far call [i], a deletion of [n], has come. *)
Definition deleting (s0 : dst) (n i : nat) (tr : list d_event) (s : dst) : Prop :=
  exists k, nth_error (d_calls s) i = Some k /\
    (dc_failed k = true \/ dc_ops k = delete_ops n \/
     (dc_ops k = [OExchangeDelete n] /\ once s0 tr (fun m => find_q n (d_qs m) = None)) \/
     (dc_ops k = [] /\ once s0 tr (fun m => find_q n (d_qs m) = None) /\ once s0 tr (fun m => find_ex n (d_ex m) = None))).
Lemma deleting_fail : forall s0 n i tr s s' e c, deleting s0 n i tr s -> nth_error (d_calls s') i = option_map (fail c) (nth_error (d_calls s) i) -> deleting s0 n i (tr ++ [e]) s'.
Proof.
  intros s0 n i tr s s' e c (k & K & D) Q. rewrite K in Q. cbn in Q. exists (fail c k). split; [exact Q|]. unfold fail.
  destruct (Nat.eqb _ c).
  - destruct (dc_ops k) as [|o os] eqn:O; [|left; reflexivity].
    destruct D as [D|[D|[[D _]|(D & P1 & P2)]]]; [now left|discriminate D|discriminate D|]. right; right; right. split; [exact O|]. split; now apply once_more.
  - destruct D as [D|[D|[[D P]|(D & P1 & P2)]]]; [now left|now right; left| |].
    + right; right; left. split; [exact D|]. now apply once_more.
    + right; right; right. split; [exact D|]. split; now apply once_more.
Qed.
Lemma deleting_same : forall s0 n i tr s s' e, deleting s0 n i tr s -> nth_error (d_calls s') i = nth_error (d_calls s) i -> deleting s0 n i (tr ++ [e]) s'.
Proof.
  intros s0 n i tr s s' e (k & K & D) Q. exists k. split; [congruence|]. destruct D as [D|[D|[[D P]|(D & P1 & P2)]]]; [now left|now right; left| |].
  - right; right; left. split; [exact D|]. now apply once_more.
  - right; right; right. split; [exact D|]. split; now apply once_more.
Qed.
Lemma gone_q : forall n l, find_q n (filter (fun q => negb (Nat.eqb (q_name q) n)) l) = None.
Proof.
  intros n l. unfold find_q. induction l as [|q l IH]; [reflexivity|]. cbn. destruct (Nat.eqb (q_name q) n) eqn:Q; cbn; [exact IH|]. now rewrite Q.
Qed.
Lemma gone_ex : forall n l, find_ex n (filter (fun p : nat * bargs => negb (Nat.eqb (fst p) n)) l) = None.
Proof.
  intros n l. unfold find_ex. induction l as [|q l IH]; [reflexivity|]. cbn. destruct (Nat.eqb (fst q) n) eqn:Q; cbn; [exact IH|]. now rewrite Q.
Qed.
(** When a deletion returns, there was a moment since its call without the queue and one without the exchange (amqp.rs:310-324). *)
Theorem C84_deleted : forall evs s c n s0 tr s', reach evs s -> d_step s (EDelete c n) = Some s0 -> run_from d_step s0 tr = Some s' ->
  forall k, nth_error (d_calls s') (length (d_calls s)) = Some k -> dc_ops k = [] -> dc_failed k = false ->
  once s0 tr (fun m => find_q n (d_qs m) = None) /\ once s0 tr (fun m => find_ex n (d_ex m) = None).
Proof.
  intros evs s c n s0 tr s' _ D R k K O F. set (i := length (d_calls s)) in *.
  assert (X : deleting s0 n i tr s').
  { clear k K O F. revert s' R. induction tr as [|e tr IH] using rev_ind; intros s' R.
    - cbn in R. injection R as <-. cbn [d_step] in D. unfold call in D. destruct (has c (d_up s)); [|discriminate D]. injection D as <-.
      exists (mkCall c None (delete_ops n) false). split; [cbn [d_calls]; unfold i; now rewrite nth_error_app2, Nat.sub_diag|]. right; left. reflexivity.
    - pose proof R as R0. apply run_from_app in R as (m & R1 & R2). cbn [run_from] in R2. destruct (d_step m e) as [m'|] eqn:S; [|discriminate R2]. injection R2 as <-.
      specialize (IH m R1). pose proof IH as IH0. destruct IH as (k & K & D').
      assert (CALL : forall c0 h ops, call m c0 h ops = Some m' -> deleting s0 n i (tr ++ [e]) m').
      { intros c0 h ops C. unfold call in C. destruct (has c0 (d_up m)); [|discriminate C]. injection C as <-. eapply deleting_same; [exact IH0|].
        cbn [d_calls]. apply nth_error_app1. apply nth_error_Some. congruence. }
      destruct e; cbn [d_step] in S.
      + destruct (_ || _); [discriminate S|]. injection S as <-. eapply deleting_same; [exact IH0|reflexivity].
      + eauto.
      + destruct (existsb _ _); [|discriminate S]. eauto.
      + eauto.
      + destruct (nth_error (d_calls m) i0) as [[c0 h [|o ops] []]|] eqn:N; try discriminate S. injection S as <-.
        assert (OC : d_calls (do_op m c0 o) = d_calls m \/ d_calls (do_op m c0 o) = map (fail c0) (d_calls m)).
        { destruct o; cbn [do_op].
          - destruct (find_ex n0 (d_ex m)); [destruct (bargs_eqb _ _)|]; cbn; auto.
          - destruct (find_q n0 (d_qs m)); [destruct (bargs_eqb _ _)|]; cbn; auto.
          - destruct (_ && _); cbn; auto.
          - destruct (o_syn o); [unfold accept; destruct (some _); cbn; auto|]. destruct (some _); [unfold accept; destruct (has _ _); cbn; auto|cbn; auto].
          - destruct (some _); cbn; auto.
          - cbn; auto. }
        destruct OC as [OC|OC].
        * destruct (Nat.eq_dec i0 i) as [->|NE].
          -- rewrite OC, N in R0 |- *. rewrite N in K. injection K as <-. cbn [dc_failed dc_ops] in D'.
             eexists. split; [cbn [d_calls]; apply upd_nth_same, nth_error_Some; congruence|]. cbn [dc_failed dc_ops].
             destruct D' as [D'|[D'|[[D' P]|(D' & _)]]]; [discriminate D'| | |discriminate D'].
             ++ unfold delete_ops in D'. injection D' as -> ->. right; right; left. split; [reflexivity|]. eapply once_now; [exact R0|]. cbn [d_qs do_op].
                destruct (find_q n (d_qs m)) eqn:FQ; cbn [some]; [cbn [drop_queue d_qs]; apply gone_q|exact FQ].
             ++ injection D' as -> ->. right; right; right. split; [reflexivity|]. split; [now apply once_more|]. eapply once_now; [exact R0|]. cbn [d_ex do_op]. apply gone_ex.
          -- eapply deleting_same; [exact IH0|]. cbn [d_calls]. rewrite OC, N. now apply upd_nth_other.
        * eapply (deleting_fail _ _ _ _ _ _ _ c0); [exact IH0|]. cbn [d_calls]. rewrite OC, nth_error_map, N. cbn [option_map fail dc_conn dc_ops]. unfold fail at 1. cbn [dc_conn dc_ops]. rewrite Nat.eqb_refl. now rewrite nth_error_map.
      + destruct (find_q n0 (d_qs m)) as [q|]; [|discriminate S]. destruct (existsb _ _); [|discriminate S]. injection S as <-. eapply deleting_same; [exact IH0|reflexivity].
      + destruct (find_q n0 (d_qs m)) as [q|]; [|discriminate S]. destruct (a_expires _); [|discriminate S]. injection S as <-. eapply deleting_same; [exact IH0|reflexivity].
      + destruct (has c0 (d_up m)); [|discriminate S]. injection S as <-. eapply deleting_fail; [exact IH0|]. cbn [hang_up d_calls]. apply nth_error_map.
      + injection S as <-. eapply (deleting_fail _ _ _ _ _ _ _ (dc_conn k)); [exact IH0|]. cbn [restart d_calls]. rewrite nth_error_map, K. reflexivity. }
  destruct X as (k' & K' & D'). assert (k' = k) by congruence. subst k'. destruct D' as [D'|[D'|[[D' _]|(_ & P1 & P2)]]]; [congruence| | |auto]; rewrite O in D'; discriminate D'.
Qed.
(** Queue 7 is made and deleted, and made again before the deletion returns. *)
Example C84_deleted_ex : exists s s0 s', reach [EConnect 0; EConnect 1; EDeclare 0 7 (mkO Persistent ExactlyOnce Durable); EOp 0] s /\ d_step s (EDelete 0 7) = Some s0 /\
  run_from d_step s0 [EOp 1; EDeclare 1 7 (mkO Persistent ExactlyOnce Durable); EOp 2; EOp 1] = Some s' /\
  nth_error (d_calls s') (length (d_calls s)) = Some (mkCall 0 None [] false) /\ find_q 7 (d_qs s') <> None.
Proof. do 3 eexists. split; [vm_compute; reflexivity|]. split; [vm_compute; reflexivity|]. split; [vm_compute; reflexivity|]. split; [vm_compute; reflexivity|]. vm_compute. discriminate. Qed.
(** A durable broadcast queue and another one on two connections; the other is deleted, then the broker restarts. *)
Definition dur_b : qopts := mkO Persistent Broadcast Durable.
Definition dur_run : list d_event :=
  [EConnect 0; EConnect 1; EDeclare 0 7 dur_b; EOp 0; EOp 0; EOp 0; EDeclare 1 8 (channel_options ChBroadcast); EOp 1; EOp 1; EOp 1; EDelete 0 8; EOp 2].
Example C84_bound_ex : exists s s', reach dur_run s /\ d_bind s = [7] /\ d_up s = [1; 0] /\ d_step s ERestart = Some s' /\ d_bind s' = [7] /\ d_up s' = [].
Proof. do 2 eexists. split; [vm_compute; reflexivity|]. split; [reflexivity|]. split; [reflexivity|]. split; [vm_compute; reflexivity|]. split; reflexivity. Qed.
Print Assumptions C84_minutes.
Print Assumptions C84_bound_restart.
Print Assumptions C84_up.
Print Assumptions C84_deleted.
