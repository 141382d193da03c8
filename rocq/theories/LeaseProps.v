(** C41: releasing leased channels; and concrete runs with the real queues for C28. *)
From Coq Require Import List Arith Bool Lia.
From Verif Require Import Base BaseFacts QueueModel BroadcastModel ConnModel ConnSpec ConnProps.
Import ListNotations.

Section Lease.
Context {Opts Q QE : Type}.
Variable q_new : Opts -> Q.
Variable q_do : Q -> QE -> option Q.
Notation act := (cact Opts QE).
Notation sys := (lsys Opts Q QE).
Implicit Types s : sys.
Notation lvs := (lv_step q_new q_do).

(** The connection of the system makes only steps of [c_step]. *)
Lemma conn_run : forall tr s, run_from lvs ls_init tr = Some s -> exists tr', run_from (c_step q_new q_do) c_init tr' = Some (ls_conn s).
Proof.
  intros tr s H.
  apply (run_from_inv _ _ lvs (fun s => exists tr', run_from (c_step q_new q_do) c_init tr' = Some (ls_conn s))) with (tr := tr) (s := ls_init);
    [|now exists []|exact H].
  clear. intros s e s' (tr & R) H.
  assert (X : forall ev c, c_step q_new q_do (ls_conn s) ev = Some c -> exists tr', run_from (c_step q_new q_do) c_init tr' = Some c).
  { intros ev c E. exists (tr ++ [ev]). apply run_from_app. exists (ls_conn s). split; [exact R|]. cbn [run_from]. now rewrite E. }
  destruct e as [n o|i|j|n o|k e|i e]; cbn [lv_step] in H.
  - destruct (declare q_new (ls_conn s) n o) as [c h] eqn:D. injection H as <-. cbn. apply (X (CDeclare n o)). cbn. now rewrite D.
  - destruct (nth_error _ i) as [l|]; [|discriminate]. destruct (ls_chan l); injection H as <-; cbn; eauto.
  - destruct (pick j _) as [[n rest]|]; [|discriminate]. injection H as <-. cbn. now apply (X (CDelete n)).
  - destruct (declare q_new (ls_conn s) n o) as [c h] eqn:D. injection H as <-. cbn. apply (X (CDeclare n o)). cbn. now rewrite D.
  - destruct (nth_error _ k) as [[n h]|]; [|discriminate]. destruct (use q_do (ls_conn s) h e) as [c|] eqn:U; [|discriminate]. injection H as <-. now apply (X (CUse h e)).
  - destruct (nth_error _ i) as [l|]; [|discriminate]. destruct (ls_chan l); [|discriminate].
    destruct (use q_do (ls_conn s) (ls_handle l) e) as [c|] eqn:U; [|discriminate]. injection H as <-. now apply (X (CUse (ls_handle l) e)).
Qed.

Definition dropped (n : nat) (l : lease) : bool := Nat.eqb (ls_name l) n && negb (ls_chan l).

(** Every dropped guard stands for one deletion that ran or will run. *)
Lemma declare_log : forall (c : conn Opts Q QE) n o c' h, declare q_new c n o = (c', h) -> c_log c' = c_log c ++ [HDecl n o h].
Proof. intros c n o c' h. unfold declare. destruct (lookup n (c_map c)); intros H; injection H as <- <-; reflexivity. Qed.
Lemma use_log : forall (c : conn Opts Q QE) h e c', use q_do c h e = Some c' -> c_log c' = c_log c ++ [HUse h e].
Proof. intros c h e c' H. unfold use in H. destruct (nth_error _ h) as [q|]; [|discriminate]. destruct (q_do q e); [|discriminate]. now injection H as <-. Qed.

Lemma cnt_perm_pick : forall (T : Type) (f : T -> bool) i l x r, pick i l = Some (x, r) -> cnt f l = b2n (f x) + cnt f r.
Proof.
  intros T f i. induction i as [|i IH]; intros [|y l] x r H; try discriminate; cbn [pick] in H.
  - injection H as <- <-. apply cnt_cons.
  - destruct (pick i l) as [[z r']|] eqn:P; [|discriminate]. injection H as <- <-. rewrite !cnt_cons, (IH l z r' P). lia.
Qed.

Theorem C41_one_delete_per_lease : forall tr s n, run_from lvs ls_init tr = Some s ->
  cnt (deletes n) (c_log (ls_conn s)) + cnt (Nat.eqb n) (ls_spawned s) = cnt (dropped n) (ls_leases s).
Proof.
  intros tr s n H.
  apply (run_from_inv _ _ lvs (fun s => cnt (deletes n) (c_log (ls_conn s)) + cnt (Nat.eqb n) (ls_spawned s) = cnt (dropped n) (ls_leases s)))
    with (tr := tr) (s := ls_init); [|reflexivity|exact H].
  clear. intros s e s' I H. destruct e as [m o|i|j|m o|k e|i e]; cbn [lv_step] in H.
  - destruct (declare q_new (ls_conn s) m o) as [c h] eqn:D. injection H as <-. cbn [ls_conn ls_spawned ls_leases].
    rewrite (declare_log _ _ _ _ _ D), !cnt_app, !cnt_one. cbn [deletes b2n]. unfold dropped at 2. cbn [ls_chan negb]. rewrite andb_false_r. cbn [b2n]. lia.
  - destruct (nth_error _ i) as [l|] eqn:K; [|discriminate]. destruct (ls_chan l) eqn:CH; injection H as <-; cbn [ls_conn ls_spawned ls_leases]; [|exact I].
    rewrite cnt_app, cnt_one. pose proof (cnt_upd _ (dropped n) i (ls_leases s) l (mkLease (ls_name l) (ls_handle l) false) K) as U.
    unfold dropped in U at 2 4. cbn [ls_name ls_chan negb] in U. rewrite CH in U. cbn [negb] in U. rewrite andb_true_r, andb_false_r in U. cbn [b2n] in U.
    rewrite (Nat.eqb_sym n (ls_name l)). lia.
  - destruct (pick j _) as [[m rest]|] eqn:P; [|discriminate]. injection H as <-. cbn [ls_conn ls_spawned ls_leases delete c_log].
    rewrite (cnt_perm_pick _ _ _ _ _ _ P) in I. rewrite cnt_app, cnt_one. cbn [deletes]. rewrite (Nat.eqb_sym m n). lia.
  - destruct (declare q_new (ls_conn s) m o) as [c h] eqn:D. injection H as <-. cbn [ls_conn ls_spawned ls_leases].
    rewrite (declare_log _ _ _ _ _ D), cnt_app, cnt_one. cbn [deletes b2n]. lia.
  - destruct (nth_error _ k) as [[m h]|]; [|discriminate]. destruct (use q_do (ls_conn s) h e) as [c|] eqn:U; [|discriminate]. injection H as <-.
    cbn [ls_conn ls_spawned ls_leases]. rewrite (use_log _ _ _ _ U), cnt_app, cnt_one. cbn [deletes b2n]. lia.
  - destruct (nth_error _ i) as [l|]; [|discriminate]. destruct (ls_chan l); [|discriminate].
    destruct (use q_do (ls_conn s) (ls_handle l) e) as [c|] eqn:U; [|discriminate]. injection H as <-.
    cbn [ls_conn ls_spawned ls_leases]. rewrite (use_log _ _ _ _ U), cnt_app, cnt_one. cbn [deletes b2n]. lia.
Qed.

(** For one lease under its name: deleted at most once, only after the drop, and exactly once when the spawned task has run. *)
Lemma cnt_unique : forall (T : Type) (f : T -> bool) l i x, nth_error l i = Some x -> (forall j y, nth_error l j = Some y -> f y = true -> j = i) ->
  cnt f l = b2n (f x).
Proof.
  intros T f l. induction l as [|z l IH]; intros i x K U; [destruct i; discriminate|]. rewrite cnt_cons. destruct i as [|i]; cbn in K.
  - injection K as ->. assert (cnt f l = 0); [|lia]. apply cnt_zero. intros y I. apply In_nth_error in I. destruct I as [j J].
    destruct (f y) eqn:FY; [|reflexivity]. specialize (U (S j) y J FY). discriminate.
  - assert (f z = false) as ->. { destruct (f z) eqn:FZ; [|reflexivity]. specialize (U 0 z eq_refl FZ). discriminate. }
    cbn. apply (IH i x K). intros j y J FY. specialize (U (S j) y J FY). lia.
Qed.
Theorem C41_deleted_exactly_once : forall tr s i l, run_from lvs ls_init tr = Some s -> nth_error (ls_leases s) i = Some l ->
  (forall j l', nth_error (ls_leases s) j = Some l' -> ls_name l' = ls_name l -> j = i) ->
  let dels := cnt (deletes (ls_name l)) (c_log (ls_conn s)) in
  dels <= 1 /\ (ls_chan l = true -> dels = 0) /\ (ls_chan l = false -> ~ In (ls_name l) (ls_spawned s) -> dels = 1).
Proof.
  intros tr s i l H K U. pose proof (C41_one_delete_per_lease tr s (ls_name l) H) as C.
  rewrite (cnt_unique _ (dropped (ls_name l)) (ls_leases s) i l K) in C.
  2:{ intros j y J D. unfold dropped in D. apply andb_true_iff in D. destruct D as [D _]. apply Nat.eqb_eq in D. eauto. }
  unfold dropped in C. rewrite Nat.eqb_refl in C. cbn [andb] in C. cbn. destruct (ls_chan l); cbn in C.
  - repeat split; try discriminate; lia.
  - split; [lia|]. split; [discriminate|]. intros _ NI.
    assert (cnt (Nat.eqb (ls_name l)) (ls_spawned s) = 0); [|lia]. apply cnt_zero. intros y I.
    destruct (Nat.eqb_spec (ls_name l) y); [subst; contradiction|reflexivity].
Qed.

(** The queue of a name is gone exactly when nothing declared it after its last deletion. *)
Theorem C41_gone_iff_partial : forall tr s n, run_from lvs ls_init tr = Some s ->
  (lookup n (c_map (ls_conn s)) = None <->
   (forall a, In a (c_log (ls_conn s)) -> declares n a = false) \/
   exists l1 l2, c_log (ls_conn s) = l1 ++ HDel n :: l2 /\ forall a, In a l2 -> declares n a = false).
Proof.
  intros tr s n H. destruct (conn_run tr s H) as (tr' & R). destruct (cinv_run q_new q_do tr' _ R) as [M _ _ _]. rewrite M. clear.
  generalize (c_log (ls_conn s)) as l. intros l. split.
  - induction l as [|a l IH] using rev_ind; intros C; [left; contradiction|]. rewrite cur_app in C.
    destruct a as [m o h|m|h e]; cbn in C.
    + destruct (Nat.eqb_spec m n); [discriminate|]. destruct (IH C) as [A|(l1 & l2 & -> & A)].
      * left. intros a I. apply in_app_or in I. destruct I as [I|[<-|[]]]; [auto|]. cbn. now apply Nat.eqb_neq.
      * right. exists l1, (l2 ++ [HDecl m o h]). split; [now rewrite <- app_assoc|]. intros a I. apply in_app_or in I. destruct I as [I|[<-|[]]]; [auto|]. cbn. now apply Nat.eqb_neq.
    + destruct (Nat.eqb_spec m n).
      * subst. right. exists l, []. split; [reflexivity|]. contradiction.
      * destruct (IH C) as [A|(l1 & l2 & -> & A)].
        -- left. intros a I. apply in_app_or in I. destruct I as [I|[<-|[]]]; auto.
        -- right. exists l1, (l2 ++ [HDel m]). split; [now rewrite <- app_assoc|]. intros a I. apply in_app_or in I. destruct I as [I|[<-|[]]]; auto.
    + destruct (IH C) as [A|(l1 & l2 & -> & A)].
      * left. intros a I. apply in_app_or in I. destruct I as [I|[<-|[]]]; auto.
      * right. exists l1, (l2 ++ [HUse h e]). split; [now rewrite <- app_assoc|]. intros a I. apply in_app_or in I. destruct I as [I|[<-|[]]]; auto.
  - intros [A|(l1 & l2 & -> & A)]; [now apply cur_none|]. rewrite cur_app. cbn. rewrite Nat.eqb_refl. now apply cur_none.
Qed.

(** A queue that exists when all guards of its name have done their deletion stays: nothing in the system deletes it any more. *)
Definition leases_again (n : nat) (e : l_event Opts QE) : bool := match e with LvLease m _ => Nat.eqb m n | _ => false end.
Theorem C41_leak_is_forever : forall tr s n h, run_from lvs ls_init tr = Some s -> lookup n (c_map (ls_conn s)) = Some h ->
  (forall l, In l (ls_leases s) -> ls_name l = n -> ls_chan l = false) -> ~ In n (ls_spawned s) ->
  forall tr2 s2, Forall (fun e => leases_again n e = false) tr2 -> run_from lvs s tr2 = Some s2 -> lookup n (c_map (ls_conn s2)) = Some h.
Proof.
  intros tr s n h _ L CH SP tr2 s2 F H.
  assert (G : lookup n (c_map (ls_conn s2)) = Some h /\ (forall l, In l (ls_leases s2) -> ls_name l = n -> ls_chan l = false) /\ ~ In n (ls_spawned s2)); [|tauto].
  apply (run_from_inv_where _ _ lvs (fun e => leases_again n e = false)
    (fun s => lookup n (c_map (ls_conn s)) = Some h /\ (forall l, In l (ls_leases s) -> ls_name l = n -> ls_chan l = false) /\ ~ In n (ls_spawned s)))
    with (tr := tr2) (s := s); auto.
  clear. intros s e s' PE (L & CH & SP) H. destruct e as [m o|i|j|m o|k e|i e]; cbn [lv_step leases_again] in *.
  - apply Nat.eqb_neq in PE. destruct (declare q_new (ls_conn s) m o) as [c k] eqn:D. injection H as <-. cbn [ls_conn ls_leases ls_spawned].
    unfold declare in D. split; [|split; [|exact SP]].
    + destruct (lookup m (c_map (ls_conn s))); injection D as <- _; cbn; [exact L|]. destruct (Nat.eqb_spec m n); [congruence|exact L].
    + intros l I. apply in_app_or in I. destruct I as [I|[<-|[]]]; [auto|]. cbn. congruence.
  - destruct (nth_error _ i) as [l|] eqn:K; [|discriminate]. destruct (ls_chan l) eqn:CL; injection H as <-; cbn [ls_conn ls_leases ls_spawned]; [|auto].
    assert (NL : ls_name l <> n). { intros Q0. rewrite (CH l) in CL; [discriminate|eapply nth_error_In; eauto|exact Q0]. }
    split; [exact L|]. split.
    + intros l' I. apply nth_In_upd in I. destruct I as [->|I]; [cbn; congruence|auto].
    + intros I. apply in_app_or in I. destruct I as [I|[I|[]]]; auto.
  - destruct (pick j _) as [[m rest]|] eqn:P; [|discriminate]. injection H as <-. cbn [ls_conn ls_leases ls_spawned delete c_map].
    assert (m <> n) by (intros ->; apply SP; eapply pick_in; eauto). split; [|split; [exact CH|]].
    + rewrite lookup_remove_other; auto.
    + intros I. apply SP. eapply pick_in_rest; eauto.
  - destruct (declare q_new (ls_conn s) m o) as [c k] eqn:D. injection H as <-. cbn [ls_conn ls_leases ls_spawned]. split; [|auto].
    unfold declare in D. destruct (lookup m (c_map (ls_conn s))) eqn:LM; injection D as <- _; cbn; [exact L|]. destruct (Nat.eqb_spec m n); [congruence|exact L].
  - destruct (nth_error _ k) as [[m k']|]; [|discriminate]. destruct (use q_do (ls_conn s) k' e) as [c|] eqn:U; [|discriminate]. injection H as <-. cbn. split; [|auto].
    unfold use in U. destruct (nth_error _ k') as [q|]; [|discriminate]. destruct (q_do q e); [|discriminate]. now injection U as <-.
  - destruct (nth_error _ i) as [l|]; [|discriminate]. destruct (ls_chan l); [|discriminate].
    destruct (use q_do (ls_conn s) (ls_handle l) e) as [c|] eqn:U; [|discriminate]. injection H as <-. cbn. split; [|auto].
    unfold use in U. destruct (nth_error _ (ls_handle l)) as [q|]; [|discriminate]. destruct (q_do q e); [|discriminate]. now injection U as <-.
Qed.
End Lease.

(** With the real queues. Names: 7 is a directive's identifier. *)
Definition once : qopts := of_channel_type ExactlyOnce.
Definition mstep := lv_step (h_new nat) (h_do nat 2 (fun n => n mod 2)).
Definition put (m : nat) : list (mevent nat) := [MvOnce (EvQPublish m); MvOnce (EvQPubStep 0); MvOnce (EvQPubStep 0)].

(** A directive leases channel 7, is dropped and its channel deleted; then a worker that was still busy publishes its result. *)
Definition late_result : list (l_event qopts (mevent nat)) :=
  [LvLease 7 once; LvDrop 0; LvRelease 0; LvSender 7 once] ++ map (LvSend 0) (put 5).
Theorem C41_gone_refuted : exists s, run_from mstep ls_init late_result = Some s /\
  (forall l, In l (ls_leases s) -> ls_chan l = false) /\ ls_spawned s = [] /\
  lookup 7 (c_map (ls_conn s)) = Some 1 /\ option_map (fun h => q_msgs (h_once h)) (nth_error (c_heap (ls_conn s)) 1) = Some [(0, 5)].
Proof.
  eexists. split; [vm_compute; reflexivity|]. split; [|split; [|split]]; try reflexivity. intros l [<-|[]]. reflexivity.
Qed.
(** A sender obtained before the release does not bring the queue back. *)
Definition early_sender : list (l_event qopts (mevent nat)) :=
  [LvLease 7 once; LvSender 7 once; LvDrop 0; LvRelease 0] ++ map (LvSend 0) (put 5).
Example C41_example : exists s, run_from mstep ls_init early_sender = Some s /\ lookup 7 (c_map (ls_conn s)) = None /\
  cnt (deletes 7) (c_log (ls_conn s)) = 1.
Proof. eexists. split; [vm_compute; reflexivity|]. split; reflexivity. Qed.
(** Two directives that drew the same identifier (C52): when the first is dropped, the other's results go to a new queue that it does not
    read. *)
Example C41_shared_identifier : exists s, run_from mstep ls_init
    ([LvLease 7 once; LvLease 7 once; LvDrop 0; LvRelease 0; LvSender 7 once] ++ map (LvSend 0) (put 5)) = Some s /\
  map ls_handle (ls_leases s) = [0; 0] /\ map snd (ls_senders s) = [1] /\
  map (fun h => q_msgs (h_once h)) (c_heap (ls_conn s)) = [[]; [(0, 5)]].
Proof. eexists. split; [vm_compute; reflexivity|]. repeat split. Qed.

Definition dstep := c_step (h_new nat) (h_do nat 2 (fun n => n mod 2)).
(** C28: declared twice, the second time with other options; used; deleted; declared again. *)
Definition cast : qopts := of_channel_type Broadcast.
Example C28_example : exists s, run_from dstep c_init
    ([CDeclare 7 once; CDeclare 8 cast; CDeclare 7 cast] ++ map (CUse 0) (put 5) ++ [CDelete 7; CDeclare 7 cast; CUse 0 (MvOnce (EvQPublish 6))]) = Some s /\
  map (fun a => match a with HDecl n _ h => Some (n, h) | _ => None end) (c_log s) =
    [Some (7, 0); Some (8, 1); Some (7, 0); None; None; None; None; Some (7, 2); None] /\
  map (fun h => (o_synd (h_opts h), q_msgs (h_once h))) (c_heap s) = [(ExactlyOnce, [(0, 5)]); (Broadcast, []); (Broadcast, [])].
Proof. eexists. split; [vm_compute; reflexivity|]. split; reflexivity. Qed.

Print Assumptions C28_declare_idempotent.
Print Assumptions C28_fresh_after_delete.
Print Assumptions C28_names_apart.
Print Assumptions C28_contents.
Print Assumptions C41_one_delete_per_lease.
Print Assumptions C41_deleted_exactly_once.
Print Assumptions C41_gone_iff_partial.
Print Assumptions C41_leak_is_forever.
Print Assumptions C41_gone_refuted.
