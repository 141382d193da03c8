(** C34: operation identifiers. *)
From Coq Require Import List Arith Lia Permutation.
From Verif Require Import RegistryModel.
Import ListNotations.

(** Every operation of the program resolves to itself. *)
Definition resolves (p : program) (link : list opname) : Prop := forall o, In o (ops_of p) -> resolve link o = Some o.

(** ** C34 *)
(** False for two crates with one operation each, whatever the link order. *)
Theorem C34_two_crates_refuted : forall link, Permutation link (ops_of [1; 1]) -> exists o o',
  In o (ops_of [1; 1]) /\ resolve link o = Some o' /\ o <> o'.
Proof.
  intros link P. cbn in P. destruct link as [|x l]; [apply Permutation_nil in P; discriminate|].
  assert (I : In x [(0, 0); (1, 0)]) by (eapply Permutation_in; [exact P|now left]). destruct I as [<-|[<-|[]]].
  - exists (1, 0), (0, 0). split; [now (right; left)|]. split; [reflexivity|congruence].
  - exists (0, 0), (1, 0). split; [now left|]. split; [reflexivity|congruence].
Qed.

(** False when the linker orders the executors otherwise than the compiler numbered them. *)
Theorem C34_link_order_refuted : exists link, Permutation link (ops_of [2]) /\ ~ resolves [2] link.
Proof.
  exists [(0, 1); (0, 0)]. split; [cbn; constructor|]. intros R. specialize (R (0, 0) ltac:(cbn; now left)). discriminate.
Qed.

(** What holds: one crate, at most 256 operations, linked in the order of their derivation. Missing: everything else. *)
Theorem C34_one_crate_partial : forall n, n <= 256 -> resolves [n] (ops_of [n]).
Proof.
  intros n H o I. unfold ops_of in *. cbn [seq length flat_map app nth] in *. rewrite app_nil_r in *.
  apply in_map_iff in I. destruct I as (i & <- & I). apply in_seq in I. unfold resolve, op_id. cbn [snd].
  rewrite Nat.mod_small by lia. rewrite nth_error_map.
  assert (E : nth_error (seq 0 n) i = Some i).
  { rewrite (nth_error_nth' _ 0) by (rewrite seq_length; lia). now rewrite seq_nth by lia. }
  now rewrite E.
Qed.

(** It can hold only if all identifiers differ, so there are at most 256 operations and at most one crate has any. *)
Lemma mod_inj : forall (l : list opname), NoDup (map op_id l) -> length l <= 256.
Proof.
  intros l H. rewrite <- (map_length op_id). rewrite <- (seq_length 256 0). apply NoDup_incl_length; [exact H|].
  intros x I. apply in_map_iff in I. destruct I as (o & <- & _). apply in_seq. unfold op_id.
  pose proof (Nat.mod_upper_bound (snd o) 256 ltac:(discriminate)). lia.
Qed.

Theorem C34_limits : forall p link, resolves p link -> NoDup (map op_id (ops_of p)) /\ length (ops_of p) <= 256.
Proof.
  intros p link R.
  assert (ND : NoDup (map op_id (ops_of p))).
  { assert (NO : NoDup (ops_of p)).
    { unfold ops_of. generalize (seq_NoDup (length p) 0). generalize (seq 0 (length p)). intros l NL.
      induction NL as [|c l NI NL IH]; [constructor|]. cbn.
      assert (A : forall i, In i (map (fun i => (c, i)) (seq 0 (nth c p 0))) -> ~ In i (flat_map (fun c => map (fun i => (c, i)) (seq 0 (nth c p 0))) l)).
      { intros i I J. apply in_map_iff in I. destruct I as (a & <- & _). apply in_flat_map in J. destruct J as (c' & C & J).
        apply in_map_iff in J. destruct J as (b & E & _). injection E as -> _. contradiction. }
      assert (M : NoDup (map (fun i => (c, i)) (seq 0 (nth c p 0)))).
      { apply FinFun.Injective_map_NoDup; [intros a b E; congruence|apply seq_NoDup]. }
      clear - A M IH. induction M as [|x m NI M IHm]; [exact IH|]. cbn. constructor.
      - rewrite in_app_iff. intros [X|X]; [contradiction|]. eapply A; [now left|exact X].
      - apply IHm. intros i I. apply A. now right. }
    assert (G : forall l, NoDup l -> (forall o, In o l -> In o (ops_of p)) -> NoDup (map op_id l)).
    { intros l N. induction N as [|o l NI N IH]; intros S; [constructor|]. cbn [map]. constructor.
      - intros I. apply in_map_iff in I. destruct I as (o' & E & I). apply NI.
        pose proof (R o (S o (or_introl eq_refl))) as X. pose proof (R o' (S o' (or_intror I))) as Y.
        unfold resolve in X, Y. rewrite E in Y. rewrite X in Y. injection Y as ->. exact I.
      - apply IH. intros o' I. apply S. now right. }
    apply G; auto. }
  split; [exact ND|now apply mod_inj].
Qed.

(** False for any one crate with more than 256 operations, whatever the link order. *)
Theorem C34_many_operations_refuted : forall n link, n > 256 -> ~ resolves [n] link.
Proof.
  intros n link G R. destruct (C34_limits _ _ R) as [_ L]. unfold ops_of in L. cbn [seq length flat_map app nth] in L.
  rewrite app_nil_r, map_length, seq_length in L. lia.
Qed.

Theorem C34_single_crate_needed : forall p link c c', resolves p link -> c < length p -> c' < length p -> nth c p 0 > 0 -> nth c' p 0 > 0 -> c = c'.
Proof.
  intros p link c c' R C C' P P'.
  assert (I : forall c, c < length p -> nth c p 0 > 0 -> In (c, 0) (ops_of p)).
  { intros k K KP. apply in_flat_map. exists k. split; [apply in_seq; lia|]. apply in_map_iff. exists 0. split; [reflexivity|]. apply in_seq. lia. }
  pose proof (R _ (I c C P)) as X. pose proof (R _ (I c' C' P')) as Y. unfold resolve, op_id in X, Y. cbn in X, Y. rewrite X in Y. congruence.
Qed.

Example C34_ex : resolve (ops_of [3]) (0, 2) = Some (0, 2) /\ In (0, 2) (ops_of [3]).
Proof. split; [reflexivity|cbn; tauto]. Qed.

Print Assumptions C34_two_crates_refuted.
Print Assumptions C34_many_operations_refuted.
Print Assumptions C34_link_order_refuted.
Print Assumptions C34_one_crate_partial.
Print Assumptions C34_limits.
Print Assumptions C34_single_crate_needed.
