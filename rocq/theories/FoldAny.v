(** C73: folds over items with arbitrary indices. The source calls duplicated indices a logic error (foldable.rs:62-64) but does not check for them. *)
From Coq Require Import List Arith NArith Lia Permutation Bool.
From Verif Require Import Base BaseFacts ContiguousModel ContiguousSpec ContiguousProofs FoldModel FoldSpec FoldProofs FoldProps.
Import ListNotations.
Open Scope N_scope.

Section Any.
  Variables A E O : Type.
  Variable comb : O -> A -> A -> res E A.
  Variable empty : A.
  Variable arr : list (N * A).
  Hypothesis indices : forall i x, In (i, x) arr -> i <= usize_max.

  (** Some of the items of [arr], one for each index of the range. *)
  Definition chosen (lo hi : N) (xs : list A) : Prop := N.of_nat (length xs) = hi + 1 - lo /\ incl (index_from lo xs) arr.
  (** What the wrapping addition may produce: the range starts at 0, and the last index of usize occurs but not in its place. *)
  Definition wrapped (lo hi : N) : Prop :=
    lo = 0 /\ hi <= usize_max /\ (exists x, In (0, x) arr) /\ (exists x, In (usize_max, x) arr) /\ (hi = usize_max \/ exists xs, chosen 0 hi xs).
  Definition aitem (it : item A) : Prop :=
    (it_lo it <= it_hi it /\ it_hi it <= usize_max /\ exists xs, chosen (it_lo it) (it_hi it) xs /\ in_order comb xs (it_val it)) \/ wrapped (it_lo it) (it_hi it).
  Definition atask (t : ftask A) : Prop :=
    (exists mid xs ys, ft_lo t <= mid /\ mid < ft_hi t /\ ft_hi t <= usize_max /\ chosen (ft_lo t) mid xs /\ chosen (mid + 1) (ft_hi t) ys /\
      in_order comb xs (ft_l t) /\ in_order comb ys (ft_r t)) \/ wrapped (ft_lo t) (ft_hi t).
  Definition ares (r : res E (item A)) : Prop := match r with ROk it => aitem it | RErr _ => True end.
  Definition sound (v : A) : Prop := (arr = [] /\ v = empty) \/ exists base l, Permutation arr (index_from base l) /\ in_order comb l v.

  Record ainv (s : fstate A E) : Prop := {
    a_inp : exists rest, f_inp s = map ROk rest /\ incl rest arr;
    a_count : f_count s + N.of_nat (length (f_inp s)) = N.of_nat (length arr);
    a_ended : f_ended s = true -> f_inp s = [];
    a_sorted : smap_sorted (f_asm s);
    a_keyed : keyed item_key (f_asm s);
    a_asm : Forall aitem (contents (f_asm s));
    a_chan : Forall atask (f_chan s);
    a_tasks : Forall atask (f_tasks s);
    a_results : Forall ares (f_results s);
    a_final : forall it, f_final s = Some it -> sound (it_val it);
    a_ret : forall v, f_ret s = Some (RetOk v) -> sound v
  }.

  Lemma index_from_app : forall (l1 l2 : list A) b, index_from b (l1 ++ l2) = index_from b l1 ++ index_from (b + N.of_nat (length l1)) l2.
  Proof.
    induction l1 as [|x l1 IH]; intros l2 b; cbn [app index_from length]; [now rewrite N.add_0_r|]. rewrite IH. cbn [app]. do 3 f_equal. lia.
  Qed.
  Lemma chosen_app : forall lo mid hi xs ys, lo <= mid -> mid < hi -> chosen lo mid xs -> chosen (mid + 1) hi ys -> chosen lo hi (xs ++ ys).
  Proof.
    intros lo mid hi xs ys H1 H2 [L1 I1] [L2 I2]. split; [rewrite app_length; lia|]. rewrite index_from_app. replace (lo + N.of_nat (length xs)) with (mid + 1) by lia.
    now apply incl_app.
  Qed.
  Lemma index_from_nodup : forall (l : list A) b, NoDup (index_from b l).
  Proof.
    induction l as [|x l IH]; intros b; cbn; constructor; [|apply IH]. intros H. apply index_from_in in H. lia.
  Qed.
  (** Items for [length arr] indices are all the items. *)
  Lemma chosen_all : forall lo hi xs, chosen lo hi xs -> hi + 1 - lo = N.of_nat (length arr) -> Permutation arr (index_from lo xs).
  Proof.
    intros lo hi xs [L I] H. symmetry. apply NoDup_Permutation_bis; [apply index_from_nodup| |exact I]. rewrite index_from_length. lia.
  Qed.
  Lemma wsucc_wraps : forall x, x <= usize_max -> wsucc x = if x =? usize_max then 0 else x + 1.
  Proof.
    intros x H. destruct (N.eqb_spec x usize_max) as [->|D]; [reflexivity|]. unfold wsucc. apply N.mod_small. unfold usize_max in *. assert (usize_mod <> 0) by discriminate. lia.
  Qed.
  Lemma chosen_has : forall lo hi xs i, chosen lo hi xs -> lo <= i -> i <= hi -> exists x, In (i, x) arr.
  Proof.
    intros lo hi xs i [L I] H1 H2. destruct (nth_error xs (N.to_nat (i - lo))) as [x|] eqn:Q; [|apply nth_error_None in Q; lia].
    exists x. apply I. apply index_from_in. auto.
  Qed.
  Lemma input_aitem : forall i x, In (i, x) arr -> aitem (mkItem i i x).
  Proof.
    intros i x H. left. split; [cbn; lia|]. split; [exact (indices i x H)|]. exists [x]. cbn. split; [|constructor]. split; [cbn [length]; lia|]. intros p [<-|[]]. exact H.
  Qed.
  Lemma aitem_range : forall it, aitem it -> it_lo it <= it_hi it /\ it_hi it <= usize_max /\ (it_lo it = 0 -> exists x, In (0, x) arr) /\
    (it_hi it = usize_max -> exists x, In (usize_max, x) arr).
  Proof.
    intros it [(H1 & H2 & xs & H3 & H4)|(H1 & H2 & H3 & H4 & _)].
    - split; [exact H1|]. split; [exact H2|]. split; intros Q; eapply chosen_has; try exact H3; lia.
    - split; [lia|]. split; [exact H2|]. auto.
  Qed.
  (** A pair that [acquire] makes. *)
  Lemma pair_task : forall lv rv, aitem lv -> aitem rv -> is_contiguous lv rv = true -> it_lo lv <= it_lo rv ->
    atask (mkTask (it_lo lv) (it_hi rv) (it_val lv) (it_val rv)).
  Proof.
    intros lv rv VL VR C O1. destruct (aitem_range lv VL) as (L1 & L2 & L3 & L4). destruct (aitem_range rv VR) as (R1 & R2 & R3 & R4).
    unfold is_contiguous in C. apply orb_true_iff in C. rewrite !N.eqb_eq, (wsucc_wraps _ L2), (wsucc_wraps _ R2) in C.
    destruct (N.eqb_spec (it_hi lv) usize_max) as [M|M].
    - assert (Q : it_lo lv = 0). { destruct C as [C|C]; [lia|]. destruct (N.eqb_spec (it_hi rv) usize_max); lia. }
      right. unfold wrapped. cbn. split; [exact Q|]. split; [exact R2|]. split; [auto|]. split; [auto|].
      destruct VR as [(_ & _ & xs & X & _)|(_ & _ & _ & _ & X)]; [|exact X].
      destruct (N.eqb_spec (it_hi rv) usize_max) as [M'|M']; [now left|]. destruct C as [C|C]; [|lia]. right. exists xs. now rewrite C.
    - destruct (N.eqb_spec (it_hi rv) usize_max) as [M'|M'].
      + destruct C as [C|C].
        * destruct VL as [(_ & _ & xs & X & X')|VL].
          -- destruct VR as [(_ & _ & ys & Y & Y')|(Z & _)]; [|lia]. left. exists (it_hi lv), xs, ys. cbn. rewrite C. repeat split; try assumption; try lia; try apply X; apply Y.
          -- destruct VL as (Z & _ & Z1 & Z2 & _). right. unfold wrapped. cbn. auto 10.
        * right. unfold wrapped. cbn. split; [lia|]. split; [exact R2|]. split; [apply L3; lia|]. split; [auto|now left].
      + destruct C as [C|C]; [|lia]. destruct VL as [(_ & _ & xs & X & X')|VL].
        * destruct VR as [(_ & _ & ys & Y & Y')|(Z & _)]; [|lia]. left. exists (it_hi lv), xs, ys. cbn. rewrite C. repeat split; try assumption; try lia; try apply X; apply Y.
        * destruct VL as (Z & _ & Z1 & Z2 & [Z3|(xs & Z3)]); [lia|]. destruct VR as [(_ & _ & ys & Y & Y')|(Z' & _)]; [|lia].
          right. unfold wrapped. cbn. split; [exact Z|]. split; [exact R2|]. split; [exact Z1|]. split; [exact Z2|]. right. exists (xs ++ ys).
          apply (chosen_app _ (it_hi lv)); [lia|lia|exact Z3|]. now rewrite C.
  Qed.
  Lemma acquire_pair : forall (q : list (N * item A)) x, smap_sorted q -> keyed item_key q ->
    match cq_acquire item_key is_contiguous q x with
    | (Some (lv, rv), q') => is_contiguous lv rv = true /\ it_lo lv <= it_lo rv /\ (lv = x /\ In rv (contents q) \/ rv = x /\ In lv (contents q)) /\ incl (contents q') (contents q)
    | (None, q') => forall y, In y (contents q') -> y = x \/ In y (contents q)
    end.
  Proof.
    intros q x Hs Hk.
    assert (IN : forall k y, smap_get k q = Some y -> In y (contents q) /\ it_lo y = k).
    { intros k y G. rewrite smap_get_in in G by exact Hs. split; [apply in_map_iff; exists (k, y); auto|apply (Hk k y G)]. }
    assert (SY : forall y, is_contiguous x y = is_contiguous y x) by (intros y; apply orb_comm).
    unfold cq_acquire, find_contiguous. pose proof (smap_first_ge_spec _ q (item_key x) Hs) as HR. pose proof (smap_last_lt_spec _ q (item_key x) Hs) as HL.
    assert (LEFT : match match match smap_last_lt (item_key x) q with
                | Some (ek, ev) => if is_contiguous x ev then (Some (Lhs ev), smap_remove ek q) else (None, q)
                | None => (None, q) end with
             | (Some (Lhs c), q') => (Some (c, x), q')
             | (Some (Rhs c), q') => (Some (x, c), q')
             | (None, q') => (None, cq_queue item_key q' x) end with
      | (Some (lv, rv), q') => is_contiguous lv rv = true /\ it_lo lv <= it_lo rv /\ (lv = x /\ In rv (contents q) \/ rv = x /\ In lv (contents q)) /\ incl (contents q') (contents q)
      | (None, q') => forall y, In y (contents q') -> y = x \/ In y (contents q) end).
    { destruct (smap_last_lt (item_key x) q) as [[ek ev]|]; [|intros y; apply contents_insert].
      destruct HL as (G & L & _). destruct (IN _ _ G) as (Hev & Ek). destruct (is_contiguous x ev) eqn:C; [|intros y; apply contents_insert].
      split; [now rewrite <- SY|]. split; [unfold item_key in L; lia|]. split; [now right|]. intros y. apply contents_remove. }
    destruct (smap_first_ge (item_key x) q) as [[ek ev]|]; [|exact LEFT]. destruct (is_contiguous x ev) eqn:C; [|exact LEFT].
    destruct HR as (G & L & _). destruct (IN _ _ G) as (Hev & Ek). split; [exact C|]. split; [unfold item_key in L; lia|]. split; [now left|]. intros y. apply contents_remove.
  Qed.

  Lemma try_dispatch_ainv : forall s it, ainv s -> aitem it -> ainv (try_dispatch s it).
  Proof.
    intros s it I V. destruct I. unfold try_dispatch.
    pose proof (acquire_pair (f_asm s) it a_sorted0 a_keyed0) as H.
    pose proof (cq_acquire_sorted _ item_key is_contiguous (f_asm s) it a_sorted0) as HS.
    pose proof (cq_acquire_keyed _ item_key is_contiguous (f_asm s) it a_keyed0) as HK.
    destruct (cq_acquire item_key is_contiguous (f_asm s) it) as [[[lv rv]|] q']; cbn in *; rewrite Forall_forall in a_asm0.
    - destruct H as (C & O1 & W & INC). constructor; cbn; auto.
      + apply Forall_forall. auto.
      + apply Forall_app. split; [assumption|]. constructor; [|constructor].
        assert (VL : aitem lv /\ aitem rv) by (destruct W as [[-> W]|[-> W]]; auto). now apply pair_task.
    - constructor; cbn; auto. apply Forall_forall. intros y Hy. destruct (H y Hy) as [->|Hy']; auto.
  Qed.
  Lemma final_sound : forall s it, ainv s -> aitem it -> f_ended s = true -> is_final it (f_count s) = true -> sound (it_val it).
  Proof.
    intros s it I V He Hf. destruct I. rewrite (a_ended0 He) in a_count0. cbn in a_count0. unfold is_final in Hf. apply N.eqb_eq in Hf.
    destruct (aitem_range it V) as (_ & V2 & _). rewrite wsucc_wraps in Hf by lia.
    assert (NE : f_count s <> 0).
    { intros Q. assert (arr = []) as AE by (apply length_zero_iff_nil; lia). destruct V as [(H1 & H2 & xs & H3 & _)|(_ & _ & (x & H3) & _)]; [|rewrite AE in H3; destruct H3].
      destruct (chosen_has _ _ _ (it_lo it) H3) as (x & X); [lia|lia|]. rewrite AE in X. destruct X. }
    destruct (N.eqb_spec (it_hi it - it_lo it) usize_max) as [M|M]; [lia|]. destruct V as [(H1 & H2 & xs & H3 & H4)|(H1 & H2 & _ & (x & H4) & H5)].
    - right. exists (it_lo it), xs. split; [|exact H4]. apply (chosen_all _ (it_hi it)); [exact H3|lia].
    - exfalso. destruct H5 as [H5|(xs & H5)]; [lia|]. assert (P : Permutation arr (index_from 0 xs)) by (apply (chosen_all _ (it_hi it)); [exact H5|lia]).
      apply (Permutation_in _ P) in H4. apply index_from_in in H4. destruct H4 as [_ H4]. assert (L : nth_error xs (N.to_nat (usize_max - 0)) <> None) by congruence.
      apply nth_error_Some in L. destruct H5 as [H5 _]. lia.
  Qed.
  Lemma f_return_ainv : forall s o, ainv s -> (forall v, o = RetOk v -> sound v) -> ainv (f_return s o).
  Proof. intros s o [] H. constructor; cbn; auto. intros v E0. injection E0 as ->. now apply H. Qed.
  Lemma on_result_ainv : forall s r ack, ainv s -> ares r -> ainv (on_result s r ack).
  Proof.
    intros s r ack I V. unfold on_result. destruct r as [it|e]; [|apply f_return_ainv; [exact I|discriminate]].
    destruct (f_ended s && is_final it (f_count s)) eqn:C.
    - apply andb_true_iff in C. destruct C as [C1 C2]. destruct ack; [|apply f_return_ainv; [exact I|discriminate]].
      destruct (f_final s) eqn:F; [apply f_return_ainv; [exact I|discriminate]|].
      pose proof (final_sound s it I V C1 C2) as FU. destruct I. constructor; cbn; auto. intros it' E0. injection E0 as <-. auto.
    - destruct ack; [now apply try_dispatch_ainv|]. apply f_return_ainv; [now apply try_dispatch_ainv|discriminate].
  Qed.
  Lemma fold_step_ainv : forall s e s', ainv s -> fold_step comb empty s e = Some s' -> ainv s'.
  Proof.
    intros s e s' I H. unfold fold_step in H. destruct (f_ret s) eqn:R; [discriminate|].
    destruct e as [| |i ok|i o|i ack|ok|i|i|i|i].
    - destruct (a_inp s I) as (rest & EA & HA). destruct rest as [|[ix x] rest]; cbn in EA; rewrite EA in H; [discriminate|]. injection H as <-.
      assert (V : aitem (mkItem ix ix x)) by (apply input_aitem, HA; now left).
      assert (I' : ainv (set_count (set_inp s (map ROk rest)) (f_count s + 1))).
      { destruct I. rewrite EA in a_count0. cbn in a_count0. constructor; cbn; auto.
        - exists rest. split; [reflexivity|]. intros p Hp; apply HA; now right.
        - lia.
        - intros HE. rewrite (a_ended0 HE) in EA. discriminate. }
      unfold on_input. cbn [f_count set_inp fst snd]. destruct (f_count s + 1 <? 2); [|now apply try_dispatch_ainv].
      unfold cq_queue. cbn [f_asm set_count set_inp]. destruct I'. cbn in *. constructor; cbn; auto.
      + now apply smap_insert_sorted.
      + now apply (keyed_insert _ item_key _ (mkItem ix ix x)).
      + apply Forall_forall. intros y Hy. apply contents_insert in Hy. rewrite Forall_forall in a_asm0. destruct Hy as [->|Hy]; auto.
    - destruct (f_inp s) eqn:EI; [|discriminate]. destruct (f_ended s) eqn:EE; [discriminate|]. injection H as <-.
      assert (I' : ainv (set_ended s)) by (destruct I; constructor; cbn; auto).
      pose proof (a_count s I) as HC. rewrite EI in HC. cbn in HC. unfold on_input_end. cbn [f_count set_ended].
      destruct (N.eqb_spec (f_count s) 0) as [C0|C0].
      + apply f_return_ainv; [exact I'|]. intros v E0. injection E0 as <-. left. split; [|reflexivity]. apply length_zero_iff_nil. lia.
      + destruct (N.eqb_spec (f_count s) 1) as [C1|C1]; [|exact I'].
        unfold cq_dequeue. cbn [f_asm set_ended]. destruct (smap_get 0 (f_asm s)) as [it|] eqn:G; [|apply f_return_ainv; [exact I'|discriminate]].
        apply f_return_ainv.
        * destruct I'. cbn in *. constructor; cbn; auto.
          -- now apply smap_remove_sorted.
          -- now apply keyed_remove.
          -- apply Forall_forall. intros y Hy. apply contents_remove in Hy. rewrite Forall_forall in a_asm0. auto.
        * intros v E0. injection E0 as <-. right. destruct I. rewrite smap_get_in in G by assumption.
          assert (V : aitem it) by (rewrite Forall_forall in a_asm0; apply a_asm0; apply in_map_iff; exists (0, it); auto).
          destruct V as [(V1 & V2 & xs & [V3 V4] & V5)|(_ & _ & (x & X) & (y & Y) & _)].
          2: { exfalso. assert (LX : (2 <= length arr)%nat); [|lia]. destruct arr as [|p [|p' r]]; [destruct X| |cbn; lia]. destruct X as [X|[]], Y as [Y|[]]. rewrite X in Y. discriminate. }
          exists (it_lo it), xs. split; [|exact V5].
          assert (LX : (length (index_from (it_lo it) xs) <= length arr)%nat) by (apply NoDup_incl_length; [apply index_from_nodup|exact V4]).
          rewrite index_from_length in LX. apply (chosen_all _ (it_hi it)); [split; assumption|]. lia.
    - destruct (pick i (f_chan s)) as [[t c]|] eqn:P; [|discriminate]. destruct (pick_Forall _ atask _ _ _ _ P (a_chan s I)) as [Vt Vc].
      destruct ok; injection H as <-.
      + destruct I. constructor; cbn; auto. apply Forall_app. split; [assumption|]. now constructor.
      + apply f_return_ainv; [|discriminate]. destruct I. constructor; cbn; auto.
    - destruct (pick i (f_tasks s)) as [[t ts]|] eqn:P; [|discriminate]. destruct (pick_Forall _ atask _ _ _ _ P (a_tasks s I)) as [Vt Vc]. injection H as <-.
      destruct I. constructor; cbn; auto. apply Forall_app. split; [assumption|]. constructor; [|constructor].
      destruct (comb o (ft_l t) (ft_r t)) as [v|x] eqn:C; cbn; [|exact Logic.I].
      destruct Vt as [(mid & xs & ys & B1 & B2 & B3 & X & Y & L & R0)|W]; [left|right; exact W]. split; [cbn; lia|]. split; [exact B3|]. exists (xs ++ ys). cbn. split; [now apply (chosen_app _ mid)|]. econstructor; eauto.
    - destruct (2 <=? f_count s); [|discriminate]. destruct (pick i (f_results s)) as [[r rs]|] eqn:P; [|discriminate]. injection H as <-.
      destruct (pick_Forall _ ares _ _ _ _ P (a_results s I)) as [Vr Vrs]. apply on_result_ainv; [|exact Vr]. destruct I. constructor; cbn; auto.
    - destruct (f_final s) as [it|] eqn:F; [|discriminate]. injection H as <-. apply f_return_ainv; [exact I|]. intros v E0. destruct ok; [|discriminate]. injection E0 as <-.
      exact (a_final s I it F).
    - destruct (pick i (f_tasks s)) as [[t ts]|] eqn:P; [|discriminate]. injection H as <-.
      destruct (pick_Forall _ atask _ _ _ _ P (a_tasks s I)) as [Vt Vc]. destruct I. constructor; cbn; auto.
    - destruct (pick i (f_results s)) as [[t ts]|] eqn:P; [|discriminate]. injection H as <-.
      destruct (pick_Forall _ ares _ _ _ _ P (a_results s I)) as [Vt Vc]. destruct I. constructor; cbn; auto.
    - destruct (nth_error (f_tasks s) i) as [t|] eqn:P; [|discriminate]. injection H as <-. apply nth_error_In in P. destruct I. constructor; cbn; auto.
      apply Forall_app. split; [assumption|]. constructor; [|constructor]. rewrite Forall_forall in a_tasks0. auto.
    - destruct (nth_error (f_results s) i) as [t|] eqn:P; [|discriminate]. injection H as <-. apply nth_error_In in P. destruct I. constructor; cbn; auto.
      apply Forall_app. split; [assumption|]. constructor; [|constructor]. rewrite Forall_forall in a_results0. auto.
  Qed.
  Lemma fold_sound : forall tr s v, fold_run comb empty (map ROk arr) tr = Some s -> f_ret s = Some (RetOk v) -> sound v.
  Proof.
    intros tr s v HR. apply (a_ret s). apply (run_from_inv _ _ _ ainv fold_step_ainv tr (fold_init (map ROk arr)) s); [|exact HR].
    constructor; cbn; auto; try discriminate; try constructor.
    - exists arr. split; [reflexivity|apply incl_refl].
    - now rewrite map_length.
    - intros k x [].
  Qed.
End Any.

(** C73. Whatever the stream yields (errors, indices missing, out of order or several times) and whatever happens to tasks and results: if the fold
    returns a value, the stream yielded no error, its indices were consecutive, each once, and the value is the in-order combination of the items. *)
Theorem C73_ok_is_right : forall (A E O : Type) (comb : O -> A -> A -> res E A) (empty : A) inp tr s v,
  (forall i x, In (ROk (i, x)) inp -> i <= usize_max) -> fold_run comb empty inp tr = Some s -> f_ret s = Some (RetOk v) ->
  (inp = [] /\ v = empty) \/ exists base l arr, inp = map ROk arr /\ Permutation arr (index_from base l) /\ in_order comb l v.
Proof.
  intros A E O comb empty inp tr s v SM R H.
  assert (D : (exists arr, inp = map ROk arr) \/ exists e, In (RErr e) inp).
  { clear. induction inp as [|[x|e] inp IH]; [left; now exists []| |right; exists e; now left].
    destruct IH as [(l & ->)|(e & I)]; [left; exists (x :: l); reflexivity|right; exists e; now right]. }
  destruct D as [(arr & ->)|(e & I)].
  - destruct (fold_sound A E O comb empty arr) with (tr := tr) (s := s) (v := v) as [[-> ->]|(base & l & P & IO)]; auto.
    + intros i x I. apply (SM i x). now apply in_map.
    + right. exists base, l, arr. auto.
  - destruct (C05_input_error_not_ok A E O comb empty inp tr s e I R) as [Q|(e' & Q)]; congruence.
Qed.
(** So with an index twice, or one missing in between, it never returns a value. *)
Theorem C73_bad_indices_never_ok : forall (A E O : Type) (comb : O -> A -> A -> res E A) (empty : A) arr tr s v,
  (forall i x, In (i, x) arr -> i <= usize_max) ->
  (~ NoDup (map fst arr) \/ exists i j k, i < j /\ j < k /\ In i (map fst arr) /\ In k (map fst arr) /\ ~ In j (map fst arr)) ->
  fold_run comb empty (map ROk arr) tr = Some s -> f_ret s <> Some (RetOk v).
Proof.
  intros A E O comb empty arr tr s v SM BAD R H.
  destruct (fold_sound A E O comb empty arr SM tr s v R H) as [[-> ->]|(base & l & P & _)].
  - destruct BAD as [B|(i & j & k & _ & _ & [] & _)]. apply B. constructor.
  - pose proof (Permutation_map fst P) as PF. rewrite index_from_fst in PF. destruct BAD as [B|(i & j & k & H1 & H2 & H3 & H4 & H5)].
    + apply B. symmetry in PF. apply (Permutation_NoDup PF). apply FinFun.Injective_map_NoDup; [|apply seq_NoDup]. intros a b Q. lia.
    + apply H5. symmetry in PF. apply (Permutation_in _ PF). symmetry in PF. apply (Permutation_in _ PF) in H3. apply (Permutation_in _ PF) in H4.
      apply in_map_iff in H3. destruct H3 as (a & Q1 & A1). apply in_map_iff in H4. destruct H4 as (b & Q2 & B1). apply in_seq in A1. apply in_seq in B1.
      apply in_map_iff. exists (N.to_nat (j - base)). split; [lia|]. apply in_seq. lia.
Qed.
(** Two items with index 0 and one with index 1: combined where possible, nothing returned. *)
Definition twice : list (N * list nat) := [(0, [1%nat]); (0, [2%nat]); (1, [3%nat])].
Example C73_example : (forall i x, In (i, x) twice -> i <= usize_max) /\ ~ NoDup (map fst twice) /\
  exists s, fold_run cat [] (map ROk twice) [EvInput; EvInput; EvInput; EvInputEnd; EvPublish 0 true; EvWork 0 tt; EvResult 0 true] = Some s /\ f_ret s = None /\ f_disp s = 1%nat.
Proof.
  split; [|split].
  - intros i x [Q|[Q|[Q|[]]]]; injection Q as <- _; discriminate.
  - intros N. inversion N as [|? ? N1 _]. apply N1. now left.
  - eexists. split; [vm_compute; reflexivity|]. split; reflexivity.
Qed.
Print Assumptions C73_ok_is_right.
Print Assumptions C73_bad_indices_never_ok.
