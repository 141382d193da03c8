(** The value invariant of the fold: everything in flight is the in-order combination of its range. *)
From Coq Require Import List NArith Lia Permutation Bool.
From Verif Require Import Base BaseFacts ContiguousModel ContiguousSpec ContiguousProofs FoldModel FoldSpec.
Import ListNotations.
Open Scope N_scope.

(** ** Facts about the specification *)

Lemma index_from_in : forall (A : Type) (l : list A) base i x,
  In (i, x) (index_from base l) <-> base <= i /\ nth_error l (N.to_nat (i - base)) = Some x.
Proof.
  intros A l; induction l as [|y l IH]; intros base i x; cbn.
  - split; [tauto|]. intros [_ H]. destruct (N.to_nat (i - base)); discriminate.
  - rewrite IH. split.
    + intros [H|[H1 H2]].
      * injection H as <- <-. split; [lia|]. now rewrite N.sub_diag.
      * split; [lia|]. replace (N.to_nat (i - base)) with (S (N.to_nat (i - (base + 1)))) by lia. exact H2.
    + intros [H1 H2]. destruct (N.eq_dec i base) as [->|Hne].
      * left. rewrite N.sub_diag in H2. cbn in H2. congruence.
      * right. split; [lia|]. replace (N.to_nat (i - base)) with (S (N.to_nat (i - (base + 1)))) in H2 by lia. exact H2.
Qed.

Lemma index_from_length : forall (A : Type) (l : list A) base, length (index_from base l) = length l.
Proof. intros A l; induction l as [|y l IH]; intros base; cbn; [reflexivity | now rewrite IH]. Qed.

Lemma index_from_fst : forall (A : Type) (l : list A) base,
  map fst (index_from base l) = map (fun k => base + N.of_nat k) (seq 0 (length l)).
Proof.
  intros A l; induction l as [|y l IH]; intros base; cbn; [reflexivity|].
  rewrite IH, <- seq_shift, map_map. f_equal; [lia|]. apply map_ext. intros k. lia.
Qed.

(** Fold of an associative total operation over any parenthesisation. *)
Lemma fold_left_assoc : forall (A : Type) (f : A -> A -> A),
  (forall a b c, f a (f b c) = f (f a b) c) ->
  forall l a b, fold_left f l (f a b) = f a (fold_left f l b).
Proof.
  intros A f Hf l; induction l as [|x l IH]; intros a b; cbn; [reflexivity|].
  rewrite <- IH. f_equal. symmetry. apply Hf.
Qed.

Lemma in_order_assoc : forall (A E O : Type) (comb : O -> A -> A -> res E A) f,
  (forall o a b c, comb o a b = ROk c -> c = f a b) ->
  (forall a b c, f a (f b c) = f (f a b) c) ->
  forall l v, in_order comb l v -> exists x r, l = x :: r /\ v = fold1 f x r.
Proof.
  intros A E O comb f Hc Hf l v H. induction H as [x|l1 l2 a b c o H1 IH1 H2 IH2 HC].
  - exists x, []. split; reflexivity.
  - destruct IH1 as (x & r & -> & ->). destruct IH2 as (y & r' & -> & ->).
    exists x, (r ++ y :: r'). split; [reflexivity|].
    apply Hc in HC. subst c. unfold fold1. rewrite fold_left_app. cbn.
    symmetry. now apply fold_left_assoc.
Qed.

(** ** Slices *)
Section Slice.
  Variable A : Type.
  Variable base : N.
  Variable l : list A.

  Definition slice (lo hi : N) : list A :=
    firstn (N.to_nat (hi + 1 - lo)) (skipn (N.to_nat (lo - base)) l).

  Lemma firstn_add : forall (B : Type) a b (m : list B), firstn (a + b) m = firstn a m ++ firstn b (skipn a m).
  Proof.
    intros B a; induction a as [|a IH]; intros b m; cbn; [reflexivity|].
    destruct m as [|x m]; cbn; [now destruct b|]. now rewrite IH.
  Qed.

  Lemma skipn_add : forall (B : Type) a b (m : list B), skipn (a + b) m = skipn b (skipn a m).
  Proof.
    intros B a; induction a as [|a IH]; intros b m; cbn; [reflexivity|].
    destruct m as [|x m]; cbn; [now destruct b|]. now rewrite IH.
  Qed.

  Lemma slice_app : forall lo mid hi, base <= lo -> lo <= mid -> mid < hi ->
    slice lo hi = slice lo mid ++ slice (mid + 1) hi.
  Proof.
    intros lo mid hi H0 H1 H2. unfold slice.
    replace (N.to_nat (hi + 1 - lo)) with (N.to_nat (mid + 1 - lo) + N.to_nat (hi + 1 - (mid + 1)))%nat by lia.
    rewrite firstn_add. do 2 f_equal. rewrite <- skipn_add. f_equal. lia.
  Qed.

  Lemma firstn1_skipn : forall k x (m : list A), nth_error m k = Some x -> firstn 1 (skipn k m) = [x].
  Proof.
    induction k as [|k IH]; intros x m H; destruct m as [|y m]; cbn in *; try discriminate.
    - now injection H as ->.
    - now apply IH.
  Qed.

  Lemma slice_one : forall i x, In (i, x) (index_from base l) -> slice i i = [x].
  Proof.
    intros i x H. apply index_from_in in H. destruct H as [H1 H2]. unfold slice.
    replace (N.to_nat (i + 1 - i)) with 1%nat by lia. now apply firstn1_skipn.
  Qed.

  Lemma slice_full : forall lo hi, lo = base -> hi + 1 - lo = N.of_nat (length l) -> slice lo hi = l.
  Proof.
    intros lo hi -> H. unfold slice. rewrite H, Nnat.Nat2N.id, N.sub_diag. apply firstn_all.
  Qed.
End Slice.
Arguments slice {A} base l lo hi.

(** ** What acquire does without any assumption of disjointness *)
Section Acquire.
  Variable A : Type.
  Implicit Types x y : item A.

  Lemma contents_remove : forall (q : list (N * item A)) k y, In y (contents (smap_remove k q)) -> In y (contents q).
  Proof.
    intros q k y H. apply in_map_iff in H. destruct H as ([k' y'] & E & H). cbn in E. subst y'.
    apply smap_remove_in in H. apply in_map_iff. exists (k', y). auto.
  Qed.

  Lemma contents_insert : forall (q : list (N * item A)) k x y, In y (contents (smap_insert k x q)) -> y = x \/ In y (contents q).
  Proof.
    intros q k x y H. apply in_map_iff in H. destruct H as ([k' y'] & E & H). cbn in E. subst y'.
    apply smap_insert_in in H. destruct H as [H|H]; [left; congruence|].
    right. apply in_map_iff. exists (k', y). auto.
  Qed.

  Lemma acquire_safe : forall q x,
    smap_sorted q -> keyed item_key q -> Forall proper (contents q) -> proper x ->
    match cq_acquire item_key is_contiguous q x with
    | (Some (lv, rv), q') =>
        adjacent lv rv /\ (lv = x /\ In rv (contents q) \/ rv = x /\ In lv (contents q)) /\
        incl (contents q') (contents q)
    | (None, q') => forall y, In y (contents q') -> y = x \/ In y (contents q)
    end.
  Proof.
    intros q x Hs Hk Hp Px.
    assert (IN : forall k y, smap_get k q = Some y -> In y (contents q) /\ it_lo y = k /\ proper y).
    { intros k y G. rewrite smap_get_in in G by exact Hs.
      assert (In y (contents q)) by (apply in_map_iff; exists (k, y); auto).
      split; [assumption|]. split; [apply (Hk k y G)|]. rewrite Forall_forall in Hp. auto. }
    unfold cq_acquire, find_contiguous.
    pose proof (smap_first_ge_spec _ q (item_key x) Hs) as HR.
    pose proof (smap_last_lt_spec _ q (item_key x) Hs) as HL.
    assert (LEFT : match match smap_last_lt (item_key x) q with
                | Some (ek, ev) => if is_contiguous x ev then (Some (Lhs ev), smap_remove ek q) else (None, q)
                | None => (None, q) end with
             | (Some (Lhs c), q') => adjacent c x /\ In c (contents q) /\ incl (contents q') (contents q)
             | (Some (Rhs c), q') => False
             | (None, q') => q' = q end).
    { destruct (smap_last_lt (item_key x) q) as [[ek ev]|]; [|reflexivity].
      destruct HL as (G & L & _). destruct (IN _ _ G) as (Hev & Ek & Pev).
      destruct (is_contiguous x ev) eqn:C; [|reflexivity].
      apply is_contiguous_spec in C; [|assumption|assumption].
      split; [|split; [exact Hev | intros y; apply contents_remove]].
      destruct C as [C|C]; [|exact C]. unfold adjacent in C. unfold item_key in L. destruct Px. lia. }
    assert (LEFT' : match match match smap_last_lt (item_key x) q with
                | Some (ek, ev) => if is_contiguous x ev then (Some (Lhs ev), smap_remove ek q) else (None, q)
                | None => (None, q) end with
             | (Some (Lhs c), q') => (Some (c, x), q')
             | (Some (Rhs c), q') => (Some (x, c), q')
             | (None, q') => (None, cq_queue item_key q' x) end with
      | (Some (lv, rv), q') =>
        adjacent lv rv /\ (lv = x /\ In rv (contents q) \/ rv = x /\ In lv (contents q)) /\
        incl (contents q') (contents q)
      | (None, q') => forall y, In y (contents q') -> y = x \/ In y (contents q) end).
    { destruct (match smap_last_lt (item_key x) q with
                | Some (ek, ev) => if is_contiguous x ev then (Some (Lhs ev), smap_remove ek q) else (None, q)
                | None => (None, q) end) as [[[c|c]|] q'].
      - destruct LEFT as (H1 & H2 & H3). split; [exact H1|]. split; [now right | exact H3].
      - destruct LEFT.
      - subst q'. intros y. apply contents_insert. }
    destruct (smap_first_ge (item_key x) q) as [[ek ev]|]; [|exact LEFT'].
    destruct (is_contiguous x ev) eqn:C; [|exact LEFT'].
    destruct HR as (G & L & _). destruct (IN _ _ G) as (Hev & Ek & Pev).
    apply is_contiguous_spec in C; [|assumption|assumption].
    split; [|split; [left; auto | intros y; apply contents_remove]].
    destruct C as [C|C]; [exact C|]. unfold adjacent in C. unfold item_key in L. destruct Pev. lia.
  Qed.
End Acquire.

(** ** The invariant *)
Section Values.
  Variables A E O : Type.
  Variable comb : O -> A -> A -> res E A.
  Variable empty : A.
  Variable base : N.
  Variable l : list A.
  Let n : N := N.of_nat (length l).
  Hypothesis bound : base + n <= usize_max.

  Definition vitem (it : item A) : Prop :=
    base <= it_lo it /\ it_lo it <= it_hi it /\ it_hi it < base + n /\
    in_order comb (slice base l (it_lo it) (it_hi it)) (it_val it).

  Definition vtask (t : ftask A) : Prop :=
    exists mid, base <= ft_lo t /\ ft_lo t <= mid /\ mid < ft_hi t /\ ft_hi t < base + n /\
      in_order comb (slice base l (ft_lo t) mid) (ft_l t) /\
      in_order comb (slice base l (mid + 1) (ft_hi t)) (ft_r t).

  Definition vres (r : res E (item A)) : Prop := match r with ROk it => vitem it | RErr _ => True end.

  Definition full (it : item A) : Prop := it_lo it = base /\ it_hi it + 1 = base + n.

  (** What a returned value must be. *)
  Definition good (v : A) : Prop := (l = [] /\ v = empty) \/ in_order comb l v.

  Record vinv (s : fstate A E) : Prop := {
    v_inp : exists arr, f_inp s = map ROk arr /\ forall i x, In (i, x) arr -> In (i, x) (index_from base l);
    v_count : f_count s + N.of_nat (length (f_inp s)) = n;
    v_ended : f_ended s = true -> f_inp s = [];
    v_sorted : smap_sorted (f_asm s);
    v_keyed : keyed item_key (f_asm s);
    v_asm : Forall vitem (contents (f_asm s));
    v_chan : Forall vtask (f_chan s);
    v_tasks : Forall vtask (f_tasks s);
    v_results : Forall vres (f_results s);
    v_final : forall it, f_final s = Some it -> vitem it /\ full it;
    v_ret : forall v, f_ret s = Some (RetOk v) -> good v
  }.

  Lemma vitem_proper : forall it, vitem it -> proper it.
  Proof. intros it (H1 & H2 & H3 & _). split; lia. Qed.

  Lemma input_vitem : forall i x, In (i, x) (index_from base l) -> vitem (mkItem i i x).
  Proof.
    intros i x H. unfold vitem. cbn. rewrite (slice_one _ _ _ _ _ H).
    apply index_from_in in H. destruct H as [H1 H2].
    assert (nth_error l (N.to_nat (i - base)) <> None) by congruence.
    apply nth_error_Some in H. unfold n. repeat split; try lia. constructor.
  Qed.

  Lemma asm_proper : forall q, Forall vitem (contents q) -> Forall proper (contents q).
  Proof. intros q. apply Forall_impl. apply vitem_proper. Qed.

  Lemma try_dispatch_vinv : forall s it, vinv s -> vitem it -> vinv (try_dispatch s it).
  Proof.
    intros s it I V. destruct I. unfold try_dispatch.
    pose proof (acquire_safe A (f_asm s) it v_sorted0 v_keyed0 (asm_proper _ v_asm0) (vitem_proper _ V)) as H.
    pose proof (cq_acquire_sorted _ item_key is_contiguous (f_asm s) it v_sorted0) as HS.
    pose proof (cq_acquire_keyed _ item_key is_contiguous (f_asm s) it v_keyed0) as HK.
    destruct (cq_acquire item_key is_contiguous (f_asm s) it) as [[[lv rv]|] q']; cbn in *.
    - destruct H as (AD & W & INC).
      rewrite Forall_forall in v_asm0.
      constructor; cbn; auto.
      + apply Forall_forall. auto.
      + apply Forall_app. split; [assumption|]. constructor; [|constructor].
        assert (VL : vitem lv /\ vitem rv).
        { destruct W as [[-> W]|[-> W]]; auto. }
        destruct VL as ((L1 & L2 & L3 & L4) & (R1 & R2 & R3 & R4)).
        unfold adjacent in AD. exists (it_hi lv). cbn. rewrite AD.
        repeat split; try assumption; lia.
    - rewrite Forall_forall in v_asm0. constructor; cbn; auto.
      apply Forall_forall. intros y Hy. destruct (H y Hy) as [->|Hy']; auto.
  Qed.

  Lemma final_full : forall s it, vinv s -> vitem it -> f_ended s = true -> is_final it (f_count s) = true -> full it.
  Proof.
    intros s it I (H1 & H2 & H3 & _) He Hf. destruct I.
    rewrite (v_ended0 He) in v_count0. cbn in v_count0. unfold is_final in Hf. apply N.eqb_eq in Hf.
    rewrite wsucc_small in Hf by lia. split; lia.
  Qed.

  Lemma full_good : forall it, vitem it -> full it -> in_order comb l (it_val it).
  Proof.
    intros it (H1 & H2 & H3 & H4) [F1 F2]. rewrite slice_full in H4; [exact H4|exact F1|]. fold n. lia.
  Qed.

  Lemma f_return_vinv : forall s o, vinv s -> (forall v, o = RetOk v -> good v) -> vinv (f_return s o).
  Proof. intros s o [] H. constructor; cbn; auto. intros v E0. injection E0 as ->. now apply H. Qed.

  Lemma on_result_vinv : forall s r ack, vinv s -> vres r -> vinv (on_result s r ack).
  Proof.
    intros s r ack I V. unfold on_result. destruct r as [it|e].
    - destruct (f_ended s && is_final it (f_count s)) eqn:C.
      + apply andb_true_iff in C. destruct C as [C1 C2].
        destruct ack.
        * destruct (f_final s) eqn:F.
          -- apply f_return_vinv; [exact I | discriminate].
          -- pose proof (final_full s it I V C1 C2) as FU. destruct I. constructor; cbn; auto.
             intros it' E0. injection E0 as <-. auto.
        * apply f_return_vinv; [exact I | discriminate].
      + destruct ack; [now apply try_dispatch_vinv|].
        apply f_return_vinv; [now apply try_dispatch_vinv | discriminate].
    - apply f_return_vinv; [exact I | discriminate].
  Qed.

  Lemma pickF : forall (B : Type) (P : B -> Prop) i (m : list B) x r,
    pick i m = Some (x, r) -> Forall P m -> P x /\ Forall P r.
  Proof. exact pick_Forall. Qed.

  Lemma fold_step_vinv : forall s e s', vinv s -> fold_step comb empty s e = Some s' -> vinv s'.
  Proof.
    intros s e s' I H. unfold fold_step in H. destruct (f_ret s) eqn:R; [discriminate|].
    destruct e as [| |i ok|i o|i ack|ok|i|i|i|i].
    - (* input *)
      destruct (v_inp s I) as (arr & EA & HA).
      destruct arr as [|[ix x] arr]; cbn in EA; rewrite EA in H; [discriminate|].
      injection H as <-.
      assert (V : vitem (mkItem ix ix x)) by (apply input_vitem, HA; now left).
      assert (I' : vinv (set_count (set_inp s (map ROk arr)) (f_count s + 1))).
      { destruct I. rewrite EA in v_count0. cbn in v_count0.
        constructor; cbn; auto.
        - exists arr. split; [reflexivity|]. intros; apply HA; now right.
        - lia.
        - intros HE. rewrite (v_ended0 HE) in EA. discriminate. }
      unfold on_input. cbn [f_count set_inp fst snd]. destruct (f_count s + 1 <? 2).
      + unfold cq_queue. cbn [f_asm set_count set_inp].
        destruct I'. cbn in *. constructor; cbn; auto.
        * now apply smap_insert_sorted.
        * now apply (keyed_insert _ item_key _ (mkItem ix ix x)).
        * apply Forall_forall. intros y Hy. apply contents_insert in Hy. rewrite Forall_forall in v_asm0.
          destruct Hy as [->|Hy]; auto.
      + now apply try_dispatch_vinv.
    - (* end of input *)
      destruct (f_inp s) eqn:EI; [|discriminate]. destruct (f_ended s) eqn:EE; [discriminate|].
      injection H as <-.
      assert (I' : vinv (set_ended s)).
      { destruct I. constructor; cbn; auto. }
      pose proof (v_count s I) as HC. rewrite EI in HC. cbn in HC.
      unfold on_input_end. cbn [f_count set_ended].
      destruct (N.eqb_spec (f_count s) 0) as [C0|C0].
      + apply f_return_vinv; [exact I'|]. intros v E0. injection E0 as <-. left. split; [|reflexivity].
        apply length_zero_iff_nil. unfold n in HC. lia.
      + destruct (N.eqb_spec (f_count s) 1) as [C1|C1]; [|exact I'].
        unfold cq_dequeue. cbn [f_asm set_ended]. destruct (smap_get 0 (f_asm s)) as [it|] eqn:G.
        * apply f_return_vinv.
          -- destruct I'. cbn in *. constructor; cbn; auto.
             ++ now apply smap_remove_sorted.
             ++ now apply keyed_remove.
             ++ apply Forall_forall. intros y Hy. apply contents_remove in Hy. rewrite Forall_forall in v_asm0. auto.
          -- intros v E0. injection E0 as <-. right.
             destruct I. rewrite smap_get_in in G by assumption.
             assert (V : vitem it).
             { rewrite Forall_forall in v_asm0. apply v_asm0. apply in_map_iff. exists (0, it). auto. }
             apply full_good; [exact V|]. destruct V as (V1 & V2 & V3 & _). split; lia.
        * apply f_return_vinv; [exact I' | discriminate].
    - (* publish *)
      destruct (pick i (f_chan s)) as [[t c]|] eqn:P; [|discriminate].
      destruct (pickF _ vtask _ _ _ _ P (v_chan s I)) as [Vt Vc].
      destruct ok; injection H as <-.
      + destruct I. constructor; cbn; auto. apply Forall_app. split; [assumption|]. now constructor.
      + apply f_return_vinv; [|discriminate]. destruct I. constructor; cbn; auto.
    - (* work *)
      destruct (pick i (f_tasks s)) as [[t ts]|] eqn:P; [|discriminate].
      destruct (pickF _ vtask _ _ _ _ P (v_tasks s I)) as [Vt Vc]. injection H as <-.
      destruct I. constructor; cbn; auto. apply Forall_app. split; [assumption|]. constructor; [|constructor].
      destruct Vt as (mid & B1 & B2 & B3 & B4 & L & R0).
      destruct (comb o (ft_l t) (ft_r t)) as [v|x] eqn:C; cbn; [|exact I].
      unfold vitem. cbn. repeat split; try lia.
      rewrite (slice_app A base l (ft_lo t) mid (ft_hi t)) by lia. econstructor; eauto.
    - (* result *)
      destruct (2 <=? f_count s); [|discriminate].
      destruct (pick i (f_results s)) as [[r rs]|] eqn:P; [|discriminate]. injection H as <-.
      destruct (pickF _ vres _ _ _ _ P (v_results s I)) as [Vr Vrs].
      apply on_result_vinv; [|exact Vr]. destruct I. constructor; cbn; auto.
    - (* final *)
      destruct (f_final s) as [it|] eqn:F; [|discriminate]. injection H as <-.
      apply f_return_vinv; [exact I|]. intros v E0. destruct ok; [|discriminate]. injection E0 as <-.
      right. destruct (v_final s I it F). now apply full_good.
    - destruct (pick i (f_tasks s)) as [[t ts]|] eqn:P; [|discriminate]. injection H as <-.
      destruct (pickF _ vtask _ _ _ _ P (v_tasks s I)) as [Vt Vc]. destruct I. constructor; cbn; auto.
    - destruct (pick i (f_results s)) as [[t ts]|] eqn:P; [|discriminate]. injection H as <-.
      destruct (pickF _ vres _ _ _ _ P (v_results s I)) as [Vt Vc]. destruct I. constructor; cbn; auto.
    - destruct (nth_error (f_tasks s) i) as [t|] eqn:P; [|discriminate]. injection H as <-.
      apply nth_error_In in P. destruct I. constructor; cbn; auto.
      apply Forall_app. split; [assumption|]. constructor; [|constructor]. rewrite Forall_forall in v_tasks0. auto.
    - destruct (nth_error (f_results s) i) as [t|] eqn:P; [|discriminate]. injection H as <-.
      apply nth_error_In in P. destruct I. constructor; cbn; auto.
      apply Forall_app. split; [assumption|]. constructor; [|constructor]. rewrite Forall_forall in v_results0. auto.
  Qed.

  Lemma vinv_init : forall arr, Permutation arr (index_from base l) -> vinv (fold_init (map ROk arr)).
  Proof.
    intros arr HP. constructor; cbn; auto; try discriminate; try constructor.
    - exists arr. split; [reflexivity|]. intros i x H. eapply Permutation_in; eauto.
    - rewrite map_length. apply Permutation_length in HP. rewrite index_from_length in HP. unfold n. lia.
    - intros k v [].
  Qed.

  Lemma fold_ok_in_order : forall arr tr s v, Permutation arr (index_from base l) ->
    fold_run comb empty (map ROk arr) tr = Some s -> f_ret s = Some (RetOk v) -> good v.
  Proof.
    intros arr tr s v HP HR. apply (v_ret s).
    apply (run_from_inv _ _ _ vinv fold_step_vinv tr (fold_init (map ROk arr)) s (vinv_init arr HP) HR).
  Qed.
End Values.

(** ** C05: input errors *)
Section InputErrors.
  Variables A E O : Type.
  Variable comb : O -> A -> A -> res E A.
  Variable empty : A.

  (** As long as an error is to come, the input is not over and no final value was produced; once it
      came, the fold has returned an error. *)
  Definition einv (s : fstate A E) : Prop :=
    ((exists x, In (RErr x) (f_inp s)) /\ f_ended s = false /\ f_final s = None /\
      (forall v, f_ret s <> Some (RetOk v)) /\ f_ret s <> Some Panicked) \/
    (exists e, f_ret s = Some (RetErr e)).

  Lemma try_dispatch_fields : forall (s : fstate A E) it,
    f_inp (try_dispatch s it) = f_inp s /\ f_ended (try_dispatch s it) = f_ended s /\
    f_final (try_dispatch s it) = f_final s /\ f_ret (try_dispatch s it) = f_ret s /\
    f_count (try_dispatch s it) = f_count s /\ f_tasks (try_dispatch s it) = f_tasks s /\
    f_results (try_dispatch s it) = f_results s.
  Proof.
    intros s it. unfold try_dispatch.
    destruct (cq_acquire item_key is_contiguous (f_asm s) it) as [[[a b]|] q]; cbn; repeat split.
  Qed.

  Lemma einv_step : forall s e s', einv s -> fold_step comb empty s e = Some s' -> einv s'.
  Proof.
    intros s e s' I H. unfold fold_step in H. destruct (f_ret s) eqn:R; [discriminate|].
    destruct I as [((x & HX) & HE & HF & H1 & H2)|(e0 & I)]; [|congruence].
    assert (K : forall t : fstate A E, f_inp t = f_inp s -> f_ended t = false -> f_final t = None -> f_ret t = None -> einv t).
    { intros t T1 T2 T3 T4. left. rewrite T1, T2, T3, T4. split; [eauto|]. repeat split; discriminate. }
    destruct e as [| |i ok|i o|i ack|ok|i|i|i|i].
    - destruct (f_inp s) as [|[[ix y]|er] rest] eqn:EI; [discriminate| |].
      + injection H as <-. left.
        assert (HX' : In (RErr x) rest) by (destruct HX as [?|?]; [discriminate|assumption]).
        unfold on_input. cbn [f_count set_inp fst snd]. destruct (f_count s + 1 <? 2); cbn.
        * rewrite R. split; [eauto|]. repeat split; try assumption; discriminate.
        * destruct (try_dispatch_fields (set_count (set_inp s rest) (f_count s + 1)) (mkItem ix ix y))
            as (F1 & F2 & F3 & F4 & _). rewrite F1, F2, F3, F4. cbn. rewrite R.
          split; [eauto|]. repeat split; try assumption; discriminate.
      + injection H as <-. right. cbn. eauto.
    - destruct (f_inp s); [destruct HX | discriminate].
    - destruct (pick i (f_chan s)) as [[t c]|]; [|discriminate]. destruct ok; injection H as <-; [apply K; auto|].
      right. cbn. eauto.
    - destruct (pick i (f_tasks s)) as [[t c]|]; [|discriminate]. injection H as <-. apply K; auto.
    - destruct (2 <=? f_count s); [|discriminate].
      destruct (pick i (f_results s)) as [[r rs]|]; [|discriminate]. injection H as <-.
      unfold on_result. destruct r as [it|er]; [|right; cbn; eauto].
      cbn [f_ended set_results]. rewrite HE. cbn [andb].
      destruct (try_dispatch_fields (set_results s rs) it) as (F1 & F2 & F3 & F4 & _).
      destruct ack; [apply K; rewrite ?F1, ?F2, ?F3, ?F4; auto|]. right. cbn. eauto.
    - rewrite HF in H. discriminate.
    - destruct (pick i (f_tasks s)) as [[t c]|]; [|discriminate]. injection H as <-. apply K; auto.
    - destruct (pick i (f_results s)) as [[t c]|]; [|discriminate]. injection H as <-. apply K; auto.
    - destruct (nth_error (f_tasks s) i); [|discriminate]. injection H as <-. apply K; auto.
    - destruct (nth_error (f_results s) i); [|discriminate]. injection H as <-. apply K; auto.
  Qed.

  Lemma input_error_never_ok : forall inp tr s x, In (RErr x) inp ->
    fold_run comb empty inp tr = Some s ->
    f_ret s = None \/ exists e, f_ret s = Some (RetErr e).
  Proof.
    intros inp tr s x HX HR.
    assert (I : einv s).
    { apply (run_from_inv _ _ _ einv einv_step tr (fold_init inp) s); [|exact HR].
      left. cbn. split; [eauto|]. repeat split; discriminate. }
    destruct I as [(_ & _ & _ & H1 & H2)|(e & I)]; [|eauto].
    destruct (f_ret s) as [[v|e|]|]; [now destruct (H1 v) | eauto | congruence | now left].
  Qed.

  (** An error blamed on a worker was answered by a worker: some task was executed with it. *)
  Definition winv (P : E -> Prop) (s : fstate A E) : Prop :=
    (forall e, In (RErr e) (f_results s) -> P e) /\
    (forall e, f_ret s = Some (RetErr (ErrWorker e)) -> P e).

  Lemma winv_step : forall (P : E -> Prop), (forall o a b e, comb o a b = RErr e -> P e) ->
    forall s e s', winv P s -> fold_step comb empty s e = Some s' -> winv P s'.
  Proof.
    intros P HP s e s' [I1 I2] H. unfold fold_step in H. destruct (f_ret s) eqn:R; [discriminate|].
    destruct e as [| |i ok|i o|i ack|ok|i|i|i|i].
    - destruct (f_inp s) as [|[[ix y]|er] rest] eqn:EI; [discriminate| |].
      + injection H as <-. unfold on_input. cbn [f_count set_inp fst snd]. destruct (f_count s + 1 <? 2); cbn.
        * split; [exact I1 | cbn; rewrite R; discriminate].
        * destruct (try_dispatch_fields (set_count (set_inp s rest) (f_count s + 1)) (mkItem ix ix y))
            as (_ & _ & _ & F4 & _ & _ & F7). unfold winv. rewrite F4, F7. cbn. rewrite R. split; [exact I1|discriminate].
      + injection H as <-. split; [exact I1 | cbn; discriminate].
    - destruct (f_inp s); [|discriminate]. destruct (f_ended s); [discriminate|]. injection H as <-.
      unfold on_input_end. cbn [f_count set_ended]. destruct (f_count s =? 0); [split; [exact I1|cbn; discriminate]|].
      destruct (f_count s =? 1); [|split; [exact I1|cbn; rewrite R; discriminate]].
      destruct (cq_dequeue _ 0) as [[it|] q]; (split; [exact I1|cbn; discriminate]).
    - destruct (pick i (f_chan s)) as [[t c]|]; [|discriminate]. destruct ok; injection H as <-;
      (split; [exact I1 | cbn; try rewrite R; discriminate]).
    - destruct (pick i (f_tasks s)) as [[t c]|]; [|discriminate]. injection H as <-. split; [|cbn; rewrite R; discriminate].
      cbn. intros e He. apply in_app_iff in He. destruct He as [He|[He|[]]]; [auto|].
      destruct (comb o (ft_l t) (ft_r t)) eqn:C; [discriminate|]. injection He as <-. eapply HP; eauto.
    - destruct (2 <=? f_count s); [|discriminate].
      destruct (pick i (f_results s)) as [[r rs]|] eqn:PK; [|discriminate]. injection H as <-.
      assert (J1 : forall e, In (RErr e) rs -> P e) by (intros e He; apply I1; eapply pick_in_rest; eauto).
      unfold on_result. destruct r as [it|er].
      + destruct (try_dispatch_fields (set_results s rs) it) as (_ & _ & _ & F4 & _ & _ & F7).
        cbn [f_ended f_count f_final set_results].
        destruct (f_ended s && is_final it (f_count s)).
        * destruct ack; [destruct (f_final s)|]; (split; [exact J1 | cbn; try rewrite R; discriminate]).
        * destruct ack; unfold winv; cbn [f_results f_ret f_return]; rewrite ?F4, ?F7; cbn;
            (split; [exact J1 | try rewrite R; discriminate]).
      + split; [exact J1|]. cbn. intros e E0. injection E0 as <-. apply I1. eapply pick_in; eauto.
    - destruct (f_final s); [|discriminate]. injection H as <-. split; [exact I1|]. cbn. destruct ok; discriminate.
    - destruct (pick i (f_tasks s)) as [[t c]|]; [|discriminate]. injection H as <-. split; [exact I1|cbn; rewrite R; discriminate].
    - destruct (pick i (f_results s)) as [[t c]|] eqn:PK; [|discriminate]. injection H as <-. split; [|cbn; rewrite R; discriminate].
      cbn. intros e He; apply I1; eapply pick_in_rest; eauto.
    - destruct (nth_error (f_tasks s) i); [|discriminate]. injection H as <-. split; [exact I1|cbn; rewrite R; discriminate].
    - destruct (nth_error (f_results s) i) eqn:NE; [|discriminate]. injection H as <-. split; [|cbn; rewrite R; discriminate].
      cbn. intros e He. apply in_app_iff in He. destruct He as [He|[He|[]]]; [auto|]. subst. apply I1. eapply nth_error_In; eauto.
  Qed.

  Lemma worker_error_real : forall inp tr s e,
    fold_run comb empty inp tr = Some s -> f_ret s = Some (RetErr (ErrWorker e)) ->
    exists o a b, comb o a b = RErr e.
  Proof.
    intros inp tr s e HR HE.
    assert (I : winv (fun e => exists o a b, comb o a b = RErr e) s).
    { apply (run_from_inv _ _ _ _ (winv_step _ (fun o a b e H => ex_intro _ o (ex_intro _ a (ex_intro _ b H)))) tr (fold_init inp) s).
      - split; cbn; [tauto|discriminate].
      - exact HR. }
    apply I. exact HE.
  Qed.
End InputErrors.
