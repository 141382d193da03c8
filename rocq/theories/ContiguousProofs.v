(** Lemmas about the sequential ContiguousQueue model. *)
From Coq Require Import List NArith Lia Permutation Bool Sorting.Sorted.
From Verif Require Import Base BaseFacts ContiguousModel ContiguousSpec.
Import ListNotations.
Open Scope N_scope.

Section SMap.
  Variable T : Type.
  Implicit Types m : list (N * T).

  Definition smap_sorted m : Prop := StronglySorted (fun a b => fst a < fst b) m.

  Lemma sorted_inv : forall k v m, smap_sorted ((k, v) :: m) ->
    smap_sorted m /\ forall k' v', In (k', v') m -> k < k'.
  Proof.
    intros k v m H. inversion H as [|? ? Hs Hf]; subst. split; [exact Hs|].
    intros k' v' Hin. rewrite Forall_forall in Hf. apply (Hf (k', v') Hin).
  Qed.

  Lemma sorted_cons : forall k v m, smap_sorted m -> (forall k' v', In (k', v') m -> k < k') ->
    smap_sorted ((k, v) :: m).
  Proof.
    intros k v m Hs H. constructor; [exact Hs|]. apply Forall_forall. intros [k' v'] Hin. eapply H; eauto.
  Qed.

  Lemma smap_get_in : forall m k v, smap_sorted m -> (smap_get k m = Some v <-> In (k, v) m).
  Proof.
    induction m as [|[k' v'] m IH]; intros k v Hs; cbn.
    - split; [discriminate | tauto].
    - apply sorted_inv in Hs. destruct Hs as [Hs Hlt]. destruct (N.eqb_spec k k') as [->|Hne].
      + split.
        * intros H; injection H as <-. now left.
        * intros [H|H]; [now injection H as <- | apply Hlt in H; lia].
      + rewrite IH by exact Hs. split; [tauto|]. intros [H|H]; [congruence | exact H].
  Qed.

  Lemma smap_insert_in : forall m k v k' v', In (k', v') (smap_insert k v m) ->
    (k', v') = (k, v) \/ In (k', v') m.
  Proof.
    induction m as [|[k0 v0] m IH]; intros k v k' v' H; cbn in H.
    - destruct H as [H|[]]; auto.
    - destruct (k <? k0); [destruct H as [H|H]; auto; right; exact H|].
      destruct (k =? k0).
      + destruct H as [H|H]; auto. right; now right.
      + destruct H as [H|H]; [right; now left|]. apply IH in H. destruct H; auto. right; now right.
  Qed.

  Lemma smap_insert_sorted : forall m k v, smap_sorted m -> smap_sorted (smap_insert k v m).
  Proof.
    induction m as [|[k0 v0] m IH]; intros k v Hs; cbn.
    - apply sorted_cons; [constructor | intros ? ? []].
    - pose proof (sorted_inv _ _ _ Hs) as [Hs' Hlt].
      destruct (N.ltb_spec k k0) as [H|H].
      + apply sorted_cons; [exact Hs|]. intros k' v' [E|Hin]; [injection E as <- <-; exact H|].
        apply Hlt in Hin. lia.
      + destruct (N.eqb_spec k k0) as [->|Hne].
        * apply sorted_cons; [exact Hs' | exact Hlt].
        * apply sorted_cons; [now apply IH|]. intros k' v' Hin. apply smap_insert_in in Hin.
          destruct Hin as [E|Hin]; [injection E as -> ->; lia | eauto].
  Qed.

  Lemma smap_insert_get : forall m k v k', smap_get k' (smap_insert k v m) = fset (fun x => smap_get x m) k (Some v) k'.
  Proof.
    induction m as [|[k0 v0] m IH]; intros k v k'; cbn.
    - unfold fset. now destruct (k' =? k).
    - destruct (k <? k0) eqn:L; cbn.
      + unfold fset. cbn. now destruct (k' =? k).
      + destruct (N.eqb_spec k k0) as [->|Hne]; cbn.
        * unfold fset. cbn. now destruct (k' =? k0).
        * rewrite IH. unfold fset. cbn. destruct (N.eqb_spec k' k0) as [->|]; [|reflexivity].
          destruct (N.eqb_spec k0 k); [congruence | reflexivity].
  Qed.

  Lemma smap_remove_in : forall m k k' v', In (k', v') (smap_remove k m) -> In (k', v') m.
  Proof.
    induction m as [|[k0 v0] m IH]; intros k k' v' H; cbn in H; [exact H|].
    destruct (k =? k0); [now right|]. destruct H as [H|H]; [now left | right; eauto].
  Qed.

  Lemma smap_remove_sorted : forall m k, smap_sorted m -> smap_sorted (smap_remove k m).
  Proof.
    induction m as [|[k0 v0] m IH]; intros k Hs; cbn; [exact Hs|].
    pose proof (sorted_inv _ _ _ Hs) as [Hs' Hlt].
    destruct (k =? k0); [exact Hs'|]. apply sorted_cons; [now apply IH|].
    intros k' v' Hin. apply smap_remove_in in Hin. eauto.
  Qed.

  Lemma smap_get_none_lt : forall m k, (forall k' v', In (k', v') m -> k < k') -> smap_get k m = None.
  Proof.
    induction m as [|[k0 v0] m IH]; intros k H; cbn; [reflexivity|].
    destruct (N.eqb_spec k k0) as [->|]; [specialize (H k0 v0 (or_introl eq_refl)); lia|].
    apply IH. intros k' v' Hin. apply (H k' v'). now right.
  Qed.

  Lemma smap_remove_get : forall m k k', smap_sorted m ->
    smap_get k' (smap_remove k m) = fset (fun x => smap_get x m) k None k'.
  Proof.
    induction m as [|[k0 v0] m IH]; intros k k' Hs; cbn.
    - unfold fset. now destruct (k' =? k).
    - pose proof (sorted_inv _ _ _ Hs) as [Hs' Hlt].
      destruct (N.eqb_spec k k0) as [->|Hne]; cbn.
      + unfold fset. cbn. destruct (N.eqb_spec k' k0) as [->|]; [|reflexivity].
        now apply smap_get_none_lt.
      + rewrite IH by exact Hs'. unfold fset. cbn. destruct (N.eqb_spec k' k0) as [->|]; [|reflexivity].
        destruct (N.eqb_spec k0 k); [congruence | reflexivity].
  Qed.

  Lemma smap_remove_perm : forall m k v, smap_sorted m -> smap_get k m = Some v ->
    Permutation m ((k, v) :: smap_remove k m).
  Proof.
    induction m as [|[k0 v0] m IH]; intros k v Hs H; cbn in *; [discriminate|].
    pose proof (sorted_inv _ _ _ Hs) as [Hs' Hlt].
    destruct (N.eqb_spec k k0) as [->|Hne].
    - injection H as <-. apply Permutation_refl.
    - apply Permutation_trans with ((k0, v0) :: (k, v) :: smap_remove k m); [|apply perm_swap].
      constructor. now apply IH.
  Qed.

  Lemma smap_insert_perm : forall m k v, smap_get k m = None -> Permutation (smap_insert k v m) ((k, v) :: m).
  Proof.
    induction m as [|[k0 v0] m IH]; intros k v H; cbn in *; [apply Permutation_refl|].
    destruct (k <? k0); [apply Permutation_refl|].
    destruct (k =? k0); [discriminate|].
    apply Permutation_trans with ((k0, v0) :: (k, v) :: m); [|apply perm_swap]. constructor. now apply IH.
  Qed.

  Lemma smap_first_ge_spec : forall m k, smap_sorted m ->
    match smap_first_ge k m with
    | Some (ek, v) => nearest_ge (fun x => smap_get x m) k ek v
    | None => forall k', k <= k' -> smap_get k' m = None
    end.
  Proof.
    induction m as [|[k0 v0] m IH]; intros k Hs; cbn; [reflexivity|].
    pose proof (sorted_inv _ _ _ Hs) as [Hs' Hlt].
    destruct (N.leb_spec k k0) as [H|H].
    - split; [cbn; now rewrite N.eqb_refl|]. split; [exact H|].
      intros k' H1 H2. cbn. destruct (N.eqb_spec k' k0); [lia|].
      apply smap_get_none_lt. intros k'' v'' Hin. apply Hlt in Hin. lia.
    - specialize (IH k Hs'). destruct (smap_first_ge k m) as [[ek v]|].
      + destruct IH as (G & L & N0). split; [|split; [exact L|]].
        * cbn. destruct (N.eqb_spec ek k0); [lia | exact G].
        * intros k' H1 H2. cbn. destruct (N.eqb_spec k' k0); [lia|]. now apply N0.
      + intros k' H1. destruct (N.eqb_spec k' k0); [lia|]. now apply IH.
  Qed.

  Lemma smap_last_lt_spec : forall m k, smap_sorted m ->
    match smap_last_lt k m with
    | Some (ek, v) => nearest_lt (fun x => smap_get x m) k ek v
    | None => forall k', k' < k -> smap_get k' m = None
    end.
  Proof.
    induction m as [|[k0 v0] m IH]; intros k Hs; cbn; [reflexivity|].
    pose proof (sorted_inv _ _ _ Hs) as [Hs' Hlt].
    destruct (N.ltb_spec k0 k) as [H|H].
    - specialize (IH k Hs'). destruct (smap_last_lt k m) as [[ek v]|].
      + destruct IH as (G & L & N0). split; [|split; [exact L|]].
        * cbn. destruct (N.eqb_spec ek k0) as [->|]; [|exact G].
          rewrite smap_get_in in G by exact Hs'. apply Hlt in G. lia.
        * intros k' H1 H2. cbn. destruct (N.eqb_spec k' k0) as [->|]; [|now apply N0].
          rewrite smap_get_in in G by exact Hs'. apply Hlt in G. lia.
      + split; [cbn; now rewrite N.eqb_refl|]. split; [exact H|].
        intros k' H1 H2. cbn. destruct (N.eqb_spec k' k0); [lia|]. now apply IH.
    - intros k' H1. destruct (N.eqb_spec k' k0); [lia|].
      apply smap_get_none_lt. intros k'' v'' Hin. apply Hlt in Hin. lia.
  Qed.

  Lemma nearest_ge_unique : forall f k ek v ek' v',
    nearest_ge f k ek v -> nearest_ge (T:=T) f k ek' v' -> ek = ek' /\ v = v'.
  Proof.
    intros f k ek v ek' v' (G & L & N0) (G' & L' & N0').
    assert (ek = ek') as <-.
    { destruct (N.lt_trichotomy ek ek') as [H|[H|H]]; [|exact H|].
      - rewrite N0' in G by lia. discriminate.
      - rewrite N0 in G' by lia. discriminate. }
    split; congruence.
  Qed.

  Lemma nearest_lt_unique : forall f k ek v ek' v',
    nearest_lt f k ek v -> nearest_lt (T:=T) f k ek' v' -> ek = ek' /\ v = v'.
  Proof.
    intros f k ek v ek' v' (G & L & N0) (G' & L' & N0').
    assert (ek = ek') as <-.
    { destruct (N.lt_trichotomy ek ek') as [H|[H|H]]; [|exact H|].
      - rewrite N0 in G' by lia. discriminate.
      - rewrite N0' in G by lia. discriminate. }
    split; congruence.
  Qed.

  Variable key : T -> N.
  Variable contig : T -> T -> bool.

  Lemma cq_acquire_sorted : forall q x, smap_sorted q -> smap_sorted (snd (cq_acquire key contig q x)).
  Proof.
    intros q x Hs. unfold cq_acquire, find_contiguous, cq_queue.
    destruct (smap_first_ge (key x) q) as [[ek ev]|].
    - destruct (contig x ev); cbn; [now apply smap_remove_sorted|].
      destruct (smap_last_lt (key x) q) as [[ek' ev']|].
      + destruct (contig x ev'); cbn; [now apply smap_remove_sorted | now apply smap_insert_sorted].
      + cbn. now apply smap_insert_sorted.
    - destruct (smap_last_lt (key x) q) as [[ek' ev']|].
      + destruct (contig x ev'); cbn; [now apply smap_remove_sorted | now apply smap_insert_sorted].
      + cbn. now apply smap_insert_sorted.
  Qed.

  Lemma cq_step_sorted : forall q op, smap_sorted q -> smap_sorted (fst (cq_step key contig q op)).
  Proof.
    intros q [v|k|v] Hs; cbn.
    - now apply smap_insert_sorted.
    - unfold cq_dequeue. destruct (smap_get k q); cbn; [now apply smap_remove_sorted | exact Hs].
    - pose proof (cq_acquire_sorted q v Hs) as H. destruct (cq_acquire key contig q v). exact H.
  Qed.

  Lemma cq_run_sorted : forall ops q, smap_sorted q -> smap_sorted (fst (cq_run key contig q ops)).
  Proof.
    induction ops as [|op ops IH]; intros q Hs; cbn; [exact Hs|].
    pose proof (cq_step_sorted q op Hs) as H. destruct (cq_step key contig q op) as [q' o]. cbn in H.
    specialize (IH q' H). destruct (cq_run key contig q' ops) as [q'' os]. exact IH.
  Qed.

  Definition view (q : list (N * T)) : N -> option T := fun k => smap_get k q.

  Lemma step_refines : forall q op, smap_sorted q ->
    exists g, fmap_step key contig (view q) op (snd (cq_step key contig q op)) g /\
              forall k, g k = view (fst (cq_step key contig q op)) k.
  Proof.
    intros q [v|k|x] Hs; cbn.
    - eexists. split; [apply FsQueue|]. intros k. unfold view, cq_queue. now rewrite smap_insert_get.
    - unfold cq_dequeue. destruct (smap_get k q) as [v|] eqn:G; cbn.
      + exists (fset (view q) k None). split.
        * assert (V : view q k = Some v) by exact G. rewrite <- V. apply FsDequeue.
        * intros k'. symmetry. apply smap_remove_get. exact Hs.
      + exists (fset (view q) k None). split.
        * replace (OutDequeued None) with (OutDequeued (view q k)) by (unfold view; now rewrite G). apply FsDequeue.
        * intros k'. unfold fset, view. destruct (N.eqb_spec k' k) as [->|]; congruence.
    - unfold cq_acquire, find_contiguous.
      pose proof (smap_first_ge_spec q (key x) Hs) as HR.
      pose proof (smap_last_lt_spec q (key x) Hs) as HL.
      assert (LEFT : (forall ek y, ~ right_partner T key contig (view q) x ek y) ->
        exists g, fmap_step key contig (view q) (OpAcquire x)
          (snd (let (o, q') := match match smap_last_lt (key x) q with
                | Some (ek, ev) => if contig x ev then (Some (Lhs ev), smap_remove ek q) else (None, q)
                | None => (None, q) end with
             | (Some (Lhs c), q') => (Some (c, x), q')
             | (Some (Rhs c), q') => (Some (x, c), q')
             | (None, q') => (None, cq_queue key q' x) end in (q', OutAcquired o))) g /\
          forall k, g k = view (fst (let (o, q') := match match smap_last_lt (key x) q with
                | Some (ek, ev) => if contig x ev then (Some (Lhs ev), smap_remove ek q) else (None, q)
                | None => (None, q) end with
             | (Some (Lhs c), q') => (Some (c, x), q')
             | (Some (Rhs c), q') => (Some (x, c), q')
             | (None, q') => (None, cq_queue key q' x) end in (q', OutAcquired o))) k).
      { intros NR. destruct (smap_last_lt (key x) q) as [[ek ev]|].
        - destruct (contig x ev) eqn:C; cbn.
          + exists (fset (view q) ek None). split.
            * apply FsLeft; [exact NR | split; assumption].
            * intros k'. symmetry. apply smap_remove_get. exact Hs.
          + exists (fset (view q) (key x) (Some x)). split.
            * apply FsNone; [exact NR|]. intros ek' y [H C'].
              destruct (nearest_lt_unique _ _ _ _ _ _ HL H) as [_ <-]. congruence.
            * intros k'. symmetry. apply smap_insert_get.
        - cbn. exists (fset (view q) (key x) (Some x)). split.
          + apply FsNone; [exact NR|]. intros ek' y [(G & L & _) C']. unfold view in G.
            rewrite HL in G by exact L. discriminate.
          + intros k'. symmetry. apply smap_insert_get. }
      destruct (smap_first_ge (key x) q) as [[ek ev]|].
      + destruct (contig x ev) eqn:C; cbn.
        * exists (fset (view q) ek None). split.
          -- apply FsRight. split; assumption.
          -- intros k'. symmetry. apply smap_remove_get. exact Hs.
        * apply LEFT. intros ek' y [H C'].
          destruct (nearest_ge_unique _ _ _ _ _ _ HR H) as [_ <-]. congruence.
      + apply LEFT. intros ek' y [(G & L & _) C']. unfold view in G.
        rewrite HR in G by exact L. discriminate.
  Qed.

  Lemma fmap_step_ext : forall f f' op o g, (forall k, f k = f' k) ->
    fmap_step key contig f op o g ->
    exists g', fmap_step key contig f' op o g' /\ forall k, g k = g' k.
  Proof.
    intros f f' op o g E H.
    assert (E1 : forall x ek y, right_partner T key contig f x ek y <-> right_partner T key contig f' x ek y).
    { intros. unfold right_partner, nearest_ge. rewrite E. split; intros ((? & ? & N0) & ?);
      (split; [split; [assumption|split; [assumption|]]|assumption]); intros; [rewrite <- E|rewrite E]; auto. }
    assert (E2 : forall x ek y, left_partner T key contig f x ek y <-> left_partner T key contig f' x ek y).
    { intros. unfold left_partner, nearest_lt. rewrite E. split; intros ((? & ? & N0) & ?);
      (split; [split; [assumption|split; [assumption|]]|assumption]); intros; [rewrite <- E|rewrite E]; auto. }
    assert (E3 : forall k o k', fset f k o k' = fset f' k o k').
    { intros. unfold fset. now rewrite E. }
    destruct H as [v|k|x ek y H|x ek y NH H|x N1 N2].
    - eexists; split; [apply FsQueue | apply E3].
    - eexists; split; [rewrite E; apply FsDequeue | apply E3].
    - eexists; split; [apply FsRight; apply E1; eassumption | apply E3].
    - eexists; split; [apply FsLeft; [intros ? ?; rewrite <- E1; auto | apply E2; eassumption] | apply E3].
    - eexists; split; [apply FsNone; intros ? ?; [rewrite <- E1 | rewrite <- E2]; auto | apply E3].
  Qed.

  Lemma run_refines : forall ops q f, smap_sorted q -> (forall k, f k = view q k) ->
    fmap_run key contig f ops (snd (cq_run key contig q ops)) (view (fst (cq_run key contig q ops))).
  Proof.
    induction ops as [|op ops IH]; intros q f Hs E; cbn.
    - now constructor.
    - destruct (step_refines q op Hs) as (g & Hg & Eg).
      assert (E' : forall k, view q k = f k) by (intros; now rewrite E).
      destruct (fmap_step_ext _ f _ _ _ E' Hg) as (g' & Hg' & Eg').
      pose proof (cq_step_sorted q op Hs) as Hs'.
      destruct (cq_step key contig q op) as [q' o]. cbn in *.
      specialize (IH q' g' Hs'). destruct (cq_run key contig q' ops) as [q'' os]. cbn in *.
      econstructor; [exact Hg'|]. apply IH. intros k. now rewrite <- Eg', Eg.
  Qed.

  Lemma run_refines_new : forall ops,
    fmap_run key contig (fun _ => None) ops (snd (cq_run key contig (cq_new T) ops))
      (view (fst (cq_run key contig (cq_new T) ops))).
  Proof. intros ops. apply run_refines; [constructor | reflexivity]. Qed.

  Lemma cq_from_sorted : forall l q, smap_sorted q -> smap_sorted (fold_left (cq_queue key) l q).
  Proof.
    induction l as [|x l IH]; intros q Hs; cbn; [exact Hs|]. apply IH. now apply smap_insert_sorted.
  Qed.

  (** Entries are stored under their own key. *)
  Definition keyed (q : list (N * T)) : Prop := forall k v, In (k, v) q -> key v = k.

  Lemma keyed_insert : forall q v, keyed q -> keyed (smap_insert (key v) v q).
  Proof. intros q v H k v' Hin. apply smap_insert_in in Hin. destruct Hin as [E|Hin]; [now injection E as -> ->|eauto]. Qed.

  Lemma keyed_remove : forall q k, keyed q -> keyed (smap_remove k q).
  Proof. intros q k H k' v' Hin. apply smap_remove_in in Hin. eauto. Qed.

  Lemma cq_acquire_keyed : forall q x, keyed q -> keyed (snd (cq_acquire key contig q x)).
  Proof.
    intros q x Hs. unfold cq_acquire, find_contiguous, cq_queue.
    destruct (smap_first_ge (key x) q) as [[ek ev]|]; [destruct (contig x ev); cbn; [now apply keyed_remove|]|];
    (destruct (smap_last_lt (key x) q) as [[ek' ev']|]; [destruct (contig x ev')|]; cbn;
      [now apply keyed_remove | now apply keyed_insert | now apply keyed_insert]).
  Qed.

  Lemma cq_step_keyed : forall q op, keyed q -> keyed (fst (cq_step key contig q op)).
  Proof.
    intros q [v|k|v] Hs; cbn.
    - now apply keyed_insert.
    - unfold cq_dequeue. destruct (smap_get k q); cbn; [now apply keyed_remove | exact Hs].
    - pose proof (cq_acquire_keyed q v Hs) as H. destruct (cq_acquire key contig q v). exact H.
  Qed.

  Lemma cq_run_keyed : forall ops q, keyed q -> keyed (fst (cq_run key contig q ops)).
  Proof.
    induction ops as [|op ops IH]; intros q Hs; cbn; [exact Hs|].
    pose proof (cq_step_keyed q op Hs) as H. destruct (cq_step key contig q op) as [q' o]. cbn in H.
    specialize (IH q' H). destruct (cq_run key contig q' ops) as [q'' os]. exact IH.
  Qed.
End SMap.

Arguments smap_sorted {T} m.
Arguments keyed {T} key q.
Arguments view {T} q.

(** ** Ranges *)
Section Ranges.
  Variable A : Type.
  Implicit Types x y : item A.

  Lemma is_contiguous_spec : forall x y, proper x -> proper y ->
    (is_contiguous x y = true <-> adjacent x y \/ adjacent y x).
  Proof.
    intros x y [Hx1 Hx2] [Hy1 Hy2]. unfold is_contiguous, adjacent.
    rewrite (wsucc_small (it_hi x)) by exact Hx2. rewrite (wsucc_small (it_hi y)) by exact Hy2.
    rewrite orb_true_iff, !N.eqb_eq. tauto.
  Qed.

  Definition contents (q : list (N * item A)) : list (item A) := map snd q.

  (** Full description of one acquire call on disjoint ranges. *)
  Lemma acquire_spec : forall q x,
    smap_sorted q -> keyed item_key q -> Forall proper (contents q) -> proper x ->
    ForallOrdPairs disjoint (contents q) -> Forall (disjoint x) (contents q) ->
    match cq_acquire item_key is_contiguous q x with
    | (Some (l, r), q') =>
        adjacent l r /\
        exists y, ((l = x /\ r = y) \/ (l = y /\ r = x)) /\ Permutation (contents q) (y :: contents q')
    | (None, q') =>
        (forall y, In y (contents q) -> ~ adjacent x y /\ ~ adjacent y x) /\
        Permutation (contents q') (x :: contents q)
    end.
  Proof.
    intros q x Hs Hk Hp Px Hd Hx.
    assert (IN : forall k y, smap_get k q = Some y -> In y (contents q) /\ it_lo y = k /\ proper y /\ disjoint x y).
    { intros k y G. rewrite smap_get_in in G by exact Hs.
      assert (In y (contents q)) by (apply in_map_iff; exists (k, y); auto).
      split; [assumption|]. split; [apply (Hk k y G)|]. rewrite Forall_forall in Hp, Hx. auto. }
    assert (NI : forall y, In y (contents q) -> smap_get (it_lo y) q = Some y).
    { intros y Hin. apply in_map_iff in Hin. destruct Hin as ([k y'] & E & Hin). cbn in E. subst y'.
      rewrite smap_get_in by exact Hs. specialize (Hk k y Hin). unfold item_key in Hk. now rewrite Hk. }
    unfold cq_acquire, find_contiguous.
    pose proof (smap_first_ge_spec _ q (item_key x) Hs) as HR.
    pose proof (smap_last_lt_spec _ q (item_key x) Hs) as HL.
    assert (DJ : forall y z, In y (contents q) -> In z (contents q) -> y = z \/ disjoint y z).
    { intros y z Hy Hz.
      destruct (ForallOrdPairs_In Hd y z Hy Hz) as [E|[D|D]]; [now left|now right|].
      right. unfold disjoint in *. tauto. }
    assert (FRESH : smap_get (item_key x) q = None).
    { destruct (smap_get (item_key x) q) as [y|] eqn:G; [|reflexivity].
      apply IN in G. destruct G as (_ & E & [P1 P2] & D). unfold item_key in E. destruct Px.
      unfold disjoint in D. lia. }
    assert (REM : forall ek y, smap_get ek q = Some y -> Permutation (contents q) (y :: contents (smap_remove ek q))).
    { intros ek y G. apply (Permutation_map snd (smap_remove_perm _ q ek y Hs G)). }
    assert (INS : Permutation (contents (cq_queue item_key q x)) (x :: contents q)).
    { apply (Permutation_map snd (smap_insert_perm _ q (item_key x) x FRESH)). }
    (* the right neighbour, if adjacent, is the first entry at or above the key *)
    assert (NORIGHT : (match smap_first_ge (item_key x) q with
                       | Some (ek, ev) => if is_contiguous x ev then Some (ek, ev) else None
                       | None => None end) = None -> forall y, In y (contents q) -> ~ adjacent x y).
    { intros E y Hy AD. pose proof (NI y Hy) as G. destruct (IN _ _ G) as (_ & _ & Py & D).
      destruct Px as [Px1 Px2]. unfold adjacent in AD. unfold item_key in *.
      destruct (smap_first_ge (it_lo x) q) as [[ek ev]|].
      - destruct HR as (G' & L & N0). destruct (IN _ _ G') as (Hev & Ek & Pev & Dev).
        assert (ek = it_lo y) as ->.
        { destruct (N.lt_trichotomy ek (it_lo y)) as [H|[H|H]]; [|exact H|].
          - unfold disjoint in Dev. destruct Pev. lia.
          - rewrite N0 in G by lia. discriminate. }
        assert (ev = y) by congruence. subst ev.
        destruct (is_contiguous x y) eqn:C; [discriminate|].
        assert (is_contiguous x y = true) by (apply is_contiguous_spec; [now split | assumption | left; exact AD]).
        congruence.
      - rewrite HR in G by lia. discriminate. }
    assert (RIGHTADJ : forall ek ev, nearest_ge (fun k => smap_get k q) (item_key x) ek ev ->
                       is_contiguous x ev = true -> adjacent x ev).
    { intros ek ev (G & L & _) C. destruct (IN _ _ G) as (_ & Ek & Pev & D).
      apply is_contiguous_spec in C; [|assumption|assumption]. destruct C as [C|C]; [exact C|].
      unfold adjacent in *. unfold item_key in L. destruct Pev. lia. }
    destruct (smap_first_ge (item_key x) q) as [[ek ev]|].
    - destruct (is_contiguous x ev) eqn:C.
      + destruct HR as (G & L & N0).
        split; [apply (RIGHTADJ ek ev); [split; auto | exact C]|].
        exists ev. split; [now left|]. now apply REM.
      + specialize (NORIGHT eq_refl).
        destruct (smap_last_lt (item_key x) q) as [[ek' ev']|].
        * destruct HL as (G' & L' & N0'). destruct (IN _ _ G') as (Hev & Ek & Pev & Dev).
          destruct (is_contiguous x ev') eqn:C'.
          -- apply is_contiguous_spec in C'; [|assumption|assumption].
             split.
             ++ destruct C' as [C'|C']; [|exact C'].
                unfold adjacent in C'. unfold item_key in L'. destruct Px. lia.
             ++ exists ev'. split; [now right|]. now apply REM.
          -- split; [|exact INS]. intros y Hy. split; [now apply NORIGHT|]. intros AD.
             pose proof (NI y Hy) as G. destruct (IN _ _ G) as (_ & _ & Py & D).
             assert (ek' = it_lo y) as E.
             { unfold adjacent in AD. unfold item_key in *. destruct Py as [Py1 Py2].
               destruct (N.lt_trichotomy ek' (it_lo y)) as [H|[H|H]]; [|exact H|].
               - rewrite N0' in G by lia. discriminate.
               - destruct (DJ ev' y Hev Hy) as [->|DD]; [lia|].
                 unfold disjoint in DD. destruct Pev. lia. }
             assert (ev' = y) by congruence. subst ev'.
             assert (is_contiguous x y = true) by (apply is_contiguous_spec; [assumption|assumption|now right]).
             congruence.
        * split; [|exact INS]. intros y Hy. split; [now apply NORIGHT|]. intros AD.
          pose proof (NI y Hy) as G. destruct (IN _ _ G) as (_ & _ & Py & D).
          rewrite HL in G; [discriminate|]. unfold adjacent in AD. unfold item_key. destruct Py. lia.
    - specialize (NORIGHT eq_refl).
      destruct (smap_last_lt (item_key x) q) as [[ek' ev']|].
      + destruct HL as (G' & L' & N0'). destruct (IN _ _ G') as (Hev & Ek & Pev & Dev).
        destruct (is_contiguous x ev') eqn:C'.
        * apply is_contiguous_spec in C'; [|assumption|assumption].
          split.
          -- destruct C' as [C'|C']; [|exact C'].
             unfold adjacent in C'. unfold item_key in L'. destruct Px. lia.
          -- exists ev'. split; [now right|]. now apply REM.
        * split; [|exact INS]. intros y Hy. split; [now apply NORIGHT|]. intros AD.
          pose proof (NI y Hy) as G. destruct (IN _ _ G) as (_ & _ & Py & D).
          assert (ek' = it_lo y) as E.
          { unfold adjacent in AD. unfold item_key in *. destruct Py as [Py1 Py2].
            destruct (N.lt_trichotomy ek' (it_lo y)) as [H|[H|H]]; [|exact H|].
            - rewrite N0' in G by lia. discriminate.
            - destruct (DJ ev' y Hev Hy) as [->|DD]; [lia|].
              unfold disjoint in DD. destruct Pev. lia. }
          assert (ev' = y) by congruence. subst ev'.
          assert (is_contiguous x y = true) by (apply is_contiguous_spec; [assumption|assumption|now right]).
          congruence.
      + split; [|exact INS]. intros y Hy. split; [now apply NORIGHT|]. intros AD.
        pose proof (NI y Hy) as G. destruct (IN _ _ G) as (_ & _ & Py & D).
        rewrite HL in G; [discriminate|]. unfold adjacent in AD. unfold item_key. destruct Py. lia.
  Qed.
End Ranges.
Arguments contents {A} q : simpl never.
