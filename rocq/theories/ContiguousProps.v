(** Theorems about ContiguousQueue used by one caller at a time: C08, C09, C51. *)
From Coq Require Import List NArith Lia Permutation Bool String.
From Verif Require Import Base BaseFacts ContiguousModel ContiguousSpec ContiguousProofs.
Import ListNotations.
Open Scope N_scope.

(** The values in a queue after the calls [ops]. *)
Definition queue_after {A : Type} (ops : list (cq_op (item A))) : cqueue (item A) :=
  fst (cq_run item_key is_contiguous (cq_new (item A)) ops).

(** C08.  After any calls that left pairwise disjoint ranges in the queue, submitting a range [x] disjoint from
    them gives a pair iff an adjacent range is queued; exactly the partner leaves the queue. *)
Theorem C08_acquire_pairs_adjacent : forall (A : Type) (ops : list (cq_op (item A))) x,
  let q := queue_after ops in
  Forall proper (map snd q) -> ForallOrdPairs disjoint (map snd q) ->
  proper x -> Forall (disjoint x) (map snd q) ->
  match cq_acquire item_key is_contiguous q x with
  | (Some (l, r), q') =>
      adjacent l r /\ exists y, ((l = x /\ r = y) \/ (l = y /\ r = x)) /\ Permutation (map snd q) (y :: map snd q')
  | (None, q') =>
      (forall y, In y (map snd q) -> ~ adjacent x y /\ ~ adjacent y x) /\ Permutation (map snd q') (x :: map snd q)
  end.
Proof.
  intros A ops x q Hp Hd Px Hx. apply acquire_spec; try assumption.
  - apply cq_run_sorted. constructor.
  - apply cq_run_keyed. intros k v [].
Qed.
Print Assumptions C08_acquire_pairs_adjacent.

(** With at least one adjacent range queued, a pair is returned. *)
Corollary C08_acquire_iff : forall (A : Type) (ops : list (cq_op (item A))) x,
  let q := queue_after ops in
  Forall proper (map snd q) -> ForallOrdPairs disjoint (map snd q) ->
  proper x -> Forall (disjoint x) (map snd q) ->
  ((exists p, fst (cq_acquire item_key is_contiguous q x) = Some p) <->
   exists y, In y (map snd q) /\ (adjacent x y \/ adjacent y x)).
Proof.
  intros A ops x q Hp Hd Px Hx. pose proof (C08_acquire_pairs_adjacent A ops x Hp Hd Px Hx) as H. fold q in H.
  destruct (cq_acquire item_key is_contiguous q x) as [[[l r]|] q'] eqn:EQ; cbn.
  - destruct H as (AD & y & OR & PM). split; [|eauto]. intros _. exists y. split.
    + apply Permutation_sym in PM. eapply Permutation_in; [exact PM|now left].
    + destruct OR as [[-> ->]|[-> ->]]; auto.
  - destruct H as [NA _]. split; [intros (p & HP); discriminate|]. intros (y & IN & AD).
    destruct (NA y IN). tauto.
Qed.
Print Assumptions C08_acquire_iff.

Example C08_example :
  let ops := [OpQueue (mkItem 0 1 "a"%string); OpQueue (mkItem 5 6 "c"%string); OpAcquire (mkItem 9 9 "z"%string)] in
  Forall proper (map snd (queue_after ops)) /\ ForallOrdPairs disjoint (map snd (queue_after ops)) /\
  proper (mkItem 2 4 "b"%string) /\ Forall (disjoint (mkItem 2 4 "b"%string)) (map snd (queue_after ops)) /\
  cq_acquire item_key is_contiguous (queue_after ops) (mkItem 2 4 "b"%string) =
    (Some (mkItem 2 4 "b"%string, mkItem 5 6 "c"%string), [(0, mkItem 0 1 "a"%string); (9, mkItem 9 9 "z"%string)]).
Proof.
  assert (P : forall a b (v : string), a <= b -> b < 100 -> proper (mkItem a b v)).
  { intros a b v H1 H2. split; cbn; [exact H1|]. apply N.lt_trans with 100; [exact H2|reflexivity]. }
  cbv zeta. change (map snd (queue_after _)) with [mkItem 0 1 "a"%string; mkItem 5 6 "c"%string; mkItem 9 9 "z"%string].
  split; [repeat constructor; cbn; reflexivity || discriminate|].
  split; [repeat constructor; cbn; lia|].
  split; [apply P; lia|]. split; [repeat constructor; cbn; lia|]. vm_compute. reflexivity.
Qed.

(** C09.  For any value type, key function and adjacency test: every history of calls is a history of the
    finite map. *)
Theorem C09_refines_finite_map : forall (T : Type) (key : T -> N) (contig : T -> T -> bool) ops,
  fmap_run key contig (fun _ => None) ops
    (snd (cq_run key contig (cq_new T) ops))
    (fun k => smap_get k (fst (cq_run key contig (cq_new T) ops))).
Proof. exact run_refines_new. Qed.
Print Assumptions C09_refines_finite_map.

(** A value is dequeued at most once. *)
Corollary C09_dequeue_once : forall (T : Type) (key : T -> N) (contig : T -> T -> bool) ops k,
  let q := fst (cq_run key contig (cq_new T) ops) in
  fst (cq_dequeue q k) = smap_get k q /\ fst (cq_dequeue (snd (cq_dequeue q k)) k) = None /\
  forall k', k' <> k -> fst (cq_dequeue (snd (cq_dequeue q k)) k') = fst (cq_dequeue q k').
Proof.
  intros T key contig ops k q.
  assert (S : smap_sorted q) by (apply cq_run_sorted; constructor).
  assert (D : forall (m : cqueue T) j, fst (cq_dequeue m j) = smap_get j m) by (intros m j; unfold cq_dequeue; destruct (smap_get j m); reflexivity).
  assert (V : forall j, smap_get j (snd (cq_dequeue q k)) = if j =? k then None else smap_get j q).
  { intros j. unfold cq_dequeue. destruct (smap_get k q) eqn:G; cbn.
    - apply smap_remove_get. exact S.
    - destruct (N.eqb_spec j k); [now subst|reflexivity]. }
  split; [apply D|]. split; [|intros k' NE]; rewrite ?D, V.
  - now rewrite N.eqb_refl.
  - destruct (N.eqb_spec k' k); [congruence|reflexivity].
Qed.
Print Assumptions C09_dequeue_once.

Example C09_example :
  let contig (a b : N) := (a + 1 =? b) || (b + 1 =? a) in
  cq_run (fun x => x) contig (cq_new N) [OpQueue 4; OpAcquire 7; OpAcquire 5; OpDequeue 4; OpDequeue 7; OpDequeue 7] =
  ([], [OutUnit; OutAcquired None; OutAcquired (Some (4, 5)); OutDequeued None; OutDequeued (Some 7); OutDequeued None]).
Proof. vm_compute. reflexivity. Qed.

(** C51: adjacency is exact for ranges that do not touch the top of [usize] ... *)
Theorem C51_adjacency_exact_partial : forall (A : Type) (x y : item A), proper x -> proper y ->
  (is_contiguous x y = true <-> adjacent x y \/ adjacent y x).
Proof. exact is_contiguous_spec. Qed.
Print Assumptions C51_adjacency_exact_partial.

(** ... but a range that ends at [usize::MAX] is taken to be adjacent to one that starts at 0. *)
Theorem C51_adjacency_exact_refuted : exists x y : item N,
  it_lo x <= it_hi x /\ it_hi x <= usize_max /\ it_lo y <= it_hi y /\ it_hi y <= usize_max /\
  is_contiguous x y = true /\ ~ adjacent x y /\ ~ adjacent y x.
Proof.
  exists (mkItem (usize_max - 1) usize_max 7), (mkItem 0 3 8). unfold adjacent. cbn [it_lo it_hi].
  repeat split; try (vm_compute; discriminate || reflexivity).
Qed.
Print Assumptions C51_adjacency_exact_refuted.

(** The consequence for a queue: such a pair is handed out although its ranges are at opposite ends. *)
Theorem C51_wrong_pair_refuted : exists (x y : item N),
  fst (cq_acquire item_key is_contiguous (queue_after [OpQueue x]) y) = Some (x, y) /\ ~ adjacent x y.
Proof.
  exists (mkItem 0 3 8), (mkItem (usize_max - 1) usize_max 7). unfold adjacent. cbn [it_lo it_hi].
  split; vm_compute; [reflexivity|discriminate].
Qed.
Print Assumptions C51_wrong_pair_refuted.

Example C51_example : proper (mkItem 2 4 true) /\ proper (mkItem 5 5 false) /\
  is_contiguous (mkItem 5 5 false) (mkItem 2 4 true) = true.
Proof. repeat split; vm_compute; congruence. Qed.
