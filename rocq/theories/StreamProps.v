(** C13 and C49: collecting a mapped stream, and chains of directives. *)
From Coq Require Import List Arith NArith Bool Lia Permutation Sorted.
From Verif Require Import Base BaseFacts FoldModel FoldSpec FoldProofs FoldProps PublishModel PublishSpec MapModel MapSpec MapProofs MapProps StreamModel.
Import ListNotations.
Open Scope nat_scope.

Lemma enumerate_index_from : forall (T : Type) (l : list T) n, enumerate_from n l = index_from n l.
Proof. induction l as [|x l IH]; intros n; cbn; [reflexivity|]. now rewrite IH. Qed.
Lemma enumerate_keys : forall (T : Type) (l : list T) n x, In x (enumerate_from n l) -> (n <= fst x)%N.
Proof. induction l as [|y l IH]; intros n x H; [destruct H|]. destruct H as [<-|H]; cbn; [lia|]. apply IH in H. lia. Qed.
Lemma enumerate_strict : forall (T : Type) (l : list T) n, StronglySorted (fun a b => fst a < fst b)%N (enumerate_from n l).
Proof.
  induction l as [|y l IH]; intros n; cbn; constructor; auto. apply Forall_forall. intros x H. apply enumerate_keys in H. cbn. lia.
Qed.
Lemma enumerate_values : forall (T : Type) (l : list T) n, map snd (enumerate_from n l) = l.
Proof. induction l as [|y l IH]; intros n; cbn; [reflexivity|]. now rewrite IH. Qed.
Lemma enumerate_length : forall (T : Type) (l : list T) n, length (enumerate_from n l) = length l.
Proof. induction l as [|y l IH]; intros n; cbn; [reflexivity|]. now rewrite IH. Qed.
Lemma enumerate_image : forall (A B : Type) (f : A -> B) l n, map (image f) (enumerate_from n l) = enumerate_from n (map f l).
Proof. induction l as [|y l IH]; intros n; cbn; [reflexivity|]. now rewrite IH. Qed.

(** A strictly increasing list is the only way to sort its items. *)
Lemma sort_unique : forall (T : Type) (w0 w : list (N * T)), StronglySorted (fun a b => fst a < fst b)%N w0 ->
  Permutation w0 w -> StronglySorted key_le w -> w = w0.
Proof.
  intros T w0. induction w0 as [|x w0 IH]; intros w S0 P S.
  - now apply Permutation_nil in P.
  - destruct w as [|y w]; [symmetry in P; now apply Permutation_nil in P|].
    inversion S0 as [|? ? S0' F0]; subst. inversion S as [|? ? S' F]; subst. rewrite Forall_forall in F0, F.
    assert (y = x) as ->.
    { assert (IX : In x (y :: w)) by (eapply Permutation_in; [exact P|now left]).
      assert (IY : In y (x :: w0)) by (eapply Permutation_in; [symmetry; exact P|now left]).
      destruct IY as [|IY]; [congruence|]. destruct IX as [|IX]; [congruence|].
      specialize (F0 y IY). specialize (F x IX). unfold key_le in F. lia. }
    f_equal. apply IH; auto. now apply Permutation_cons_inv in P.
Qed.

(** C13, first half: whatever the completion order, collecting [from(xs).map(op)] gives [op] applied in input order. *)
Theorem C13_map_in_order : forall (A B E O : Type) (exec : O -> A -> res E B) (f : A -> B) (xs : list A) en tr s c vs,
  (forall o x y, exec o x = ROk y -> y = f x) ->
  (N.of_nat (length xs) < usize_max)%N -> no_dup tr ->
  run_from (m_step exec) (m_init (from_into_iterator xs) [] en) tr = Some s ->
  collect (rev (m_log s)) = Some c -> into_values_sorted c (ROk vs) ->
  vs = map f xs.
Proof.
  intros A B E O exec f xs en tr s c vs EX SH ND H C IV. inversion IV as [|v w [P S] Q1 Q2]; subst.
  destruct (C15_collect exec f EX (from_into_iterator xs) [] en tr s v) as (ys & Y1 & Y2); auto.
  { rewrite app_nil_r. unfold from_into_iterator. now rewrite map_length, enumerate_length. }
  rewrite app_nil_r in Y1. unfold from_into_iterator in Y1.
  assert (ys = enumerate_from 0 xs) as ->.
  { clear -Y1. revert ys Y1. generalize (enumerate_from 0 xs) as l. induction l as [|x l IH]; intros [|y ys] Y1; cbn in Y1; try discriminate; [reflexivity|].
    injection Y1 as -> Y1. f_equal. auto. }
  rewrite enumerate_image in Y2.
  rewrite (sort_unique _ (enumerate_from 0 (map f xs)) w); auto.
  - apply enumerate_values.
  - apply enumerate_strict.
  - eapply Permutation_trans; [symmetry; exact Y2|exact P].
Qed.

(** C13, second half: for distinct indices the result does not depend on the order of arrival, nor on the sorting algorithm: it is the
    list of values by increasing index. *)
Lemma insert_perm : forall (T : Type) (x : N * T) l, Permutation (x :: l) (insert x l).
Proof.
  intros T x l. induction l as [|y l IH]; cbn; [reflexivity|]. destruct (N.leb (fst x) (fst y)); [reflexivity|].
  eapply Permutation_trans; [apply perm_swap|]. now constructor.
Qed.
Lemma insert_sorted : forall (T : Type) (x : N * T) l, StronglySorted key_le l -> StronglySorted key_le (insert x l).
Proof.
  intros T x l S. induction S as [|y l S IH F]; cbn; [repeat constructor|]. rewrite Forall_forall in F.
  destruct (N.leb (fst x) (fst y)) eqn:Q.
  - apply N.leb_le in Q. constructor; [constructor; auto; now apply Forall_forall|]. apply Forall_forall. intros z [<-|Z]; [exact Q|].
    specialize (F z Z). unfold key_le in *. lia.
  - apply N.leb_gt in Q. constructor; [exact IH|]. apply Forall_forall. intros z Z.
    apply (Permutation_in z (Permutation_sym (insert_perm _ x l))) in Z. destruct Z as [<-|Z]; [unfold key_le; lia|auto].
Qed.
Lemma isort_sorts : forall (T : Type) (l : list (N * T)), sorts_to l (isort l).
Proof.
  intros T l. induction l as [|x l [P S]]; cbn; [split; constructor|]. split; [|now apply insert_sorted].
  eapply Permutation_trans; [constructor; exact P|apply insert_perm].
Qed.
Lemma strict_of_nodup : forall (T : Type) (w : list (N * T)), NoDup (map fst w) -> StronglySorted key_le w -> StronglySorted (fun a b => fst a < fst b)%N w.
Proof.
  intros T w ND S. induction S as [|x w S IH F]; [constructor|]. inversion ND as [|? ? NI ND']; subst. constructor; [auto|].
  rewrite Forall_forall in *. intros y Y. specialize (F y Y). unfold key_le in F.
  assert (fst x <> fst y) by (intros Q; apply NI; rewrite Q; now apply in_map). lia.
Qed.

Theorem C13_values_by_index : forall (T E : Type) (v1 v2 : list (N * T)) r1 r2,
  NoDup (map fst v1) -> Permutation v1 v2 ->
  into_values_sorted (E := E) (ROk v1) r1 -> into_values_sorted (ROk v2) r2 ->
  r1 = r2 /\ exists w, r1 = ROk (map snd w) /\ Permutation v1 w /\ StronglySorted (fun a b => fst a < fst b)%N w.
Proof.
  intros T E v1 v2 r1 r2 ND P I1 I2. inversion I1 as [|u1 w1 [P1 S1]]; subst. inversion I2 as [|u2 w2 [P2 S2]]; subst.
  assert (N1 : NoDup (map fst w1)) by (eapply Permutation_NoDup; [apply Permutation_map; exact P1|exact ND]).
  pose proof (strict_of_nodup _ w1 N1 S1) as ST.
  assert (w2 = w1) as ->.
  { apply sort_unique; auto. eapply Permutation_trans; [symmetry; exact P1|]. eapply Permutation_trans; [exact P|exact P2]. }
  split; [reflexivity|]. exists w1. auto.
Qed.

(** Distinctness is needed: two values under one index may come out either way. *)
Theorem C13_same_index_unspecified : exists (v : list (N * nat)) r1 r2,
  into_values_sorted (E := nat) (ROk v) r1 /\ into_values_sorted (ROk v) r2 /\ r1 <> r2.
Proof.
  exists [(0%N, 1); (0%N, 2)], (ROk (map snd [(0%N, 1); (0%N, 2)])), (ROk (map snd [(0%N, 2); (0%N, 1)])).
  split; [|split].
  - constructor. split; [reflexivity|]. repeat constructor; unfold key_le; cbn; lia.
  - constructor. split; [constructor|]. repeat constructor; unfold key_le; cbn; lia.
  - discriminate.
Qed.

(** The run of C12 yielded index 1 before index 0; collected, the values are in input order. *)
Example C13_example : exists s v, run_two = Some s /\ two_inputs = from_into_iterator [5; 7]%N /\
  collect (rev (m_log s)) = Some (ROk v) /\ map fst v = [1; 0]%N /\ into_values_sorted (E := nat) (ROk v) (ROk [10; 14]%N).
Proof.
  eexists. eexists. split; [vm_compute; reflexivity|]. split; [reflexivity|]. split; [vm_compute; reflexivity|]. split; [reflexivity|].
  change ([10; 14]%N) with (map snd [(0, 10); (1, 14)]%N). constructor. split; [apply perm_swap|].
  repeat constructor; unfold key_le; cbn; lia.
Qed.

(** C49. *)
Section Chain.
Context {E : Type}.
Variable inj : merr E -> E.

Lemma items_ok : forall (B : Type) (log : list (mret B E)) ys, stream_items inj log = map ROk ys -> ended log = true ->
  collect log = Some (ROk ys).
Proof.
  intros B log. induction log as [|[i y|e| |] log IH]; intros ys H EN; cbn in *; try discriminate.
  - destruct ys as [|z ys]; [discriminate|]. cbn in H. injection H as <- H. now rewrite (IH ys H EN).
  - destruct ys; discriminate.
  - auto.
  - destruct ys; [reflexivity|discriminate].
Qed.
Lemma ended_rev : forall (B : Type) (log : list (mret B E)), ended (rev log) = ended log.
Proof.
  intros B. induction log as [|x l IH]; [reflexivity|]. unfold ended in *. cbn. rewrite existsb_app, IH. cbn. rewrite orb_false_r. apply orb_comm.
Qed.

Lemma mapped_ok : forall (A B O : Type) (exec : O -> A -> res E B) (g : A -> B) inp ys,
  (forall o x y, exec o x = ROk y -> y = g x) ->
  mapped inj exec inp (map ROk ys) -> exists xs, inp = map ROk xs /\ Permutation ys (map (image g) xs).
Proof.
  intros A B O exec g inp ys EX (arr & late & en & tr & s & SH & <- & ND & R & EN & Q).
  apply (C15_collect exec g EX arr late en tr s ys SH ND R). apply items_ok; [now symmetry|]. now rewrite ended_rev.
Qed.

(** A chain of maps that ends without an error yields, for every input [(i, x)], the composition applied to [x] under the index [i], once. *)
Theorem C49_maps_compose : forall (A B : Type) (h : A -> B) inp ys,
  chained inj A B h inp (map ROk ys) -> exists xs, inp = map ROk xs /\ Permutation ys (map (image h) xs).
Proof.
  intros A B h inp ys CH. remember (map ROk ys) as out eqn:OU. revert ys OU.
  induction CH as [A inp|A B C O h g exec inp mid out CH IH EX M]; intros ys ->.
  - exists ys. split; [reflexivity|]. erewrite map_ext; [rewrite map_id; reflexivity|]. now intros [].
  - destruct (mapped_ok _ _ _ exec g mid ys EX M) as (zs & -> & P1). destruct (IH zs eq_refl) as (xs & -> & P2).
    exists xs. split; [reflexivity|]. eapply Permutation_trans; [exact P1|].
    eapply Permutation_trans; [apply Permutation_map; exact P2|]. rewrite map_map. apply Permutation_refl'. apply map_ext. now intros [].
Qed.

(** directive/mod.rs:366-368: a chain of maps followed by a fold. An Ok result of the fold is the in-order combination of the composed
    operations applied to the inputs. *)
Lemma all_ok_or_error : forall (T : Type) (l : list (res E T)), (exists xs, l = map ROk xs) \/ exists e, In (RErr e) l.
Proof.
  intros T l. induction l as [|[x|e] l [(xs & ->)|(e' & I)]].
  - left. now exists [].
  - left. now exists (x :: xs).
  - right. exists e'. now right.
  - right. exists e. now left.
  - right. exists e. now left.
Qed.
Lemma image_index_from : forall (A B : Type) (h : A -> B) l n, map (image h) (index_from n l) = index_from n (map h l).
Proof. intros. rewrite <- !enumerate_index_from. apply enumerate_image. Qed.

Theorem C49_maps_then_fold : forall (A B O : Type) (h : A -> B) (xs : list A) out (comb : O -> B -> B -> res E B) empty tr s v,
  chained inj A B h (from_into_iterator xs) out -> (N.of_nat (length xs) <= usize_max)%N ->
  fold_run comb empty out tr = Some s -> f_ret s = Some (RetOk v) ->
  (xs = [] /\ v = empty) \/ in_order comb (map h xs) v.
Proof.
  intros A B O h xs out comb empty tr s v CH SH R RE. destruct (all_ok_or_error _ out) as [(ys & ->)|(e & I)].
  - destruct (C49_maps_compose _ _ _ _ _ CH) as (zs & Z & P). unfold from_into_iterator in Z.
    assert (zs = enumerate_from 0 xs) as ->.
    { symmetry. revert Z. generalize (enumerate_from 0 xs) as l. clear. intros l. revert zs.
      induction l as [|x l IH]; intros [|y zs] Z; cbn in Z; try discriminate; [reflexivity|]. injection Z as -> Z. f_equal. auto. }
    rewrite enumerate_index_from, image_index_from in P.
    destruct (C01_fold_in_order _ _ _ comb empty 0 (map h xs) ys tr s v) as [[Q1 Q2]|Q]; auto.
    + rewrite map_length. lia.
    + left. split; [|exact Q2]. now destruct xs.
  - destruct (C05_input_error_not_ok _ _ _ comb empty out tr s e I R) as [Q|(e' & Q)]; congruence.
Qed.

(** With an associative operation and its neutral element that is the plain fold. *)
Theorem C49_maps_then_assoc_fold : forall (A B O : Type) (h : A -> B) (f : B -> B -> B) (xs : list A) out (comb : O -> B -> B -> res E B) empty tr s v,
  (forall o a b c, comb o a b = ROk c -> c = f a b) -> (forall a b c, f a (f b c) = f (f a b) c) -> (forall a, f empty a = a) ->
  chained inj A B h (from_into_iterator xs) out -> (N.of_nat (length xs) <= usize_max)%N ->
  fold_run comb empty out tr = Some s -> f_ret s = Some (RetOk v) -> v = fold_left f (map h xs) empty.
Proof.
  intros A B O h f xs out comb empty tr s v CO AS NE CH SH R RE.
  destruct (C49_maps_then_fold A B O h xs out comb empty tr s v CH SH R RE) as [[-> ->]|IO]; [reflexivity|].
  destruct (in_order_assoc B E O comb f CO AS _ v IO) as (x & r & Q & ->). rewrite Q. cbn. now rewrite NE.
Qed.
End Chain.

(** [x -> 2x] and then [x -> 2x], over [5; 7], then a sum. *)
Definition inj0 (e : merr nat) : nat := 0.
Definition add1 (_ : unit) (x y : N) : res nat N := ROk (x + y)%N.
Example C49_example : exists out s, chained inj0 N N (fun x => 2 * (2 * x))%N (from_into_iterator [5; 7]%N) out /\
  fold_run add1 0%N out [EvInput; EvInput; EvPublish 0 true; EvWork 0 tt; EvInputEnd; EvResult 0 true; EvFinal true] = Some s /\
  f_ret s = Some (RetOk 48%N).
Proof.
  assert (ND : no_dup two_trace) by apply C12_example.
  exists [ROk (0, 20); ROk (1, 28)]%N. eexists. split; [|split; [vm_compute; reflexivity|reflexivity]].
  eapply (ChMap inj0 N N N unit (fun x => 2 * x)%N (fun x => 2 * x)%N dbl _ [ROk (1, 14); ROk (0, 10)]%N).
  - eapply (ChMap inj0 N N N unit (fun x => x) (fun x => 2 * x)%N dbl _ _); [apply ChNone|exact dbl_ok|].
    exists two_inputs, [], true, two_trace. eexists. split; [reflexivity|]. split; [reflexivity|]. split; [exact ND|].
    split; [vm_compute; reflexivity|]. split; reflexivity.
  - exact dbl_ok.
  - exists [ROk (1, 14); ROk (0, 10)]%N, [], true, two_trace. eexists. split; [reflexivity|]. split; [reflexivity|]. split; [exact ND|].
    split; [vm_compute; reflexivity|]. split; reflexivity.
Qed.

(** Building a stream from results: every item keeps its place; a value gets the number of its place as its index, whether or not there
    are errors before it, and an error is passed on. *)
Theorem C13_try_from : forall (T E : Type) (l : list (res E T)) k,
  nth_error (try_from_into_iterator l) k =
  option_map (fun r => match r with ROk x => ROk (N.of_nat k, x) | RErr e => RErr e end) (nth_error l k).
Proof.
  intros T E l k. unfold try_from_into_iterator.
  assert (G : forall l n k, nth_error (try_from n l) k =
    option_map (fun r : res E T => match r with ROk x => ROk (n + N.of_nat k, x)%N | RErr e => RErr e end) (nth_error l k)).
  { clear. induction l as [|[x|e] l IH]; intros n [|k]; cbn [try_from nth_error option_map]; try reflexivity.
    - now rewrite N.add_0_r.
    - rewrite IH. replace (n + 1 + N.of_nat k)%N with (n + N.of_nat (S k))%N by lia. reflexivity.
    - rewrite IH. replace (n + 1 + N.of_nat k)%N with (n + N.of_nat (S k))%N by lia. reflexivity. }
  now rewrite G.
Qed.
Example C13_try_from_example : try_from_into_iterator [ROk 5; RErr true; ROk 7] = [ROk (0%N, 5); RErr true; ROk (2%N, 7)].
Proof. reflexivity. Qed.

Print Assumptions C13_try_from.
Print Assumptions C13_map_in_order.
Print Assumptions C13_values_by_index.
Print Assumptions C13_same_index_unspecified.
Print Assumptions C49_maps_compose.
Print Assumptions C49_maps_then_fold.
Print Assumptions C49_maps_then_assoc_fold.
