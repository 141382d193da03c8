(** Theorems about folding an indexed stream: C01 - C07. *)
From Coq Require Import List Arith NArith Lia Permutation Bool.
From Verif Require Import Base BaseFacts ContiguousModel ContiguousSpec ContiguousProofs
  FoldModel FoldSpec FoldProofs FoldLive FoldMore.
Import ListNotations.
Open Scope N_scope.

(** *** C01 *)
(** Whatever the arrival order [arr] of the items of [l] (indexed from [base]), whatever the schedule [tr], with
    whatever faults: a returned value is the in-order combination of all items. *)
Theorem C01_fold_in_order : forall (A E O : Type) (comb : O -> A -> A -> res E A) (empty : A) base l arr tr s v,
  base + N.of_nat (length l) <= usize_max -> Permutation arr (index_from base l) ->
  fold_run comb empty (map ROk arr) tr = Some s -> f_ret s = Some (RetOk v) ->
  (l = [] /\ v = empty) \/ in_order comb l v.
Proof.
  intros A E O comb empty base l arr tr s v B P R H.
  exact (fold_ok_in_order A E O comb empty base l B arr tr s v P R H).
Qed.
Print Assumptions C01_fold_in_order.

(** For an associative operation with identity this is the sequential fold. *)
Theorem C01_fold_associative : forall (A E O : Type) (comb : O -> A -> A -> res E A) (f : A -> A -> A) (empty : A) base l arr tr s v,
  (forall o a b c, comb o a b = ROk c -> c = f a b) ->
  (forall a b c, f a (f b c) = f (f a b) c) -> (forall a, f empty a = a) ->
  base + N.of_nat (length l) <= usize_max -> Permutation arr (index_from base l) ->
  fold_run comb empty (map ROk arr) tr = Some s -> f_ret s = Some (RetOk v) ->
  v = fold_left f l empty.
Proof.
  intros A E O comb f empty base l arr tr s v HC HA HE B P R H.
  destruct (C01_fold_in_order A E O comb empty base l arr tr s v B P R H) as [[-> ->]|I]; [reflexivity|].
  destruct (in_order_assoc A E O comb f HC HA l v I) as (x & r & -> & ->). cbn. now rewrite HE.
Qed.
Print Assumptions C01_fold_associative.

(** Three strings arriving in the order 1, 2, 0; concatenation. *)
Definition cat (_ : unit) (a b : list nat) : res nat (list nat) := ROk (a ++ b).
Example C01_example :
  exists s, fold_run cat [] (map ROk [(1, [11%nat]); (2, [12%nat]); (0, [10%nat])])
    [EvInput; EvInput; EvPublish 0 true; EvWork 0 tt; EvInput; EvInputEnd; EvResult 0 true; EvPublish 0 true; EvWork 0 tt;
     EvResult 0 true; EvFinal true] = Some s /\ f_ret s = Some (RetOk [10%nat; 11%nat; 12%nat]) /\
  Permutation [(1, [11%nat]); (2, [12%nat]); (0, [10%nat])] (index_from 0 [[10%nat]; [11%nat]; [12%nat]]).
Proof.
  eexists. split; [vm_compute; reflexivity|]. split; [reflexivity|].
  cbn. eapply Permutation_trans; [|apply perm_swap]. apply perm_skip. apply perm_swap.
Qed.

(** *** C02 *)
Theorem C02_empty_fold : forall (A E O : Type) (comb : O -> A -> A -> res E A) (empty : A) tr s,
  fold_run comb empty [] tr = Some s ->
  f_disp s = 0%nat /\ (settled comb empty s -> f_ret s = Some (RetOk empty)) /\
  (forall o, f_ret s = Some o -> o = RetOk empty).
Proof.
  intros A E O comb empty tr s R. destruct (empty_run A E O comb empty tr s R) as [D [[RN (s' & ST)]|RS]].
  - split; [exact D|]. split; [intros MX; now rewrite (MX EvInputEnd eq_refl) in ST|]. intros o H. congruence.
  - split; [exact D|]. split; [auto|]. intros o H. congruence.
Qed.
Print Assumptions C02_empty_fold.

Theorem C02_single_fold : forall (A E O : Type) (comb : O -> A -> A -> res E A) (empty x : A) tr s,
  fold_run comb empty [ROk (0, x)] tr = Some s ->
  f_disp s = 0%nat /\ (settled comb empty s -> f_ret s = Some (RetOk x)) /\
  (forall o, f_ret s = Some o -> o = RetOk x).
Proof.
  intros A E O comb empty x tr s R. destruct (single_run A E O comb empty 0 x tr s R) as (D & _ & _ & [[RN (e & s' & NF & ST)]|RS]).
  - split; [exact D|]. split; [intros MX; now rewrite (MX e NF) in ST|]. intros o H. congruence.
  - split; [exact D|]. split; [auto|]. intros o H. cbn in RS. congruence.
Qed.
Print Assumptions C02_single_fold.

Example C02_example :
  (exists s, fold_run cat [7%nat] [ROk (0, [1%nat])] [EvInput; EvInputEnd] = Some s /\ f_ret s = Some (RetOk [1%nat])) /\
  (exists s, fold_run cat [7%nat] [] [EvInputEnd] = Some s /\ f_ret s = Some (RetOk [7%nat])).
Proof. split; eexists; (split; [vm_compute; reflexivity|reflexivity]). Qed.

(** *** C03 *)
(** In a fault-free run in which every execution of [combine] succeeds: the index ranges held anywhere partition the
    input's index range as long as the fold runs; never more than [n-1] tasks are dispatched; when the fold has returned
    a value exactly [n-1] were dispatched and executed and none is left. *)
Theorem C03_fold_partition : forall (A E O : Type) (comb : O -> A -> A -> res E A) (empty : A) base l arr tr s,
  base + N.of_nat (length l) <= usize_max -> Permutation arr (index_from base l) ->
  (forall o a b, exists c, comb o a b = ROk c) ->
  fold_run comb empty (map ROk arr) tr = Some s -> fault_free tr ->
  (f_ret s = None -> partition_of (held s) base (N.of_nat (length l))) /\
  (f_disp s <= length l - 1)%nat /\
  (forall v, f_ret s = Some (RetOk v) ->
     f_disp s = (length l - 1)%nat /\ executions tr = (length l - 1)%nat /\ f_chan s = [] /\ f_tasks s = []).
Proof.
  intros A E O comb empty base l arr tr s B P T R F. split; [|split].
  - exact (partition_lemma A E O comb empty base l arr tr s B P R F T).
  - exact (dispatch_bound A E O comb empty base l arr tr s B P R F T).
  - intros v H. pose proof (executions_lemma A E O comb empty base l arr tr s B P R F T v H) as X.
    destruct (proj1 (reach_linv A E O comb empty base l arr tr s B P R F T)) as [I|[(v' & I & D & C & K)|(I & _)]].
    + rewrite (p_ret _ _ _ _ _ _ _ _ I) in H. discriminate.
    + auto.
    + congruence.
Qed.
Print Assumptions C03_fold_partition.

(** Every dispatched task combines two adjacent pieces of the input, whatever the faults. *)
Theorem C03_tasks_adjacent : forall (A E O : Type) (comb : O -> A -> A -> res E A) (empty : A) base l arr tr (s : fstate A E) t,
  base + N.of_nat (length l) <= usize_max -> Permutation arr (index_from base l) ->
  fold_run comb empty (map ROk arr) tr = Some s -> In t (f_chan s ++ f_tasks s) ->
  exists pre l1 l2 post, l = pre ++ l1 ++ l2 ++ post /\
    N.of_nat (length pre) = ft_lo t - base /\ base <= ft_lo t /\
    N.of_nat (length (l1 ++ l2)) = ft_hi t + 1 - ft_lo t /\
    in_order comb l1 (ft_l t) /\ in_order comb l2 (ft_r t).
Proof. exact task_shape. Qed.
Print Assumptions C03_tasks_adjacent.

Definition ex3_trace : list (fevent unit) :=
  [EvInput; EvInput; EvInput; EvPublish 0 true; EvInput; EvWork 0 tt; EvPublish 0 true; EvResult 0 true; EvInputEnd;
   EvWork 0 tt; EvResult 0 true; EvPublish 0 true; EvWork 0 tt; EvResult 0 true; EvFinal true].
Example C03_example :
  fault_free ex3_trace /\
  exists s, fold_run cat [] (map ROk (index_from 5 [[1]; [2]; [3]; [4]]%nat)) ex3_trace = Some s /\
    f_ret s = Some (RetOk [1; 2; 3; 4]%nat) /\ f_disp s = 3%nat.
Proof.
  split; [repeat constructor|]. eexists. split; [vm_compute; reflexivity|]. split; reflexivity.
Qed.

(** *** C04 *)
(** False as stated: when the result covering the whole input is handled before the end of the stream is seen, it is put
    into the assembler and never looked at again.  Two items, a fault-free run, nothing can happen any more (not even
    with faults), and the fold has not returned. *)
Theorem C04_fold_returns_refuted : exists (tr : list (fevent unit)) s,
  fault_free tr /\ fold_run cat [] (map ROk (index_from 0 [[1]; [2]]%nat)) tr = Some s /\
  settled cat [] s /\ f_ret s = None.
Proof.
  exists [EvInput; EvInput; EvPublish 0 true; EvWork 0 tt; EvResult 0 true; EvInputEnd]. eexists.
  split; [repeat constructor|]. split; [vm_compute; reflexivity|]. split; [|reflexivity].
  intros e _. destruct e as [| |[|i] ok|[|i] o|[|i] ack|ok|[|i]|[|i]|[|i]|[|i]]; reflexivity.
Qed.
Print Assumptions C04_fold_returns_refuted.

(** What holds: with at most one item, or if at least one result is handled after the end of the stream was seen, a fault-free
    run that cannot continue has returned Ok.  Missing from the full statement: runs in which all results are
    handled before the end of the stream is seen. *)
Theorem C04_fold_returns_partial : forall (A E O : Type) (comb : O -> A -> A -> res E A) (empty : A) (orc : O) l arr t1 t2 s,
  N.of_nat (length l) <= usize_max -> Permutation arr (index_from 0 l) ->
  (forall o a b, exists c, comb o a b = ROk c) ->
  fault_free (t1 ++ EvInputEnd :: t2) ->
  fold_run comb empty (map ROk arr) (t1 ++ EvInputEnd :: t2) = Some s -> settled comb empty s ->
  (length l <= 1)%nat \/ existsb is_result t2 = true ->
  exists v, f_ret s = Some (RetOk v).
Proof.
  intros A E O comb empty orc l arr t1 t2 s B P T F R ST [L|X].
  - assert (LA : length arr = length l) by (apply Permutation_length in P; now rewrite index_from_length in P).
    destruct arr as [|[i x] [|? ?]].
    + exists empty. exact (proj1 (proj2 (C02_empty_fold A E O comb empty _ s R)) ST).
    + assert (IN : In (i, x) (index_from 0 l)) by (eapply Permutation_in; [exact P|now left]).
      assert (i = 0).
      { destruct l as [|y [|? ?]]; cbn in L, LA; try lia. destruct IN as [IN|[]]. congruence. }
      subst i. exists x. exact (proj1 (proj2 (C02_single_fold A E O comb empty x _ s R)) ST).
    + cbn in LA. lia.
  - destruct (returns_if_result_after_end A E O comb empty 0 l B T orc arr t1 t2 s P F R X ST) as [(v & H & _)|(_ & _ & H & _)].
    + eauto.
    + congruence.
Qed.
Print Assumptions C04_fold_returns_partial.

(** Exactly these runs return: with two items or more, if no result is handled after the end of the stream was seen, the
    fold has not returned, although nothing failed. *)
Theorem C04_result_after_end_needed : forall (A E O : Type) (comb : O -> A -> A -> res E A) (empty : A) base l arr t1 t2 s,
  base + N.of_nat (length l) <= usize_max -> Permutation arr (index_from base l) ->
  (forall o a b, exists c, comb o a b = ROk c) -> (2 <= length l)%nat ->
  fault_free (t1 ++ EvInputEnd :: t2) ->
  fold_run comb empty (map ROk arr) (t1 ++ EvInputEnd :: t2) = Some s ->
  existsb is_result t2 = false -> f_ret s = None.
Proof. exact hang_if_no_result_after_end. Qed.
Print Assumptions C04_result_after_end_needed.

(** Fault-free runs are finite: at most [4 n + 2] events happen. *)
Theorem C04_runs_are_finite : forall (A E O : Type) (comb : O -> A -> A -> res E A) (empty : A) base l arr tr s,
  base + N.of_nat (length l) <= usize_max -> Permutation arr (index_from base l) ->
  (forall o a b, exists c, comb o a b = ROk c) ->
  fold_run comb empty (map ROk arr) tr = Some s -> fault_free tr ->
  (length tr <= 4 * length l + 2)%nat.
Proof.
  intros A E O comb empty base l arr tr s B P T R F.
  pose proof (proj2 (reach_linv A E O comb empty base l arr tr s B P R F T)). lia.
Qed.
Print Assumptions C04_runs_are_finite.

Example C04_example :
  let t1 := [EvInput; EvInput; EvPublish 0 true; EvWork 0 tt] in
  let t2 := [EvResult 0 true; EvFinal true] in
  existsb is_result t2 = true /\
  exists s, fold_run cat [] (map ROk (index_from 0 [[1]; [2]]%nat)) (t1 ++ EvInputEnd :: t2) = Some s /\ settled cat [] s.
Proof.
  cbv zeta. split; [reflexivity|]. eexists. split; [vm_compute; reflexivity|].
  intros e _. destruct e; reflexivity.
Qed.

(** *** C05 *)
Theorem C05_input_error_not_ok : forall (A E O : Type) (comb : O -> A -> A -> res E A) (empty : A) inp tr s x,
  In (RErr x) inp -> fold_run comb empty inp tr = Some s ->
  f_ret s = None \/ exists e, f_ret s = Some (RetErr e).
Proof. exact input_error_never_ok. Qed.
Print Assumptions C05_input_error_not_ok.

(** Reading an input error returns exactly that error. *)
Theorem C05_input_error_returned : forall (A E O : Type) (comb : O -> A -> A -> res E A) (empty : A) s x rest,
  f_ret s = None -> f_inp s = RErr x :: rest ->
  exists s', fold_step comb empty s EvInput = Some s' /\ f_ret s' = Some (RetErr (ErrInput x)).
Proof. intros A E O comb empty s x rest R I. unfold fold_step. rewrite R, I. eexists. split; reflexivity. Qed.
Print Assumptions C05_input_error_returned.

Theorem C05_worker_error_returned : forall (A E O : Type) (comb : O -> A -> A -> res E A) (empty : A) inp tr s i e rs ack,
  fold_run comb empty inp tr = Some s -> f_ret s = None -> pick i (f_results s) = Some (RErr e, rs) ->
  exists s', fold_step comb empty s (EvResult i ack) = Some s' /\ f_ret s' = Some (RetErr (ErrWorker e)).
Proof. exact worker_error_returned. Qed.
Print Assumptions C05_worker_error_returned.

Theorem C05_worker_error_real : forall (A E O : Type) (comb : O -> A -> A -> res E A) (empty : A) inp tr s e,
  fold_run comb empty inp tr = Some s -> f_ret s = Some (RetErr (ErrWorker e)) ->
  exists o a b, comb o a b = RErr e.
Proof. exact worker_error_real. Qed.
Print Assumptions C05_worker_error_real.

Definition flaky (o : bool) (a b : list nat) : res nat (list nat) := if o then ROk (a ++ b) else RErr 42%nat.
Example C05_example :
  (exists s, fold_run flaky [] [ROk (0, [1%nat]); ROk (1, [2%nat]); RErr 9%nat; ROk (2, [3%nat])]
     [EvInput; EvInput; EvPublish 0 true; EvWork 0 true; EvInput] = Some s /\ f_ret s = Some (RetErr (ErrInput 9%nat))) /\
  (exists s, fold_run flaky [] [ROk (0, [1%nat]); ROk (1, [2%nat]); ROk (2, [3%nat])]
     [EvInput; EvInput; EvPublish 0 true; EvWork 0 false; EvInput; EvResult 0 true] = Some s /\
     f_ret s = Some (RetErr (ErrWorker 42%nat))).
Proof. split; eexists; (split; [vm_compute; reflexivity|reflexivity]). Qed.

(** *** C06 *)
(** Two runs over the same items, one with and one without duplicated (or lost) deliveries, both returning a
    value, return the same value, for an associative operation. *)
Theorem C06_duplicates_harmless : forall (A E O : Type) (comb : O -> A -> A -> res E A) (f : A -> A -> A) (empty : A)
  base l arr arr' tr tr' s s' v v',
  (forall o a b c, comb o a b = ROk c -> c = f a b) -> (forall a b c, f a (f b c) = f (f a b) c) ->
  base + N.of_nat (length l) <= usize_max ->
  Permutation arr (index_from base l) -> Permutation arr' (index_from base l) ->
  fold_run comb empty (map ROk arr) tr = Some s -> f_ret s = Some (RetOk v) ->
  fold_run comb empty (map ROk arr') tr' = Some s' -> f_ret s' = Some (RetOk v') -> v = v'.
Proof.
  intros A E O comb f empty base l arr arr' tr tr' s s' v v' HC HA B P P' R H R' H'.
  destruct (C01_fold_in_order A E O comb empty base l arr tr s v B P R H) as [[-> ->]|I];
  destruct (C01_fold_in_order A E O comb empty base _ arr' tr' s' v' B P' R' H') as [[L' ->]|I'].
  - reflexivity.
  - destruct (in_order_assoc A E O comb f HC HA _ v' I') as (x & r & X & _). discriminate.
  - subst l. destruct (in_order_assoc A E O comb f HC HA _ v I) as (x & r & X & _). discriminate.
  - destruct (in_order_assoc A E O comb f HC HA l v I) as (x & r & -> & ->).
    destruct (in_order_assoc A E O comb f HC HA _ v' I') as (x' & r' & X & ->). now injection X as <- <-.
Qed.
Print Assumptions C06_duplicates_harmless.

(** A run with a duplicated task and a duplicated result that still returns. *)
Example C06_example :
  exists s, fold_run cat [] (map ROk (index_from 0 [[1]; [2]; [3]]%nat))
    [EvInput; EvInput; EvPublish 0 true; EvDupTask 0; EvWork 0 tt; EvWork 0 tt; EvDupResult 0; EvInput; EvInputEnd;
     EvResult 0 true; EvPublish 0 true; EvWork 0 tt; EvResult 0 true; EvResult 1 true; EvFinal true] = Some s /\
    f_ret s = Some (RetOk [1; 2; 3]%nat).
Proof. eexists. split; [vm_compute; reflexivity|reflexivity]. Qed.

(** *** C07 *)
(** False as stated: a single item whose index is not 0 makes the fold panic, in every run that finishes. *)
Theorem C07_single_shifted_panics : forall (A E O : Type) (comb : O -> A -> A -> res E A) (empty x : A) base tr s,
  base <> 0 -> fold_run comb empty (map ROk (index_from base [x])) tr = Some s -> settled comb empty s ->
  f_ret s = Some Panicked.
Proof.
  intros A E O comb empty x base tr s NZ R ST. cbn in R.
  destruct (single_run A E O comb empty base x tr s R) as (_ & _ & _ & [[RN (e & s' & NF & H)]|RS]).
  - now rewrite (ST e NF) in H.
  - destruct (N.eqb_spec base 0); [congruence|exact RS].
Qed.
Print Assumptions C07_single_shifted_panics.

Theorem C07_any_base_refuted : exists (tr : list (fevent unit)) s,
  fault_free tr /\ fold_run cat [] (map ROk (index_from 3 [[1%nat]])) tr = Some s /\ settled cat [] s /\
  f_ret s = Some Panicked.
Proof.
  exists [EvInput; EvInputEnd]. eexists. split; [repeat constructor|]. split; [vm_compute; reflexivity|].
  split; [|reflexivity]. intros e _. destruct e; reflexivity.
Qed.
Print Assumptions C07_any_base_refuted.

(** What holds for every [base]: a returned value is right (C01), and with two items or more the fold returns under the
    condition of C04.  Missing: one item with [base <> 0] (false, see above), and the runs of C04. *)
Theorem C07_any_base_partial : forall (A E O : Type) (comb : O -> A -> A -> res E A) (empty : A) (orc : O) base l arr t1 t2 s,
  base + N.of_nat (length l) <= usize_max -> Permutation arr (index_from base l) ->
  (forall o a b, exists c, comb o a b = ROk c) -> (length l <> 1)%nat ->
  fault_free (t1 ++ EvInputEnd :: t2) ->
  fold_run comb empty (map ROk arr) (t1 ++ EvInputEnd :: t2) = Some s -> settled comb empty s ->
  length l = 0%nat \/ existsb is_result t2 = true ->
  exists v, f_ret s = Some (RetOk v) /\ ((l = [] /\ v = empty) \/ in_order comb l v).
Proof.
  intros A E O comb empty orc base l arr t1 t2 s B P T L1 F R ST X.
  assert (V : exists v, f_ret s = Some (RetOk v)).
  { destruct X as [L|X].
    - apply length_zero_iff_nil in L. subst l. cbn in P. apply Permutation_sym, Permutation_nil in P. subst arr.
      exists empty. exact (proj1 (proj2 (C02_empty_fold A E O comb empty _ s R)) ST).
    - destruct (returns_if_result_after_end A E O comb empty base l B T orc arr t1 t2 s P F R X ST) as [(v & H & _)|(_ & H & _)].
      + eauto.
      + congruence. }
  destruct V as (v & V). exists v. split; [exact V|].
  exact (C01_fold_in_order A E O comb empty base l arr _ s v B P R V).
Qed.
Print Assumptions C07_any_base_partial.

Example C07_example :
  (exists s, fold_run cat [] (map ROk (index_from 3 [[1%nat]])) [EvInput; EvInputEnd] = Some s /\ f_ret s = Some Panicked) /\
  (exists s, fold_run cat [] (map ROk (index_from 3 [[1%nat]; [2%nat]]))
     [EvInput; EvInput; EvPublish 0 true; EvWork 0 tt; EvInputEnd; EvResult 0 true; EvFinal true] = Some s /\
     f_ret s = Some (RetOk [1; 2]%nat)).
Proof. split; eexists; (split; [vm_compute; reflexivity|reflexivity]). Qed.
