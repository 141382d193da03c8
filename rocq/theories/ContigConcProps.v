(** Theorems about ContiguousQueue used by several threads: C10, C11. *)
From Coq Require Import List Arith NArith Lia Permutation Bool.
From Verif Require Import Base BaseFacts ContiguousModel ContiguousSpec ContiguousProofs
  ContigConcModel ContigConcSpec ContigConcProofs ContigConcPair.
Import ListNotations.
Open Scope N_scope.

(** *** C10 *)
(** Nothing is invented or duplicated, in any history of any number of calls: the submitted values are exactly those held by
    running calls, those given back by finished calls, and those in memory cells. *)
Theorem C10_no_duplication : forall (T : Type) (key : T -> N) (contig : T -> T -> bool) tr s,
  conc_run key contig tr = Some s ->
  Permutation (submitted tr) (held_by_calls s ++ given_back s ++ in_cells s).
Proof. exact conservation. Qed.
Print Assumptions C10_no_duplication.

(** Nothing is lost, as long as no value is submitted while another value with the same key is still inside (queued or
    held by a call that has not returned): when all calls have returned, every value was given back or can be found. *)
Theorem C10_no_loss_partial : forall (T : Type) (key : T -> N) (contig : T -> T -> bool) tr s,
  fresh_run key contig (fun v w => key v <> key w) c_init tr ->
  conc_run key contig tr = Some s -> all_returned s ->
  Permutation (submitted tr) (given_back s ++ queued s).
Proof. exact no_loss. Qed.
Print Assumptions C10_no_loss_partial.

(** Without that condition a value can vanish: between taking a partner and removing its key, another thread queues a
    new value under that key, and the removal hits the new value. *)
Definition lost_trace : list (cevent (item N)) :=
  let a := mkItem 0 0 10 in let b := mkItem 1 1 11 in let a' := mkItem 0 0 12 in
  [CQueue a; CStep 0; CAcquire b; CStep 1; CStep 1; CStep 1; CStep 1; CQueue a'; CStep 2; CStep 1].
Theorem C10_no_loss_refuted : exists tr s, conc_run item_key is_contiguous tr = Some s /\ all_returned s /\
  In (mkItem 0 0 12) (submitted tr) /\ ~ In (mkItem 0 0 12) (given_back s ++ queued s).
Proof.
  exists lost_trace. eexists. split; [vm_compute; reflexivity|].
  split; [intros p [<-|[<-|[<-|[]]]]; eauto|]. split; [cbn; auto|].
  cbn. intros [H|[H|[]]]; discriminate.
Qed.
Print Assumptions C10_no_loss_refuted.

(** Three threads, one of them steps between the others. *)
Definition pair_trace : list (cevent (item N)) :=
  let a := mkItem 0 0 10 in let b := mkItem 1 1 11 in let c := mkItem 2 2 12 in
  [CAcquire a; CStep 0; CStep 0; CStep 0; CAcquire b; CAcquire c; CStep 2; CStep 1; CStep 1; CStep 2; CStep 1; CStep 1; CStep 2; CStep 1; CStep 2].
Ltac fresh_tac := first
  [ apply FreshNil
  | eapply FreshCons; [cbn; intros v w Hv Hw; unfold disjoint, item_key; repeat (destruct Hv as [<-|Hv] || destruct Hw as [<-|Hw]); cbn; try tauto; try lia; try discriminate
                      | vm_compute; reflexivity | fresh_tac]].
Example C10_example : fresh_run item_key is_contiguous (fun v w => item_key v <> item_key w) c_init pair_trace /\
  exists s, conc_run item_key is_contiguous pair_trace = Some s /\ all_returned s /\
    given_back s = [mkItem 0 0 10; mkItem 1 1 11] /\ queued s = [mkItem 2 2 12].
Proof.
  split; [unfold pair_trace; fresh_tac|]. eexists. split; [vm_compute; reflexivity|].
  split; [intros p [<-|[<-|[<-|[]]]]; eauto|]. split; reflexivity.
Qed.

(** *** C11 *)
(** False: two threads that look before either has queued both queue, and the adjacent values stay unpaired. *)
Theorem C11_no_adjacent_left_refuted : exists tr s, 
  fresh_run item_key is_contiguous disjoint c_init tr /\ Forall proper (submitted tr) /\
  conc_run item_key is_contiguous tr = Some s /\ all_returned s /\
  exists x y : item N, In x (queued s) /\ In y (queued s) /\ adjacent x y.
Proof.
  exists [CAcquire (mkItem 0 0 10); CAcquire (mkItem 1 1 11); CStep 0; CStep 1; CStep 0; CStep 1; CStep 0; CStep 1]. eexists.
  split; [fresh_tac|]. split; [repeat constructor; vm_compute; congruence|].
  split; [vm_compute; reflexivity|]. split; [intros p [<-|[<-|[]]]; eauto|].
  exists (mkItem 0 0 10), (mkItem 1 1 11). cbn. repeat split; auto.
Qed.
Print Assumptions C11_no_adjacent_left_refuted.

(** What holds, with values always disjoint from those inside: a call never overlooks an adjacent value that is
    queued during the whole call.  [t1] is what happened before the call of [x], [t2] is what happened since.  Missing from
    the full statement: an adjacent value that is queued while the call is running. *)
Theorem C11_not_overlooked_partial : forall (A : Type) t1 t2 s1 s (x y : item A),
  Forall (fun e => match e with CDequeue _ => False | _ => True end) (t1 ++ CAcquire x :: t2) ->
  Forall proper (submitted (t1 ++ CAcquire x :: t2)) ->
  fresh_run item_key is_contiguous disjoint c_init (t1 ++ CAcquire x :: t2) ->
  conc_run item_key is_contiguous (t1 ++ [CAcquire x]) = Some s1 ->
  conc_run item_key is_contiguous (t1 ++ CAcquire x :: t2) = Some s ->
  adjacent x y \/ adjacent y x ->
  (forall u1 u2 m, t2 = u1 ++ u2 -> run_from (conc_step item_key is_contiguous) s1 u1 = Some m -> In y (queued m)) ->
  nth_error (c_thr s) (length (c_thr s1) - 1) <> Some (PDone RetNone).
Proof. exact not_overlooked. Qed.
Print Assumptions C11_not_overlooked_partial.

(** An adjacent value stays queued while a call runs up to the step before it takes it. *)
Example C11_example :
  let x := mkItem 1 1 11 in let y := mkItem 2 5 20 in
  let t1 := [CAcquire y; CStep 0; CStep 0; CStep 0] in let t2 := [CStep 1; CStep 1] in
  fresh_run item_key is_contiguous disjoint c_init (t1 ++ CAcquire x :: t2) /\
  exists s1 s, conc_run item_key is_contiguous (t1 ++ [CAcquire x]) = Some s1 /\
    conc_run item_key is_contiguous (t1 ++ CAcquire x :: t2) = Some s /\ adjacent x y /\
    (forall u1 u2 m, t2 = u1 ++ u2 -> run_from (conc_step item_key is_contiguous) s1 u1 = Some m -> In y (queued m)) /\
    nth_error (c_thr s) 1 = Some (PTakeR x 2 0).
Proof.
  cbv zeta. split; [cbn [app]; fresh_tac|]. eexists. eexists. split; [vm_compute; reflexivity|]. split; [vm_compute; reflexivity|].
  split; [reflexivity|]. split; [|reflexivity].
  intros u1 u2 m E R. destruct u1 as [|e1 [|e2 [|e3 u1]]]; cbn in E.
  - injection R as <-. cbn. auto.
  - injection E as <- _. injection R as <-. cbn. auto.
  - injection E as <- <- _. injection R as <-. cbn. auto.
  - discriminate.
Qed.

(** Calls that do not overlap leave no adjacent pair. *)
Theorem C11_sequential_partial : forall (A : Type) (xs : list (item A)),
  let after l := fst (cq_run item_key is_contiguous (cq_new (item A)) (map OpAcquire l)) in
  Forall proper xs ->
  (forall l x r, xs = l ++ x :: r -> Forall (disjoint x) (map snd (after l))) ->
  forall x y, In x (map snd (after xs)) -> In y (map snd (after xs)) -> ~ adjacent x y.
Proof. exact sequential_no_adjacent. Qed.
Print Assumptions C11_sequential_partial.

Example C11_sequential_example :
  let xs := [mkItem 0 0 1; mkItem 5 5 2; mkItem 1 1 3; mkItem 0 1 4; mkItem 3 3 5] in
  let after l := fst (cq_run item_key is_contiguous (cq_new (item N)) (map OpAcquire l)) in
  map snd (after xs) = [mkItem 0 1 4; mkItem 3 3 5; mkItem 5 5 2] /\
  (forall l x r, xs = l ++ x :: r -> Forall (disjoint x) (map snd (after l))).
Proof.
  cbv zeta. split; [vm_compute; reflexivity|]. intros l x r E.
  do 5 (destruct l as [|? l]; [injection E as <- _; vm_compute; repeat constructor; vm_compute; tauto|injection E as <- E]).
  destruct l; discriminate.
Qed.
