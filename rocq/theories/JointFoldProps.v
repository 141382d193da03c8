(** C99: a fold run by the whole system returns, unless its result is parked. Theorems and examples. *)
From Coq Require Import List Arith NArith Lia Bool Permutation.
From Verif Require Import Base BaseFacts ContiguousModel FoldModel FoldSpec FoldProofs FoldLive FoldProps RetryModel
  WorkerModel WorkerSpec WorkerProofs WorkerProps SystemModel SystemSpec SystemProofs SystemProps JointModel JointProofs JointInv JointProps PoolLive PoolProps JointLive JointEnd JointFold JointFoldEnd.
Import ListNotations.
Open Scope nat_scope.

(** The operator of the fold, which does not fail. *)
Definition op_of (g : nat -> nat -> nat -> nat) (op : nat) : unit -> nat -> nat -> Base.res nat nat := fun _ a b => ROk (g op a b).

Section C99.
Variable f : nat -> nat -> nat.
Variable g : nat -> nat -> nat -> nat.
Variable empty : nat -> nat.

Lemma start_twin : forall dead tr s d op base l arr x dd, j_run f g empty tr = Some s -> fold_at s d op (map ROk arr) x -> no_return s d -> nth_error (y_dirs (j_sys s)) d = Some dd -> d_open dd = true ->
  (base + N.of_nat (length l) <= usize_max)%N -> Permutation arr (index_from base l) -> (forall e, In (JOfFold d e) tr -> nofault e = true) ->
  clean dead (j_sys s) -> some_able dead (j_sys s) -> tidy dead d (j_sys s) ->
  fready f g empty dead s d op (map ROk arr) x /\ exists ftr x0, twin g empty (j_sys s) d op (map ROk arr) x ftr x0 /\ linv nat nat unit (sure g op) (empty op) base l x0.
Proof.
  intros dead tr s d op base l arr x dd R C NR D O B P NF CL AB TI. pose proof (jinv_run f g empty tr s R) as (SI & _ & _).
  split; [constructor; eauto using no_return_back|]. destruct (twin_run f g empty tr s d op _ x R C (no_return_back _ _ NR) (quiet f g dead _ SI CL) NF) as (ftr & x0 & TW). exists ftr, x0. split; [exact TW|].
  exact (proj1 (reach_linv nat nat unit (sure g op) (empty op) base l arr ftr x0 B P (tw_run _ _ _ _ _ _ _ _ _ TW) (tw_good _ _ _ _ _ _ _ _ _ TW) (sure_total g op))).
Qed.
Lemma alike_parked : forall base l x x0, alike x x0 -> parked nat nat base l x0 <-> parked nat nat base l x.
Proof. intros base l x x0 ->. reflexivity. Qed.
(** Whatever happened so far, as long as nothing failed: if the workers that are left go on, the fold can return, and then it returns the items combined in their order. *)
Theorem C99_returns : forall dead tr s d op base l arr x dd, j_run f g empty tr = Some s -> fold_at s d op (map ROk arr) x -> no_return s d -> nth_error (y_dirs (j_sys s)) d = Some dd -> d_open dd = true ->
  (base + N.of_nat (length l) <= usize_max)%N -> Permutation arr (index_from base l) -> (length l = 1 -> base = 0%N) -> (forall e, In (JOfFold d e) tr -> nofault e = true) ->
  clean dead (j_sys s) -> some_able dead (j_sys s) -> tidy dead d (j_sys s) -> ~ parked nat nat base l x ->
  exists tr' s' x' v, steadyf f g empty dead d s tr' s' /\ fold_at s' d op (map ROk arr) x' /\ f_ret x' = Some (RetOk v) /\ ((l = [] /\ v = empty op) \/ in_order (op_of g op) l v).
Proof.
  intros dead tr s d op base l arr x dd R C NR D O B P ONE NF CL AB TI NP.
  destruct (start_twin dead tr s d op base l arr x dd R C NR D O B P NF CL AB TI) as (FR & ftr & x0 & TW & LI).
  assert (K : exists tr1 s1 x1 ftr1 x01, steadyf f g empty dead d s tr1 s1 /\ fready f g empty dead s1 d op (map ROk arr) x1 /\ twin g empty (j_sys s1) d op (map ROk arr) x1 ftr1 x01 /\
    (FoldLive.jinv nat nat unit (sure g op) (empty op) base l x01 \/ fin nat nat base l x01)).
  { destruct LI as [PI|FI]; [|exists [], s, x, ftr, x0; split; [constructor|auto]].
    apply (read_all f g empty dead base l B (length (f_inp x0)) s d op _ x ftr x0 eq_refl FR TW PI). now rewrite (alike_parked base l _ _ (tw_like _ _ _ _ _ _ _ _ _ TW)). }
  destruct K as (tr1 & s1 & x1 & ftr1 & x01 & SD1 & FR1 & TW1 & I1).
  destruct (finish f g empty dead base l B _ s1 d op _ x1 ftr1 x01 eq_refl FR1 TW1 I1) as (tr2 & s2 & x2 & ftr2 & x02 & SD2 & FR2 & TW2 & FI).
  assert (RT : exists v, f_ret x02 = Some (RetOk v)) by (destruct FI as [(v & Q & _)|(_ & L1 & BZ & _)]; [eauto|destruct (BZ (ONE L1))]). destruct RT as (v & RT).
  exists (tr1 ++ tr2), s2, x2, v. split; [exact (steadyf_app _ _ _ _ _ _ _ _ _ _ SD1 SD2)|]. split; [exact (fr_fold _ _ _ _ _ _ _ _ _ FR2)|]. split; [rewrite (tw_like _ _ _ _ _ _ _ _ _ TW2); exact RT|].
  exact (C01_fold_in_order nat nat unit (sure g op) (empty op) base l arr ftr2 x02 v B P (tw_run _ _ _ _ _ _ _ _ _ TW2) RT).
Qed.
(** Once the only item left is in the assembler nothing of this kind makes the fold return. *)
Theorem C99_parked : forall dead tr s d op base l arr x dd, j_run f g empty tr = Some s -> fold_at s d op (map ROk arr) x -> no_return s d -> nth_error (y_dirs (j_sys s)) d = Some dd -> d_open dd = true ->
  (base + N.of_nat (length l) <= usize_max)%N -> Permutation arr (index_from base l) -> (forall e, In (JOfFold d e) tr -> nofault e = true) ->
  clean dead (j_sys s) -> some_able dead (j_sys s) -> tidy dead d (j_sys s) -> f_ret x = None -> parked nat nat base l x ->
  forall tr' s' x', steadyf f g empty dead d s tr' s' -> fold_at s' d op (map ROk arr) x' -> f_ret x' = None /\ parked nat nat base l x'.
Proof.
  intros dead tr s d op base l arr x dd R C NR D O B P NF CL AB TI RN PK tr' s' x' SD C'.
  destruct (start_twin dead tr s d op base l arr x dd R C NR D O B P NF CL AB TI) as (FR & ftr & x0 & TW & LI).
  rewrite (tw_like _ _ _ _ _ _ _ _ _ TW) in RN. destruct LI as [PI|FI]; [|exfalso; cbn in RN; destruct FI as [(v & Q & _)|(Q & _)]; congruence].
  apply (alike_parked base l _ _ (tw_like _ _ _ _ _ _ _ _ _ TW)) in PK.
  destruct (steady_twin f g empty dead _ _ _ _ SD _ _ _ _ _ FR TW) as (x1 & new & x01 & FR1 & TW1 & RU). pose proof (fr_fold _ _ _ _ _ _ _ _ _ FR1) as C1. unfold fold_at in C1, C'. assert (x1 = x') by congruence. subst x1.
  assert (FF : fault_free new) by (pose proof (tw_good _ _ _ _ _ _ _ _ _ TW1) as G; apply Forall_app in G; exact (proj2 G)).
  destruct (parked_run nat nat unit (sure g op) (empty op) base l B (sure_total g op) new x0 x01 PI PK FF RU) as [PI1 PK1]. split.
  - rewrite (tw_like _ _ _ _ _ _ _ _ _ TW1). exact (p_ret _ _ _ _ _ _ _ _ PI1).
  - now apply (alike_parked base l _ _ (tw_like _ _ _ _ _ _ _ _ _ TW1)).
Qed.
(** Both together. *)
Theorem C99_exactly : forall dead tr s d op base l arr x dd, j_run f g empty tr = Some s -> fold_at s d op (map ROk arr) x -> no_return s d -> nth_error (y_dirs (j_sys s)) d = Some dd -> d_open dd = true ->
  (base + N.of_nat (length l) <= usize_max)%N -> Permutation arr (index_from base l) -> (length l = 1 -> base = 0%N) -> (forall e, In (JOfFold d e) tr -> nofault e = true) ->
  clean dead (j_sys s) -> some_able dead (j_sys s) -> tidy dead d (j_sys s) -> f_ret x = None ->
  ((exists tr' s' x' v, steadyf f g empty dead d s tr' s' /\ fold_at s' d op (map ROk arr) x' /\ f_ret x' = Some (RetOk v)) <->
   ~ (2 <= length l /\ exists k it, In (k, it) (f_asm x) /\ it_lo it = base /\ (it_hi it + 1)%N = (base + N.of_nat (length l))%N)).
Proof.
  intros dead tr s d op base l arr x dd R C NR D O B P ONE NF CL AB TI RN.
  assert (PA : parked nat nat base l x <-> 2 <= length l /\ exists k it, In (k, it) (f_asm x) /\ it_lo it = base /\ (it_hi it + 1)%N = (base + N.of_nat (length l))%N).
  { unfold parked, full. split; intros [L2 K]; (split; [exact L2|]).
    - destruct K as (it & I & K). apply in_map_iff in I as ([k it0] & <- & I). exists k. exists it0. auto.
    - destruct K as (k & it & I & K). exists it. split; [apply in_map_iff; exists (k, it); auto|exact K]. }
  rewrite <- PA. split.
  - intros (tr' & s' & x' & v & SD & C' & RT) PK. destruct (C99_parked dead tr s d op base l arr x dd R C NR D O B P NF CL AB TI RN PK tr' s' x' SD C') as [Q _]. congruence.
  - intros NP. destruct (C99_returns dead tr s d op base l arr x dd R C NR D O B P ONE NF CL AB TI NP) as (tr' & s' & x' & v & K1 & K2 & K3 & _). eauto 8.
Qed.
End C99.
Print Assumptions C99_returns.
Print Assumptions C99_parked.
Print Assumptions C99_exactly.

(** Three items; one task was answered by a worker that is gone since, the other one is being executed. *)
Definition three_in : list (Base.res nat (N * nat)) := map ROk [(1%N, 0); (0%N, 1); (2%N, 1)].
Definition fold_half : list j_event :=
  [JFold 0 8 three_in] ++ sys1 [YStart 20; YStart 21] ++ f1 0 [EvInput; EvInput; EvPublish 0 true; EvInput; EvInputEnd] ++ sys1 ([YTake 1 0] ++ work 1 (OcOk 1) (resolve 0)) ++
  f1 0 [EvResult 0 true; EvPublish 0 true] ++ sys1 [YTake 0 0; YWork 0 WFlag; YWork 0 WCheck; YWork 0 (WPoll true None)].
Definition fold_half_state : joint := match j_run inc plus zero fold_half with Some s => s | None => j_init end.
Ltac pool_facts := split; [|split; [|split]];
  [intros w ws W; vm_compute in W; destruct w as [|[|w]]; [| |destruct w; discriminate W]; injection W as <-;
    (split; [intros tm; split; intros z I; cbn in I; repeat (destruct I as [I|I]; [discriminate I|]); destruct I
            |intros G; first [discriminate G|intros tm i I; cbn in I; repeat (destruct I as [I|I]; [try discriminate I; injection I as <- <-; do 3 eexists; cbn; eauto|]); destruct I]])
  |exists 0; eexists; split; [vm_compute; reflexivity|]; split; [reflexivity|]; split; [reflexivity|exact Logic.I]
  |intros w ws i n x W G (tm & t & I & E) D; vm_compute in W; destruct w as [|[|w]]; [| |destruct w; discriminate W]; injection W as <-; [discriminate G|];
    cbn in I; repeat (destruct I as [I|I]; [try discriminate I; injection I as <- <- <-; reflexivity|]); destruct I
  |].
Example C99_ex : exists x dd, j_run inc plus zero fold_half = Some fold_half_state /\ fold_at fold_half_state 0 0 three_in x /\ no_return fold_half_state 0 /\
  nth_error (y_dirs (j_sys fold_half_state)) 0 = Some dd /\ d_open dd = true /\ (0 + N.of_nat (length [1; 0; 1]) <= usize_max)%N /\ Permutation [(1%N, 0); (0%N, 1); (2%N, 1)] (index_from 0 [1; 0; 1]) /\
  (forall e, In (JOfFold 0 e) fold_half -> nofault e = true) /\ clean second_dead (j_sys fold_half_state) /\ some_able second_dead (j_sys fold_half_state) /\ tidy second_dead 0 (j_sys fold_half_state) /\
  f_ret x = None /\ ~ parked nat nat 0 [1; 0; 1] x.
Proof.
  do 2 eexists. split; [vm_compute; reflexivity|]. split; [vm_compute; reflexivity|]. split; [apply show_no_return; vm_compute; reflexivity|]. split; [vm_compute; reflexivity|]. split; [reflexivity|]. split; [discriminate|].
  split; [apply perm_swap|]. split; [intros e I; vm_compute in I; repeat (destruct I as [I|I]; [try discriminate I; injection I as <-; reflexivity|]); destruct I|].
  pool_facts. split; [reflexivity|]. intros (_ & it & I & _). cbn in I. repeat (destruct I as [I|I]; [discriminate I|]); destruct I.
Qed.
(** One way to get there. *)
Example C99_ex_end : option_map (fun s => show_fold s 0) (j_run inc plus zero (fold_half ++ sys1 ([YWork 0 (WPoll true (Some (OcOk 2)))] ++ map (YWork 0) (resolve 0)) ++ f1 0 [EvResult 0 true; EvFinal true])) = Some (Some (0, three_in, Some (RetOk 2))).
Proof. vm_compute. reflexivity. Qed.
(** The result of the last task came before the end of the input was seen. *)
Definition pair_in : list (Base.res nat (N * nat)) := map ROk [(1%N, 2); (0%N, 1)].
Definition fold_early : list j_event :=
  [JFold 0 8 pair_in] ++ sys1 [YStart 20; YStart 21] ++ f1 0 [EvInput; EvInput; EvPublish 0 true] ++ sys1 ([YTake 1 0] ++ work 1 (OcOk 3) (resolve 0)) ++ f1 0 [EvResult 0 true].
Definition fold_early_state : joint := match j_run inc plus zero fold_early with Some s => s | None => j_init end.
Example C99_parked_ex : exists x dd, j_run inc plus zero fold_early = Some fold_early_state /\ fold_at fold_early_state 0 0 pair_in x /\ no_return fold_early_state 0 /\
  nth_error (y_dirs (j_sys fold_early_state)) 0 = Some dd /\ d_open dd = true /\ (0 + N.of_nat (length [1; 2]) <= usize_max)%N /\ Permutation [(1%N, 2); (0%N, 1)] (index_from 0 [1; 2]) /\
  (forall e, In (JOfFold 0 e) fold_early -> nofault e = true) /\ clean second_dead (j_sys fold_early_state) /\ some_able second_dead (j_sys fold_early_state) /\ tidy second_dead 0 (j_sys fold_early_state) /\
  f_ret x = None /\ f_ended x = false /\ parked nat nat 0 [1; 2] x.
Proof.
  do 2 eexists. split; [vm_compute; reflexivity|]. split; [vm_compute; reflexivity|]. split; [apply show_no_return; vm_compute; reflexivity|]. split; [vm_compute; reflexivity|]. split; [reflexivity|]. split; [discriminate|].
  split; [apply perm_swap|]. split; [intros e I; vm_compute in I; repeat (destruct I as [I|I]; [try discriminate I; injection I as <-; reflexivity|]); destruct I|].
  pool_facts. split; [reflexivity|]. split; [reflexivity|]. split; [cbn; lia|]. eexists. split; [now left|]. split; reflexivity.
Qed.
