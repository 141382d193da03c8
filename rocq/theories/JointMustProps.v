(** C100: a fold run by the whole system returns in every schedule, unless its result gets parked. Theorems and examples. *)
From Coq Require Import List Arith NArith Lia Bool Permutation.
From Verif Require Import Base BaseFacts ContiguousModel FoldModel FoldSpec FoldProofs FoldLive FoldProps RetryModel
  WorkerModel WorkerSpec WorkerProofs WorkerProps SystemModel SystemSpec SystemProofs SystemProps JointModel JointProofs JointInv JointProps PoolLive PoolProps JointLive JointEnd JointFold JointFoldEnd JointFoldProps JointMust.
Import ListNotations.
Open Scope nat_scope.

(** What there is to do at most: deliveries so far, queued tasks, workers. *)
Definition amount (y : sys) : nat := 40 * list_sum (map w_taken (y_workers y)) + 20 * length (y_queue y) + 12 * length (y_workers y).
Lemma cnt_length : forall (A : Type) (p : A -> bool) l, cnt p l <= length l.
Proof. intros A p l. induction l as [|a l IH]; [reflexivity|]. rewrite cnt_cons. cbn [length]. destruct (p a); cbn; lia. Qed.
Lemma rank_most : forall ws, rank ws <= 12.
Proof. intros ws. unfold rank, todo, io_left. destruct (w_main ws) as [|t|t|t a|t sn st|t y a d|t fs msg a d|t a|t u|en]; try lia; try (destruct a; lia); [destruct a, d as [|[]| |]; lia|destruct a, d as [|[] []| |]; lia|destruct (u <=? w_now ws)%N; lia]. Qed.
Lemma undone_most : forall dead y, undone dead y <= amount y.
Proof.
  intros dead y. unfold undone, amount.
  assert (B : forall l k bk, bsum dead k l bk <= list_sum (map w_taken l)) by (intros l; induction l as [|a l IH]; intros k bk; [reflexivity|]; unfold list_sum in *; cbn [bsum map fold_right]; specialize (IH (S k) bk); pose proof (cnt_length _ (loose dead k a bk) (seq 0 (w_taken a))) as Q; rewrite seq_length in Q; lia).
  assert (R : forall l k, rsum dead k l <= 12 * length l) by (intros l; induction l as [|a l IH]; intros k; [cbn; lia|]; cbn [rsum length]; specialize (IH (S k)); pose proof (rank_most a); destruct (dead k); lia).
  pose proof (B (y_workers y) 0 (y_back y)). pose proof (R (y_workers y) 0). lia.
Qed.

Section C100.
Variable f : nat -> nat -> nat.
Variable g : nat -> nat -> nat -> nat.
Variable empty : nat -> nat.

(** However the steps are scheduled, there are not many of them. *)
Theorem C100_bounded : forall dead tr s d op base l arr x dd, j_run f g empty tr = Some s -> fold_at s d op (map ROk arr) x -> no_return s d -> nth_error (y_dirs (j_sys s)) d = Some dd -> d_open dd = true ->
  (base + N.of_nat (length l) <= usize_max)%N -> Permutation arr (index_from base l) -> (forall e, In (JOfFold d e) tr -> nofault e = true) ->
  clean dead (j_sys s) -> some_able dead (j_sys s) -> tidy dead d (j_sys s) ->
  forall tr' s', steadyf f g empty dead d s tr' s' -> moves tr' <= amount (j_sys s) + 84 * length l + 42.
Proof.
  intros dead tr s d op base l arr x dd R C NR D O B P NF CL AB TI tr' s' SD. pose proof (jinv_run f g empty tr s R) as (SI & _ & _).
  assert (FR : fready f g empty dead s d op (map ROk arr) x) by (constructor; eauto using no_return_back). destruct (twin_run f g empty tr s d op _ x R C (no_return_back _ _ NR) (quiet f g dead _ SI CL) NF) as (ftr & x0 & TW).
  destruct (reach_linv nat nat unit (sure g op) (empty op) base l arr ftr x0 B P (tw_run _ _ _ _ _ _ _ _ _ TW) (tw_good _ _ _ _ _ _ _ _ _ TW) (sure_total g op)) as [LI W].
  destruct (fold_bound f g empty dead base l B d s tr' s' SD op _ x ftr x0 FR TW LI) as (? & ? & ? & _ & _ & _ & Q). pose proof (undone_most dead (j_sys s)). lia.
Qed.
(** And when there are no more of them, the fold has returned, or its result is parked. *)
Theorem C100_rest : forall dead tr s d op base l arr x dd, j_run f g empty tr = Some s -> fold_at s d op (map ROk arr) x -> no_return s d -> nth_error (y_dirs (j_sys s)) d = Some dd -> d_open dd = true ->
  (base + N.of_nat (length l) <= usize_max)%N -> Permutation arr (index_from base l) -> (length l = 1 -> base = 0%N) -> (forall e, In (JOfFold d e) tr -> nofault e = true) ->
  clean dead (j_sys s) -> some_able dead (j_sys s) -> tidy dead d (j_sys s) ->
  forall tr' s' x', steadyf f g empty dead d s tr' s' -> fold_at s' d op (map ROk arr) x' -> at_rest f g empty dead d s' ->
  (exists v, f_ret x' = Some (RetOk v) /\ ((l = [] /\ v = empty op) \/ in_order (op_of g op) l v)) \/ (f_ret x' = None /\ f_ended x' = true /\ parked nat nat base l x').
Proof.
  intros dead tr s d op base l arr x dd R C NR D O B P ONE NF CL AB TI tr' s' x' SD C' AR. destruct (start_twin f g empty dead tr s d op base l arr x dd R C NR D O B P NF CL AB TI) as (FR & ftr & x0 & TW & LI).
  destruct (fold_bound f g empty dead base l B d s tr' s' SD op _ x ftr x0 FR TW LI) as (x1 & ftr1 & x01 & FR1 & TW1 & LI1 & _). pose proof (fr_fold _ _ _ _ _ _ _ _ _ FR1) as C1. unfold fold_at in C1, C'. assert (x1 = x') by congruence. subst x1.
  pose proof (tw_like _ _ _ _ _ _ _ _ _ TW1) as AL. assert (ER : f_ret x' = f_ret x01) by now rewrite AL. assert (EE : f_ended x' = f_ended x01) by now rewrite AL.
  destruct (rest_cases f g empty dead base l B s' d op _ x' ftr1 x01 FR1 TW1 LI1 AR) as [[(v & RT & _)|(_ & L1 & BZ & _)]|(PK & EN & RN)]; [left|destruct (BZ (ONE L1))|right].
  - exists v. split; [congruence|]. exact (C01_fold_in_order nat nat unit (sure g op) (empty op) base l arr ftr1 x01 v B P (tw_run _ _ _ _ _ _ _ _ _ TW1) RT).
  - split; [congruence|]. split; [congruence|]. now apply (alike_parked base l _ _ AL).
Qed.
(** It cannot get parked any more once the end of the input has been seen. *)
Theorem C100_must : forall dead tr s d op base l arr x dd, j_run f g empty tr = Some s -> fold_at s d op (map ROk arr) x -> no_return s d -> nth_error (y_dirs (j_sys s)) d = Some dd -> d_open dd = true ->
  (base + N.of_nat (length l) <= usize_max)%N -> Permutation arr (index_from base l) -> (length l = 1 -> base = 0%N) -> (forall e, In (JOfFold d e) tr -> nofault e = true) ->
  clean dead (j_sys s) -> some_able dead (j_sys s) -> tidy dead d (j_sys s) -> f_ended x = true -> ~ parked nat nat base l x ->
  forall tr' s' x', steadyf f g empty dead d s tr' s' -> fold_at s' d op (map ROk arr) x' -> at_rest f g empty dead d s' ->
  exists v, f_ret x' = Some (RetOk v) /\ ((l = [] /\ v = empty op) \/ in_order (op_of g op) l v).
Proof.
  intros dead tr s d op base l arr x dd R C NR D O B P ONE NF CL AB TI EN NP tr' s' x' SD C' AR. destruct (start_twin f g empty dead tr s d op base l arr x dd R C NR D O B P NF CL AB TI) as (FR & ftr & x0 & TW & LI).
  destruct (C100_rest dead tr s d op base l arr x dd R C NR D O B P ONE NF CL AB TI tr' s' x' SD C' AR) as [K|(RN & _ & PK)]; [exact K|exfalso].
  pose proof (tw_like _ _ _ _ _ _ _ _ _ TW) as AL. assert (J : FoldLive.jinv nat nat unit (sure g op) (empty op) base l x0 \/ fin nat nat base l x0).
  { destruct LI as [PI|FI]; [left|now right]. assert (EN0 : f_ended x0 = true) by (rewrite AL in EN; exact EN). split; [exact PI|]. split; [exact EN0|]. intros it IN FU. apply NP. apply (alike_parked base l _ _ AL). split; [|exists it; auto].
    pose proof (p_ended _ _ _ _ _ _ _ _ PI EN0). pose proof (v_count _ _ _ _ _ _ _ _ (p_v _ _ _ _ _ _ _ _ PI)). lia. }
  destruct (jf_steady f g empty dead base l B d s tr' s' SD op _ x ftr x0 FR TW J) as (x1 & ftr1 & x01 & FR1 & TW1 & J1). pose proof (fr_fold _ _ _ _ _ _ _ _ _ FR1) as C1. unfold fold_at in C1, C'. assert (x1 = x') by congruence. subst x1.
  pose proof (tw_like _ _ _ _ _ _ _ _ _ TW1) as AL1. destruct J1 as [(_ & _ & NP1)|FI].
  - apply (alike_parked base l _ _ AL1) in PK. destruct PK as (_ & it & IN & FU). exact (NP1 it IN FU).
  - rewrite AL1 in RN. cbn in RN. destruct FI as [(v & Q & _)|(Q & _)]; congruence.
Qed.
End C100.
Print Assumptions C100_bounded.
Print Assumptions C100_rest.
Print Assumptions C100_must.

(** The hypotheses hold of [fold_half_state] (C99_ex), where the end of the input has been seen; this is where its runs end. *)
Definition fold_rest : list j_event := sys1 ([YWork 0 (WPoll false (Some (OcOk 2)))] ++ map (YWork 0) (resolve 0)) ++ f1 0 [EvResult 0 true; EvFinal true].
Definition fold_rest_state : joint := match run_from (j_step inc plus zero) fold_half_state fold_rest with Some s => s | None => j_init end.
Example C100_ex : option_map f_ended (match nth_error (j_cl fold_half_state) 0 with Some (CFold _ _ x) => Some x | _ => None end) = Some true /\ steadyf inc plus zero second_dead 0 fold_half_state fold_rest fold_rest_state /\
  show_fold fold_rest_state 0 = Some (0, three_in, Some (RetOk 2)) /\ moves fold_rest = 10 /\ amount (j_sys fold_half_state) = 104.
Proof.
  split; [vm_compute; reflexivity|]. split; [|split; [vm_compute; reflexivity|split; vm_compute; reflexivity]].
  unfold fold_rest, sys1, f1. cbn [map app resolve].
  repeat first [eapply sf_sys; [split; reflexivity|vm_compute; reflexivity|]|eapply sf_own; [reflexivity|vm_compute; reflexivity|]].
  vm_compute. constructor.
Qed.
Lemma rest_by : forall f g empty dead d s, (forall fe, j_step f g empty s (JOfFold d fe) = None) ->
  (forall e s1, calm dead (j_sys s) e -> j_step f g empty s (JSys e) = Some s1 -> counts (JSys e) = false) -> at_rest f g empty dead d s.
Proof.
  intros f g empty dead d s NX HS e s' H. remember [e] as tr eqn:T. destruct H as [s|s e0 s1 tr s2 C S _|s e0 s1 tr s2 C S _]; [discriminate T| |]; injection T as <- _; [exact (HS _ _ C S)|]. rewrite NX in S. discriminate S.
Qed.
Definition rest_sys : sys := Eval vm_compute in j_sys fold_rest_state.
Lemma rest_is : j_sys fold_rest_state = rest_sys.
Proof. vm_compute. reflexivity. Qed.
Example C100_ex_rest : at_rest inc plus zero second_dead 0 fold_rest_state.
Proof.
  apply rest_by; [intros fe; vm_compute; reflexivity|]. intros e0 s1 C S. destruct (sys_only _ _ _ _ _ _ S) as [NR Y]. clear S. rewrite rest_is in C, Y. revert C Y. generalize (j_sys s1). intros y1. clear s1.
  destruct e0 as [k|d x|ident|w j|w e|w i|d j|d]; intros C Y; try (destruct C; fail); try discriminate NR.
  - exfalso. unfold y_step in Y. change (y_queue rest_sys) with (@nil nat) in Y. destruct (nth_error (y_workers rest_sys) w); destruct j; discriminate Y.
  - destruct C as [DW G]. destruct w as [|w]; [|destruct w; [discriminate DW|]]. 
    + assert (WS : forall x, goes_well x = true -> counts (JSys (YWork 0 x)) = true -> forall ws, nth_error (y_workers rest_sys) 0 = Some ws -> w_step ws x = None).
      { intros x GW CT ws WE. vm_compute in WE. injection WE as <-.
        destruct x as [d| |k| | |t| | | |sf r|sl|sl ok|ok|ok| |]; try discriminate GW; try discriminate CT; try reflexivity; destruct sl; reflexivity. }
      destruct (counts (JSys (YWork 0 e))) eqn:CT; [exfalso|reflexivity]. unfold y_step in Y. destruct (nth_error (y_workers rest_sys) 0) as [ws|] eqn:WE; [|discriminate Y]. rewrite (WS e G CT ws eq_refl) in Y. destruct (possible (may inc plus) rest_sys ws e); discriminate Y.
    + exfalso. assert (L : nth_error (y_workers rest_sys) (S (S w)) = None) by (apply nth_error_None; vm_compute; lia). unfold y_step in Y. rewrite L in Y. discriminate Y.
  - exfalso. destruct C as (ws & W & G & NS). destruct w as [|[|w]].
    + vm_compute in W. injection W as <-. discriminate G.
    + assert (BN : settled i (w_log ws) = true \/ body_of i (w_log ws) = None) by (vm_compute in W; injection W as <-; destruct i as [|i]; [now left|now right]).
      destruct BN as [BN|BN]; [congruence|]. unfold y_step in Y. rewrite W, BN in Y. discriminate Y.
    + assert (L : nth_error (y_workers rest_sys) (S (S w)) = None) by (apply nth_error_None; vm_compute; lia). rewrite L in W. discriminate W.
Qed.
