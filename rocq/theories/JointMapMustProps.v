(** C101: a map run by the whole system comes to its end in every schedule. Theorems and examples. *)
From Coq Require Import List Arith NArith Lia Bool Permutation.
From Verif Require Import Base BaseFacts PublishModel PublishSpec MapModel MapSpec MapProofs MapLive MapMeasure MapProps MapEndProps ContiguousModel FoldModel RetryModel
  WorkerModel WorkerSpec WorkerProofs WorkerFacts WorkerInv WorkerProps SystemModel SystemSpec SystemProofs SystemProps JointModel JointProofs JointInv JointProps JointDone PoolLive PoolProps JointLive JointEnd JointMust JointMustProps JointMapMust.
Import ListNotations.
Open Scope nat_scope.

Section C101.
Variable f : nat -> nat -> nat.
Variable g : nat -> nat -> nat -> nat.
Variable empty : nat -> nat.
Notation step := (j_step f g empty).

(** However the steps are scheduled, there are not many of them, but for polls that nobody asked for. *)
Theorem C101_bounded : forall dead tr s d op arr late en m dd, j_run f g empty tr = Some s -> map_at s d op arr late en m -> no_return s d -> nth_error (y_dirs (j_sys s)) d = Some dd -> d_open dd = true ->
  clean dead (j_sys s) -> some_able dead (j_sys s) -> tidy dead d (j_sys s) ->
  exists most, forall tr' s', steadily f g empty dead d s tr' s' -> moves tr' <= most + 63 * unasked f g empty d s tr'.
Proof.
  intros dead tr s d op arr late en m dd R C NR D O CL AB TI. assert (RD : ready f g empty dead s d op arr late en m) by (constructor; eauto using no_return_back).
  exists (amount (j_sys s) + 21 * MapMeasure.work m). intros tr' s' SD. destruct (map_bound f g empty dead _ _ _ _ SD _ _ _ _ _ RD) as (m' & _ & Q). pose proof (undone_most dead (j_sys s)). lia.
Qed.
Lemma no_err : forall (arr late : list (Base.res nat (N * nat))) xs, arr ++ late = map ROk xs -> no_errors (arr ++ late).
Proof. intros arr late xs IX x I. rewrite IX in I. apply in_map_iff in I as (y & Y & _). discriminate. Qed.
(** When no step is left, every item was mapped once, and polled once more the consumer sees the end. *)
Theorem C101_rest : forall dead tr s d op arr late en m dd xs, j_run f g empty tr = Some s -> map_at s d op arr late en m -> no_return s d -> nth_error (y_dirs (j_sys s)) d = Some dd -> d_open dd = true ->
  (N.of_nat (length (arr ++ late)) < usize_max)%N -> arr ++ late = map ROk xs -> (forall e, In (JOfMap d e) tr -> MapSpec.fails e = false) ->
  clean dead (j_sys s) -> some_able dead (j_sys s) -> tidy dead d (j_sys s) ->
  forall tr1 s1, steadily f g empty dead d s tr1 s1 -> map_rest f g empty dead d s1 ->
  exists m1, map_at s1 d op arr late en m1 /\ failed (m_log m1) = false /\ Permutation (yielded (m_log m1)) (map (image (f op)) xs) /\ (exists s2, step s1 (JOfMap d MPoll) = Some s2) /\
    forall tr2 s3, steadily f g empty dead d s1 (JOfMap d MPoll :: tr2) s3 -> map_rest f g empty dead d s3 ->
    exists m3, map_at s3 d op arr late en m3 /\ MapSpec.ended (m_log m3) = true /\ failed (m_log m3) = false /\ Permutation (yielded (m_log m3)) (map (image (f op)) xs).
Proof.
  intros dead tr s d op arr late en m dd xs R C NR D O SH IX FA CL AB TI tr1 s1 SD MR. assert (RD : ready f g empty dead s d op arr late en m) by (constructor; eauto using no_return_back).
  assert (GO : forall tr1 s1, steadily f g empty dead d s tr1 s1 -> map_rest f g empty dead d s1 -> exists m1 mtr, ready f g empty dead s1 d op arr late en m1 /\ quiescent (exec f op) m1 /\ run_from (m_step (exec f op)) (m_init arr late en) mtr = Some m1 /\ no_fault mtr /\
    failed (m_log m1) = false /\ Permutation (yielded (m_log m1)) (map (image (f op)) xs)).
  { clear tr1 s1 SD MR. intros tr1 s1 SD MR. destruct (steady_ready f g empty dead _ _ _ _ _ _ _ _ _ SD RD) as (m1 & RD1). pose proof (map_rests f g empty dead _ _ _ _ _ _ _ SH RD1 MR) as Q.
    destruct (steadily_run _ _ _ _ _ _ _ _ SD) as [RN NF]. assert (R1 : j_run f g empty (tr ++ tr1) = Some s1) by (unfold j_run; apply run_from_app; eauto).
    destruct (past f g empty dead _ _ _ _ _ _ _ _ R1 RD1) as (mtr & MT & NF1 & WO & _); [intros e I; apply in_app_or in I; destruct I; auto|].
    exists m1, mtr. split; [exact RD1|]. split; [exact Q|]. split; [exact MT|]. split; [exact NF1|]. pose proof (sane_run (exec f op) (f op) (exec_is f op) arr late en mtr m1 (no_err _ _ _ IX) SH NF1 WO MT) as F1. split; [exact F1|].
    exact (proj1 (C14_delivered_partial (exec f op) (f op) (exec_is f op) arr late en mtr m1 xs None SH NF1 IX MT Q) F1). }
  destruct (GO _ _ SD MR) as (m1 & mtr & RD1 & Q1 & MT & NF1 & F1 & P1). exists m1. split; [exact (rd_map _ _ _ _ _ _ _ _ _ _ _ RD1)|]. split; [exact F1|]. split; [exact P1|].
  assert (X : exists m2, m_step (exec f op) m1 MPoll = Some m2). { destruct Q1 as (PI & _). cbn [m_step]. rewrite PI. destruct (m_ldone _), (m_rdone _); eauto. }
  destruct X as (m2 & M2). destruct (own_step f g empty dead _ _ _ _ _ _ _ _ _ RD1 M2 Logic.I) as (s2 & S2 & RD2). split; [exists s2; exact S2|].
  intros tr2 s3 SD3 MR3. destruct (GO _ _ (steadily_app _ _ _ _ _ _ _ _ _ _ SD SD3) MR3) as (m3 & mtr3 & RD3 & Q3 & MT3 & NF3 & F3 & P3). exists m3. split; [exact (rd_map _ _ _ _ _ _ _ _ _ _ _ RD3)|]. split; [|auto].
  assert (T3 : steadily f g empty dead d s2 tr2 s3). { remember (JOfMap d MPoll :: tr2) as t eqn:T. destruct SD3 as [|s1 e0 sx t s3 _ _ _|s1 e0 sx t s3 _ SX K]; try discriminate T. injection T as -> ->. rewrite S2 in SX. injection SX as <-. exact K. }
  destruct (steady_follow f g empty dead _ _ _ _ T3 _ _ _ _ _ RD2) as (m3' & mtr2 & RD3' & MT2). pose proof (rd_map _ _ _ _ _ _ _ _ _ _ _ RD3) as C3. pose proof (rd_map _ _ _ _ _ _ _ _ _ _ _ RD3') as C3'. unfold map_at in C3, C3'. rewrite C3 in C3'. injection C3' as <-.
  apply (proj2 (C14_delivered_partial (exec f op) (f op) (exec_is f op) arr late en mtr m1 xs None SH NF1 IX MT Q1) mtr2 m3); [cbn [run_from]; now rewrite M2|exact (proj1 Q3)].
Qed.
(** With the whole input there from the start and a publisher that never suspends, nobody needs to poll once more. *)
Theorem C101_wakes : forall dead tr s d op arr m dd xs, j_run f g empty tr = Some s -> map_at s d op arr [] true m -> no_return s d -> nth_error (y_dirs (j_sys s)) d = Some dd -> d_open dd = true ->
  (N.of_nat (length arr) < usize_max)%N -> arr = map ROk xs -> (forall e, In (JOfMap d e) tr -> MapSpec.fails e = false) ->
  clean dead (j_sys s) -> some_able dead (j_sys s) -> tidy dead d (j_sys s) ->
  forall tr1 s1, steadily f g empty dead d s tr1 s1 -> map_rest f g empty dead d s1 -> (forall i, ~ In (JOfMap d (MLeft (PaCheck i))) (tr ++ tr1)) ->
  exists m1, map_at s1 d op arr [] true m1 /\ MapSpec.ended (m_log m1) = true /\ failed (m_log m1) = false /\ Permutation (yielded (m_log m1)) (map (image (f op)) xs).
Proof.
  intros dead tr s d op arr m dd xs R C NR D O SH IX FA CL AB TI tr1 s1 SD MR NS. assert (RD : ready f g empty dead s d op arr [] true m) by (constructor; eauto using no_return_back).
  assert (SH' : (N.of_nat (length (arr ++ [])) < usize_max)%N) by (rewrite app_nil_r; exact SH). assert (IX' : arr ++ [] = map ROk xs) by (rewrite app_nil_r; exact IX).
  destruct (steady_ready f g empty dead _ _ _ _ _ _ _ _ _ SD RD) as (m1 & RD1). pose proof (map_rests f g empty dead _ _ _ _ _ _ _ SH' RD1 MR) as Q.
  destruct (steadily_run _ _ _ _ _ _ _ _ SD) as [RN NF]. assert (R1 : j_run f g empty (tr ++ tr1) = Some s1) by (unfold j_run; apply run_from_app; eauto).
  destruct (past f g empty dead _ _ _ _ _ _ _ _ R1 RD1) as (mtr & MT & NF1 & WO & IN); [intros e I; apply in_app_or in I; destruct I; auto|].
  exists m1. split; [exact (rd_map _ _ _ _ _ _ _ _ _ _ _ RD1)|]. split; [|].
  - apply (C14_in_memory_partial (exec f op) (f op) (exec_is f op) arr mtr m1 xs None SH NF1 IX); [|exact MT|exact Q]. intros i I. exact (NS i (IN _ I Logic.I)).
  - pose proof (sane_run (exec f op) (f op) (exec_is f op) arr [] true mtr m1 (no_err _ _ _ IX') SH' NF1 WO MT) as F1. split; [exact F1|].
    exact (proj1 (C14_delivered_partial (exec f op) (f op) (exec_is f op) arr [] true mtr m1 xs None SH' NF1 IX' MT Q) F1).
Qed.
End C101.
Print Assumptions C101_bounded.
Print Assumptions C101_rest.
Print Assumptions C101_wakes.

(** The hypotheses hold of [half_state] (C98_ex); this is where its runs end. *)
Definition map_half : list j_event := sys1 ([YWork 0 (WPoll false (Some (OcOk 2)))] ++ map (YWork 0) (resolve 0)) ++ m1 0 read_two.
Definition map_half_state : joint := match run_from (j_step inc plus zero) half_state map_half with Some s => s | None => j_init end.
Example C101_ex : steadily inc plus zero second_dead 0 half_state map_half map_half_state /\ show_map map_half_state 0 = Some (0, two_in, [], true, [(1%N, 2); (0%N, 1)], true, false) /\
  moves map_half = 20 /\ unasked inc plus zero 0 half_state map_half = 0 /\ forall i, ~ In (JOfMap 0 (MLeft (PaCheck i))) (half_way ++ map_half).
Proof.
  split; [|split; [vm_compute; reflexivity|split; [vm_compute; reflexivity|split; [vm_compute; reflexivity|]]]].
  - unfold map_half, sys1, m1, read_two. cbn [map app resolve].
    repeat first [eapply st_sys; [split; reflexivity|vm_compute; reflexivity|]|eapply st_own; [reflexivity|vm_compute; reflexivity|]].
    vm_compute. constructor.
  - intros i I. vm_compute in I. repeat (destruct I as [I|I]; [discriminate I|]). destruct I.
Qed.
Lemma map_rest_by : forall f g empty dead d s, (forall me s1, j_step f g empty s (JOfMap d me) = Some s1 -> needless d s (JOfMap d me) = true) ->
  (forall e s1, calm dead (j_sys s) e -> j_step f g empty s (JSys e) = Some s1 -> counts (JSys e) = false) -> map_rest f g empty dead d s.
Proof.
  intros f g empty dead d s NX HS e s' H. remember [e] as tr eqn:T. destruct H as [s|s e0 s1 tr s2 C S _|s e0 s1 tr s2 C S _]; [discriminate T| |]; injection T as <- _; [left; exact (HS _ _ C S)|right; exact (NX _ _ S)].
Qed.
Definition map_end : joint := Eval vm_compute in map_half_state.
Lemma end_is : map_half_state = map_end.
Proof. vm_compute. reflexivity. Qed.
Example C101_ex_rest : map_rest inc plus zero second_dead 0 map_half_state.
Proof.
  rewrite end_is. apply map_rest_by.
  - intros me s1 S. destruct me as [|pe| | | | | | | |pe|ok|i o|i|i|i|i]; try discriminate S; try reflexivity; exfalso; try (destruct pe; try discriminate S); try (destruct i as [|i]; discriminate S); try (vm_compute in S; discriminate S).
  - intros e0 s1 C S. destruct (sys_only _ _ _ _ _ _ S) as [NR Y]. clear S. revert C Y. generalize (j_sys s1). intros y1. clear s1.
    destruct e0 as [k|d x|ident|w j|w e|w i|d j|d]; intros C Y; try (destruct C; fail); try discriminate NR.
    + exfalso. unfold y_step in Y. change (y_queue (j_sys map_end)) with (@nil nat) in Y. destruct (nth_error (y_workers (j_sys map_end)) w); destruct j; discriminate Y.
    + destruct C as [DW G]. destruct w as [|w]; [|destruct w; [discriminate DW|]]. 
      * assert (WS : forall x, goes_well x = true -> counts (JSys (YWork 0 x)) = true -> forall ws, nth_error (y_workers (j_sys map_end)) 0 = Some ws -> w_step ws x = None).
        { intros x GW CT ws WE. vm_compute in WE. injection WE as <-.
          destruct x as [d| |k| | |t| | | |sf r|sl|sl ok|ok|ok| |]; try discriminate GW; try discriminate CT; try reflexivity; destruct sl; reflexivity. }
        destruct (counts (JSys (YWork 0 e))) eqn:CT; [exfalso|reflexivity]. unfold y_step in Y. destruct (nth_error (y_workers (j_sys map_end)) 0) as [ws|] eqn:WE; [|discriminate Y]. rewrite (WS e G CT ws eq_refl) in Y. destruct (possible (may inc plus) (j_sys map_end) ws e); discriminate Y.
      * exfalso. assert (L : nth_error (y_workers (j_sys map_end)) (S (S w)) = None) by (apply nth_error_None; vm_compute; lia). unfold y_step in Y. rewrite L in Y. discriminate Y.
    + exfalso. destruct C as (ws & W & G & NS). destruct w as [|[|w]].
      * vm_compute in W. injection W as <-. discriminate G.
      * assert (BN : settled i (w_log ws) = true \/ body_of i (w_log ws) = None) by (vm_compute in W; injection W as <-; destruct i as [|i]; [now left|now right]).
        destruct BN as [BN|BN]; [congruence|]. unfold y_step in Y. rewrite W, BN in Y. discriminate Y.
      * assert (L : nth_error (y_workers (j_sys map_end)) (S (S w)) = None) by (apply nth_error_None; vm_compute; lia). rewrite L in W. discriminate W.
Qed.
