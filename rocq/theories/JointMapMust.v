(** C101: a map that the whole system runs comes to its end in every schedule. *)
From Coq Require Import List Arith NArith Lia Bool Permutation.
From Verif Require Import Base BaseFacts PublishModel PublishSpec MapModel MapSpec MapProofs MapLive MapMeasure MapProps MapEndProps ContiguousModel FoldModel RetryModel
  WorkerModel WorkerSpec WorkerProofs WorkerFacts WorkerInv WorkerProps SystemModel SystemSpec SystemProofs SystemProps JointModel JointProofs JointInv JointProps JointDone PoolLive PoolProps JointLive JointEnd JointMust JointMustProps.
Import ListNotations.
Open Scope nat_scope.

(** Was the consumer of this map woken since it polled last? *)
Definition asked (s : joint) (d : nat) : bool := match nth_error (j_cl s) d with Some (CMap _ _ _ _ m) => pa_woken (m_pa m) | _ => false end.
Section MapMust.
Variable f : nat -> nat -> nat.
Variable g : nat -> nat -> nat -> nat.
Variable empty : nat -> nat.
Variable dead : nat -> bool.
Notation step := (j_step f g empty).
Notation may := (may f g).
Notation steadily := (steadily f g empty dead).
Notation ready := (ready f g empty dead).
(** Polls of the consumer that nobody asked for. *)
Definition needless (d : nat) (s : joint) (e : j_event) : bool := match e with JOfMap _ MPoll => negb (asked s d) | _ => false end.
Fixpoint unasked (d : nat) (s : joint) (tr : list j_event) : nat :=
  match tr with
  | [] => 0
  | e :: tr' => (if needless d s e then 1 else 0) + match step s e with Some s' => unasked d s' tr' | None => 0 end
  end.
(** Nothing but time can pass, and nobody asks the consumer to poll. *)
Definition map_rest (d : nat) (s : joint) : Prop := forall e s', steadily d s [e] s' -> counts e = false \/ needless d s e = true.

Lemma sys_one : forall s d op arr late en m e s1, ready s d op arr late en m -> calm dead (j_sys s) e -> step s (JSys e) = Some s1 ->
  exists m1, ready s1 d op arr late en m1 /\ MapMeasure.work m1 <= MapMeasure.work m /\ exists mtr, run_from (m_step (exec f op)) m mtr = Some m1.
Proof.
  intros s d op arr late en m e s1 RD C S. destruct (sys_only f g empty _ _ _ S) as [NR Y].
  destruct (sys_steps f g empty dead (j_sys s) [e] (j_sys s1)) with (s := s) (d := d) (op := op) (arr := arr) (late := late) (en := en) (m := m) as (s' & m1 & mtr & SD & _ & RD1 & MR & MW); [|cbn; now rewrite NR|reflexivity|exact RD|].
  - eapply calm_cons; [exact C|exact Y|constructor].
  - destruct (steadily_run _ _ _ _ _ _ _ _ SD) as [RN _]. cbn [map run_from] in RN. rewrite S in RN. injection RN as <-. exists m1. split; [exact RD1|]. split; [|eauto].
    destruct (works_none f mtr op m MW) as [SP NF]. pose proof (work_run (exec f op) mtr m m1 (no_fault_dup _ NF) MR) as WR. rewrite SP in WR. lia.
Qed.
Lemma own_one : forall s d op arr late en m e s1, ready s d op arr late en m -> step s (JOfMap d e) = Some s1 ->
  exists m1, ready s1 d op arr late en m1 /\ m_step (exec f op) m e = Some m1 /\ fresh_event e.
Proof.
  intros s d op arr late en m e s1 RD S. pose proof RD as [(tr & R) C NB _ _ _ _]. pose proof (jinv_run f g empty tr s R) as J.
  destruct (map_step f g empty _ _ _ _ _ _ _ _ _ J S C NB) as (m1 & C1 & FO). destruct FO as [_ NE|me E F M|ye j o E _ _]; [destruct (NE _ eq_refl)| |discriminate E]. injection E as <-.
  destruct (own_step f g empty dead _ _ _ _ _ _ _ _ _ RD M F) as (s2 & S2 & RD2). rewrite S in S2. injection S2 as <-. exists m1. auto.
Qed.
Lemma map_adds : forall s d e s', step s (JOfMap d e) = Some s' -> undone dead (j_sys s') <= undone dead (j_sys s) + 20.
Proof.
  intros s d e s' S. destruct (jsys_step f g empty _ _ _ S) as [E|(ye & [(x & ->)|(j & ->)] & Y)]; [rewrite E; lia| |]; cbn [y_step] in Y.
  - destruct (nth_error (y_dirs (j_sys s)) d); [|discriminate]. injection Y as <-. unfold undone. cbn [y_workers y_back y_queue]. rewrite app_length. cbn [length]. lia.
  - destruct (nth_error (y_dirs (j_sys s)) d) as [dd|]; [|discriminate]. destruct (pick j (y_results (j_sys s))) as [[r rest]|]; [|discriminate]. destruct (_ && _); [|discriminate]. injection Y as <-. unfold undone. cbn [y_workers y_back y_queue]. lia.
Qed.
Lemma map_bound : forall d s tr s', steadily d s tr s' -> forall op arr late en m, ready s d op arr late en m ->
  exists m', ready s' d op arr late en m' /\ moves tr + undone dead (j_sys s') + 21 * MapMeasure.work m' <= undone dead (j_sys s) + 21 * MapMeasure.work m + 63 * unasked d s tr.
Proof.
  intros d s tr s' H. induction H as [s|s e s1 tr s2 C S _ IH|s e s1 tr s2 C S _ IH]; intros op arr late en m RD; [exists m; split; [exact RD|cbn; lia]| |].
  - destruct (sys_one _ _ _ _ _ _ _ _ _ RD C S) as (m1 & RD1 & W1 & _). destruct (IH _ _ _ _ _ RD1) as (m' & RD2 & B). exists m'. split; [exact RD2|].
    pose proof RD as [(tr0 & R) _ _ _ CL _ _]. pose proof (jinv_run f g empty tr0 s R) as (SI & _ & _). destruct (sys_only f g empty _ _ _ S) as [NR Y]. cbn [unasked needless]. rewrite S. unfold moves in *. cbn [filter counts]. destruct (is_tick e) eqn:T; cbn [negb].
    + destruct (tick_same may dead _ _ _ SI CL T Y) as [Q _]. lia.
    + pose proof (calm_less may dead _ _ _ SI CL C NR T Y) as Q. cbn [length]. lia.
  - destruct (own_one _ _ _ _ _ _ _ _ _ RD S) as (m1 & RD1 & M & F). destruct (IH _ _ _ _ _ RD1) as (m' & RD2 & B). exists m'. split; [exact RD2|]. pose proof (map_adds _ _ _ _ S) as Q.
    assert (DU : MapSpec.duplicates e = false) by (destruct e; try reflexivity; destruct F). pose proof (work_step (exec f op) m e m1 DU M) as WS.
    assert (NE : (if needless d s (JOfMap d e) then 1 else 0) = spurious m e).
    { unfold needless, asked. pose proof (rd_map _ _ _ _ _ _ _ _ _ _ _ RD) as C0. unfold map_at in C0. rewrite C0. destruct e; try reflexivity. cbn. destruct (pa_woken (m_pa m)); reflexivity. }
    cbn [unasked]. rewrite NE, S. unfold moves in *. cbn [filter counts length]. lia.
Qed.
Lemma map_rests : forall s d op arr late en m, (N.of_nat (length (arr ++ late)) < usize_max)%N -> ready s d op arr late en m -> map_rest d s -> quiescent (exec f op) m.
Proof.
  intros s d op arr late en m SH RD MR. pose proof RD as [(tr0 & R) CM NB (dd & D & O) CL AB _]. pose proof (jinv_run f g empty tr0 s R) as (SI & _ & KN).
  destruct (follow_run f g empty _ _ _ _ _ _ _ _ R CM NB) as (mtr0 & MR0 & P0). assert (ND0 : MapSpec.no_dup mtr0) by (intros e I; exact (proj1 (P0 e I))).
  destruct (C14_progress (exec f op) (f op) (exec_is f op) arr late en mtr0 m None SH ND0 MR0) as [Q|(e & m1 & X & M)]; [exact Q|exfalso].
  assert (CASES : (exists i o, e = MWork i o) \/ (fresh_event e /\ MapSpec.fails e = false /\ spurious m e = 0)).
  { destruct X as [X|[X|(-> & X)]]; [| |right; cbn; rewrite X; auto].
    - destruct e as [| | | | | | | | |e|ok|i o| | | |]; try discriminate; [right|right|left; eauto]; cbn; [|destruct ok; auto; discriminate].
      destruct e; auto. destruct ok; auto; discriminate.
    - right. destruct e; try discriminate; cbn; auto. }
  destruct CASES as [(i & o & ->)|(F & FA & SP)].
  - destruct (something_to_do may dead (total f g) (j_sys s) SI CL AB) as [WO|(e & y' & C & NR & T & Y)].
    + destruct (KN _ _ _ D CM) as [_ K]. destruct (K NB) as (_ & _ & _ & _ & FL). destruct (FL O) as (_ & ns & _ & NT & NI).
      destruct ns as [|n ns].
      * apply Permutation_sym, Permutation_nil in NT. cbn [m_step] in M. rewrite NT in M. destruct i; discriminate M.
      * destruct (proj1 (NI n) (or_introl eq_refl)) as [(x & S) Z]. exact (caught_up f g dead _ _ _ _ SI (jwinv_run f g empty _ _ R) CL WO S Z).
    + assert (ST : exists s1, step s (JSys e) = Some s1).
      { unfold j_step. destruct e as [k|d0 z|ident|w j|w e|w i0|d0 j|d0]; try (destruct C; fail); try discriminate NR; rewrite Y; cbn [option_map]; eauto. }
      destruct ST as (s1 & ST). destruct (MR (JSys e) s1) as [Q|Q]; [eapply st_sys; [exact C|exact ST|constructor]| |discriminate Q]. cbn in Q. rewrite T in Q. discriminate Q.
  - destruct (own_step f g empty dead _ _ _ _ _ _ _ _ _ RD M F) as (s1 & S1 & _). destruct (MR (JOfMap d e) s1) as [Q|Q]; [eapply st_own; [exact FA|exact S1|constructor]|discriminate Q|].
    unfold needless, asked in Q. unfold map_at in CM. rewrite CM in Q. destruct e; try discriminate Q. cbn in SP. destruct (pa_woken (m_pa m)); discriminate.
Qed.
(** What the map did, without failures. *)
Lemma past : forall tr s d op arr late en m, j_run f g empty tr = Some s -> ready s d op arr late en m -> (forall e, In (JOfMap d e) tr -> MapSpec.fails e = false) ->
  exists mtr, run_from (m_step (exec f op)) (m_init arr late en) mtr = Some m /\ no_fault mtr /\ (forall j o, In (MWork j o) mtr -> forall x, exists y, exec f op o x = ROk y) /\
  forall e, In e mtr -> fresh_event e -> In (JOfMap d e) tr.
Proof.
  intros tr s d op arr late en m R [_ C NB _ CL _ _] FA. destruct (follow_all f g empty _ _ _ _ _ _ _ _ R C NB) as (mtr & MR & P). exists mtr. split; [exact MR|]. split; [|split].
  - intros e I. destruct (P e I) as (P1 & P2 & P3 & _). split; [exact P1|]. split; [exact P2|]. destruct (MapSpec.fails e) eqn:F; [|reflexivity]. assert (FR : fresh_event e) by (destruct e; try discriminate F; exact Logic.I). specialize (FA _ (P3 FR)). congruence.
  - intros j o I x. destruct o as [er|]; [exfalso|eexists; reflexivity]. destruct (P _ I) as (_ & _ & _ & P4). destruct (P4 j er eq_refl) as (w & ws & tm & i & k & W & L).
    pose proof (jinv_run f g empty _ s R) as (SI & _ & _). destruct (si_work _ _ SI _ _ W) as (ident & wtr & WR). exact (no_err_run _ _ _ WR (proj1 (CL _ _ W)) _ _ _ _ L).
  - intros e I. exact (proj1 (proj2 (proj2 (P e I)))).
Qed.
Lemma steady_ready : forall d s tr s' op arr late en m, steadily d s tr s' -> ready s d op arr late en m -> exists m', ready s' d op arr late en m'.
Proof. intros d s tr s' op arr late en m SD RD. destruct (map_bound _ _ _ _ SD _ _ _ _ _ RD) as (m' & RD' & _). eauto. Qed.
Lemma steady_follow : forall d s tr s', steadily d s tr s' -> forall op arr late en m, ready s d op arr late en m -> exists m' mtr, ready s' d op arr late en m' /\ run_from (m_step (exec f op)) m mtr = Some m'.
Proof.
  intros d s tr s' H. induction H as [s|s e s1 tr s2 C S _ IH|s e s1 tr s2 C S _ IH]; intros op arr late en m RD; [exists m, []; auto| |].
  - destruct (sys_one _ _ _ _ _ _ _ _ _ RD C S) as (m1 & RD1 & _ & mtr1 & M1). destruct (IH _ _ _ _ _ RD1) as (m' & mtr & RD2 & M2). exists m', (mtr1 ++ mtr). split; [exact RD2|]. apply run_from_app. eauto.
  - destruct (own_one _ _ _ _ _ _ _ _ _ RD S) as (m1 & RD1 & M & F). destruct (IH _ _ _ _ _ RD1) as (m' & mtr & RD2 & M2). exists m', (e :: mtr). split; [exact RD2|]. cbn [run_from]. now rewrite M.
Qed.
End MapMust.
