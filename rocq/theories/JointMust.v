(** C100: not only can the fold of C99 return, it must: there is no other way for things to go on for long. *)
From Coq Require Import List Arith NArith Lia Bool Permutation.
From Verif Require Import Base BaseFacts PublishModel PublishSpec ContiguousModel FoldModel FoldSpec FoldProofs FoldLive FoldProps RetryModel
  WorkerModel WorkerSpec WorkerProofs WorkerFacts WorkerInv WorkerProps SystemModel SystemSpec SystemProofs SystemProps JointModel JointProofs JointInv JointProps PoolLive PoolProps JointLive JointEnd JointFold JointFoldEnd JointFoldProps.
Import ListNotations.
Open Scope nat_scope.

(** * The workers *)
(** Only the clock moves. *)
Definition is_tick (e : y_event) : bool := match e with YWork _ (WTick _) => true | _ => false end.
Lemma rank_less : forall ws e ws', fine ws -> goes_well e = true -> (forall d, e <> WTick d) -> w_step ws e = Some ws' -> rank ws' < rank ws.
Proof.
  intros ws e ws' [FJ FF _ FM] G NT H. destruct e as [d| |k| | |t| | | |sf r|sl|sl ok|ok|ok| |]; try discriminate G; [destruct (NT d eq_refl)| | | | | | | | |]; unfold w_step in H; unfold rank at 2; destruct (w_main ws) as [|t|t|t a|t sn st|t y a d|t fs msg a d|t a|t u|en] eqn:M; try discriminate H; try (destruct FM; fail).
  - rewrite FF in H. injection H as <-. cbn. lia.
  - rewrite FJ in H. cbn [marked existsb] in H. injection H as <-. cbn. lia.
  - destruct sf; [discriminate G|]. destruct r as [[y| |]|]; try discriminate G. injection H as <-. unfold poll_select, poll_exec, WorkerModel.finish, start. destruct st; cbn; lia.
  - destruct sl; discriminate H.
  - destruct sl; discriminate H.
  - destruct sl; discriminate H.
  - destruct sl; discriminate H.
  - destruct sl; try discriminate H; [destruct a; try discriminate H; injection H as <-; cbn; lia|]. destruct d as [|p| |]; try discriminate H. destruct p; try discriminate H. injection H as <-. cbn. lia.
  - destruct sl; discriminate H.
  - destruct sl; discriminate H.
  - destruct sl; discriminate H.
  - destruct sl; discriminate H.
  - destruct sl; discriminate H.
  - cbn in G. subst ok. destruct sl; try discriminate H; [destruct a; try discriminate H; injection H as <-; cbn; lia|]. destruct d as [|p| |]; try discriminate H. destruct p; try discriminate H. injection H as <-. cbn. lia.
  - destruct sl; discriminate H.
  - cbn in G. subst ok. destruct d; try discriminate H. injection H as <-. cbn. lia.
  - cbn in G. subst ok. destruct d; try discriminate H. injection H as <-. cbn. lia.
  - destruct a; try discriminate H. destruct d; try discriminate H. injection H as <-. cbn. lia.
Qed.
Section Pool.
Variable may : nat -> outcome -> bool.
Variable dead : nat -> bool.
Lemma calm_less : forall y e y', sinv may y -> clean dead y -> calm dead y e -> is_recv e = false -> is_tick e = false -> y_step may y e = Some y' -> undone dead y' < undone dead y.
Proof.
  intros y e y' SI CL C NR NT H. destruct e as [k|d x|ident|w j|w e|w i|d j|d]; try (destruct C; fail); try discriminate NR; cbn [y_step] in H.
  - destruct (nth_error (y_workers y) w) as [ws|] eqn:W; [|discriminate]. destruct (pick j (y_queue y)) as [[n q]|] eqn:PK; [|discriminate]. destruct (nth_error (y_sent y) n) as [[d x]|]; [|discriminate].
    destruct (nth_error (y_dirs y) d) as [dd|]; [|discriminate]. destruct (w_step ws _) as [ws'|] eqn:WS; [|discriminate]. injection H as <-. cbn in C. unfold undone. cbn [y_workers y_back y_queue].
    unfold w_step in WS. destruct (w_main ws) eqn:M; try discriminate WS. injection WS as <-. set (ws' := mkW _ _ _ _ _ _ _ _ _ _) in *.
    assert (G0 : gone dead (0 + w) ws = false) by (unfold gone, stopped; cbn [Nat.add]; now rewrite C, M). assert (G1 : gone dead (0 + w) ws' = false) by (unfold gone; cbn [Nat.add]; now rewrite C).
    rewrite (bsum_upd dead _ 0 w ws ws' _ W G0 G1). pose proof (rsum_upd dead _ 0 _ _ ws' W C) as U. assert (R0 : rank ws = 0) by (unfold rank; now rewrite M). assert (R1 : rank ws' = 12) by reflexivity. pose proof (pick_length _ _ _ _ _ PK) as PL. lia.
  - destruct C as [DW G]. destruct (nth_error (y_workers y) w) as [ws|] eqn:W; [|discriminate]. destruct (possible may y ws e); [|discriminate]. destruct (w_step ws e) as [ws'|] eqn:WS; [|discriminate]. injection H as <-.
    destruct (si_work _ _ SI _ _ W) as (ident & wtr & WR). pose proof (fine_run _ _ _ WR (proj1 (CL _ _ W))) as F. assert (NE : forall d, e <> WTick d) by (intros d ->; discriminate NT). pose proof (rank_less _ _ _ F G NE WS) as LT.
    assert (S0 : stopped ws = false) by (unfold stopped; unfold rank in LT; destruct (w_main ws); auto; lia). pose proof (well_stops _ _ _ G WS F S0) as S1.
    unfold undone. cbn [y_workers y_back y_queue]. assert (G0 : gone dead (0 + w) ws = false) by (unfold gone; cbn [Nat.add]; now rewrite DW, S0). assert (G1 : gone dead (0 + w) ws' = false) by (unfold gone; cbn [Nat.add]; now rewrite DW, S1).
    rewrite (bsum_upd dead _ 0 w ws ws' _ W G0 G1). pose proof (rsum_upd dead _ 0 _ _ ws' W DW) as U. lia.
  - destruct C as (ws & W & G & NS). rewrite W in H. destruct (body_of i (w_log ws)) as [n|] eqn:BO; [|discriminate]. destruct (_ || _) eqn:AC; [discriminate|]. injection H as <-. apply orb_false_iff in AC. destruct AC as [_ CB].
    unfold undone. cbn [y_workers y_back y_queue]. rewrite app_length. cbn [length]. destruct (body_in _ _ _ BO) as (tm & t & I & E). destruct (si_work _ _ SI _ _ W) as (ident & wtr & WR). pose proof (WorkerProofs.winv_run _ _ _ WR) as [WB _ _].
    assert (LO : loose dead (0 + w) ws (y_back y) i = true) by (unfold loose; cbn [Nat.add]; rewrite G, NS, CB, BO; reflexivity).
    pose proof (bsum_back dead _ 0 _ _ i n _ W (WB _ _ I eq_refl) LO). cbn [Nat.add] in *. lia.
Qed.
Lemma tick_same : forall y e y', sinv may y -> clean dead y -> is_tick e = true -> y_step may y e = Some y' -> undone dead y' = undone dead y /\ alive y' = alive y.
Proof.
  intros y e y' SI CL T H. destruct e as [| | | |w e| | |]; try discriminate T. destruct e as [d| | | | | | | | | | | | | | |]; try discriminate T. cbn [y_step] in H. destruct (nth_error (y_workers y) w) as [ws|] eqn:W; [|discriminate]. cbn in H. injection H as <-.
  set (ws' := mkW _ _ _ _ _ _ _ _ _ _). destruct (si_work _ _ SI _ _ W) as (ident & wtr & WR). pose proof (f_main _ (fine_run _ _ _ WR (proj1 (CL _ _ W)))) as F.
  assert (RK : rank ws' = rank ws) by (unfold rank, ws'; cbn [w_main w_now]; destruct (w_main ws); try reflexivity; destruct F). unfold undone, alive. cbn [y_workers y_back y_queue].
  assert (LG : w_log ws' = w_log ws /\ w_taken ws' = w_taken ws /\ stopped ws' = stopped ws) by (repeat split). destruct LG as (LG & LT & LS). clearbody ws'. split.
  - assert (B : forall l k bk v, nth_error l v = Some ws -> bsum dead k (upd v ws' l) bk = bsum dead k l bk).
    { intros l. induction l as [|a l IH]; intros k bk [|v] V; try discriminate; cbn in V |- *; [injection V as ->|now rewrite IH]. f_equal. rewrite LT. apply cnt_ext_in. intros i _. unfold loose, gone. now rewrite LG, LS. }
    assert (R : forall l k v, nth_error l v = Some ws -> rsum dead k (upd v ws' l) = rsum dead k l).
    { intros l. induction l as [|a l IH]; intros k [|v] V; try discriminate; cbn in V |- *; [injection V as ->; now rewrite RK|now rewrite IH]. }
    rewrite (B _ _ _ _ W), (R _ _ _ W). reflexivity.
  - pose proof (wsum_upd (fun ws => if stopped ws then 0 else 1) _ _ ws' _ W) as U. cbn beta in U. rewrite LS in U. lia.
Qed.
(** As long as the pool has not caught up, there is something to do besides waiting. *)
Lemma something_to_do : (forall x, exists y, may x (OcOk y) = true) -> forall y, sinv may y -> clean dead y -> some_able dead y -> worked_off dead y \/ exists e y', calm dead y e /\ is_recv e = false /\ is_tick e = false /\ y_step may y e = Some y'.
Proof.
  intros T y SI CL AB. destruct (catch_up_step may dead T y SI AB) as [WO|(e & y' & C & NR & S & _ & LT)]; [now left|right]. exists e, y'. split; [exact C|]. split; [exact NR|]. split; [|exact S].
  destruct (is_tick e) eqn:IT; [exfalso|reflexivity]. destruct (tick_same _ _ _ SI CL IT S). lia.
Qed.
End Pool.

(** * The fold *)
(** Steps other than the passing of time. *)
Definition counts (e : j_event) : bool := match e with JSys e => negb (is_tick e) | _ => true end.
Definition moves (tr : list j_event) : nat := length (filter counts tr).
Section Must.
Variable f : nat -> nat -> nat.
Variable g : nat -> nat -> nat -> nat.
Variable empty : nat -> nat.
Variable dead : nat -> bool.
Notation step := (j_step f g empty).
Notation may := (may f g).
Notation twin := (twin g empty).
Lemma sys_only : forall s e s', step s (JSys e) = Some s' -> is_recv e = false /\ y_step may (j_sys s) e = Some (j_sys s').
Proof.
  intros s e s' H. unfold j_step in H. destruct e as [k|d x|ident|w j|w e|w i|d j|d]; try discriminate H; (split; [reflexivity|]).
  - destruct (y_step may (j_sys s) (YStart ident)); [|discriminate]. injection H as <-. reflexivity.
  - destruct (y_step may (j_sys s) (YTake w j)); [|discriminate]. injection H as <-. reflexivity.
  - destruct (y_step may (j_sys s) (YWork w e)); [|discriminate]. injection H as <-. reflexivity.
  - destruct (y_step may (j_sys s) (YBack w i)); [|discriminate]. injection H as <-. reflexivity.
  - destruct (y_step may (j_sys s) (YRelease d)); [|discriminate]. injection H as <-. reflexivity.
Qed.
(** A step of a fold itself gives the workers at most one task. *)
Lemma own_adds : forall s d e s', step s (JOfFold d e) = Some s' -> undone dead (j_sys s') <= undone dead (j_sys s) + 20.
Proof.
  intros s d e s' S. destruct (jsys_step f g empty _ _ _ S) as [E|(ye & [(x & ->)|(j & ->)] & Y)]; [rewrite E; lia| |]; cbn [y_step] in Y.
  - destruct (nth_error (y_dirs (j_sys s)) d); [|discriminate]. injection Y as <-. unfold undone. cbn [y_workers y_back y_queue]. rewrite app_length. cbn [length]. lia.
  - destruct (nth_error (y_dirs (j_sys s)) d) as [dd|]; [|discriminate]. destruct (pick j (y_results (j_sys s))) as [[r rest]|]; [|discriminate]. destruct (_ && _); [|discriminate]. injection Y as <-. unfold undone. cbn [y_workers y_back y_queue]. lia.
Qed.
Variable base : N.
Variable l : list nat.
Hypothesis bound : (base + N.of_nat (length l) <= usize_max)%N.
Notation li op := (linv nat nat unit (sure g op) (empty op) base l).
Notation wt := (weight nat nat).
Lemma li_step : forall op x new x', li op x -> fault_free new -> run_from (fold_step (sure g op) (empty op)) x new = Some x' -> li op x' /\ length new + wt x' <= wt x.
Proof. intros op x new x' L F R. exact (live_run nat nat unit (sure g op) (empty op) base l bound (sure_total g op) new x x' L F R). Qed.
Lemma twin_new : forall y d op inp x ftr new x0, twin y d op inp x (ftr ++ new) x0 -> fault_free new.
Proof. intros y d op inp x ftr new x0 T. pose proof (tw_good _ _ _ _ _ _ _ _ _ T) as G. apply Forall_app in G. exact (proj2 G). Qed.
Lemma fold_bound : forall d s tr s', steadyf f g empty dead d s tr s' -> forall op inp x ftr x0, fready f g empty dead s d op inp x -> twin (j_sys s) d op inp x ftr x0 -> li op x0 ->
  exists x' ftr' x0', fready f g empty dead s' d op inp x' /\ twin (j_sys s') d op inp x' ftr' x0' /\ li op x0' /\ moves tr + undone dead (j_sys s') + 21 * wt x0' <= undone dead (j_sys s) + 21 * wt x0.
Proof.
  intros d s tr s' H. induction H as [s|s e s1 tr s2 C S _ IH|s e s1 tr s2 C S _ IH]; intros op inp x ftr x0 FR TW LI; [exists x, ftr, x0; cbn; auto| |].
  - destruct (ready_sys _ _ _ _ _ _ _ _ _ _ _ FR C S) as (x1 & FR1). destruct (twin_go _ _ _ _ _ _ _ _ _ _ _ _ _ _ FR S FR1 ltac:(discriminate) TW) as (new & x01 & TW1 & RN & _).
    destruct (li_step _ _ _ _ LI (twin_new _ _ _ _ _ _ _ _ TW1) RN) as [LI1 W1]. destruct (IH _ _ _ _ _ FR1 TW1 LI1) as (x' & ftr' & x0' & FR2 & TW2 & LI2 & B). exists x', ftr', x0'. split; [exact FR2|]. split; [exact TW2|]. split; [exact LI2|].
    pose proof FR as [(tr0 & R) _ _ _ CL _ _]. pose proof (jinv_run f g empty tr0 s R) as (SI & _ & _). destruct (sys_only _ _ _ S) as [NR Y]. unfold moves. cbn [filter counts]. destruct (is_tick e) eqn:T; cbn [negb].
    + destruct (tick_same may dead _ _ _ SI CL T Y) as [Q _]. unfold moves in B. lia.
    + pose proof (calm_less may dead _ _ _ SI CL C NR T Y) as Q. cbn [length]. unfold moves in B. lia.
  - destruct (ready_any _ _ _ _ _ _ _ _ _ _ _ FR S) as (x1 & FR1). destruct (twin_go _ _ _ _ _ _ _ _ _ _ _ _ _ _ FR S FR1 ltac:(intros fe Q; injection Q as <-; exact C) TW) as (new & x01 & TW1 & RN & [(fe & _ & ->)|[NE _]]); [|destruct (NE _ eq_refl)].
    destruct (li_step _ _ _ _ LI (twin_new _ _ _ _ _ _ _ _ TW1) RN) as [LI1 W1]. destruct (IH _ _ _ _ _ FR1 TW1 LI1) as (x' & ftr' & x0' & FR2 & TW2 & LI2 & B). exists x', ftr', x0'. split; [exact FR2|]. split; [exact TW2|]. split; [exact LI2|].
    pose proof (own_adds _ _ _ _ S) as Q. unfold moves in *. cbn [filter counts length] in *. lia.
Qed.
(** Nothing but time can pass. *)
Definition at_rest (d : nat) (s : joint) : Prop := forall e s', steadyf f g empty dead d s [e] s' -> counts e = false.
Lemma rest_cases : forall s d op inp x ftr x0, fready f g empty dead s d op inp x -> twin (j_sys s) d op inp x ftr x0 -> li op x0 -> at_rest d s -> fin nat nat base l x0 \/ parked nat nat base l x0 /\ f_ended x0 = true /\ f_ret x0 = None.
Proof.
  intros s d op inp x ftr x0 FR TW LI AR. destruct LI as [PI|FI]; [|now left]. pose proof (p_ret _ _ _ _ _ _ _ _ PI) as RN. pose proof FR as [(tr0 & R) _ _ (dd & D & O) CL AB _]. pose proof (jinv_run f g empty tr0 s R) as (SI & _ & _).
  destruct (something_to_do may dead (total f g) (j_sys s) SI CL AB) as [WO|(e & y' & C & NR & T & Y)].
  - assert (TE : f_tasks x0 = []).
    { assert (RX : f_ret x = None) by (rewrite (tw_like _ _ _ _ _ _ _ _ _ TW); exact RN). destruct (tw_out _ _ _ _ _ _ _ _ _ TW dd D O RX) as (ns & _ & NT & NI). destruct ns as [|n ns]; [apply Permutation_sym, Permutation_nil in NT; exact NT|exfalso].
      pose proof (proj1 (NI n) (or_introl eq_refl)) as K. destruct K as [(z & S) Z]. exact (caught_up f g dead _ _ _ _ SI (jwinv_run f g empty _ _ R) CL WO S Z). }
    destruct (fold_progress nat nat unit (sure g op) (empty op) tt x0) as [(e & x1 & NF & M)|NO].
    + exfalso. assert (OW : own (given e)). { destruct e as [| |i ok|i []|i ack|ok|i|i|i|i]; try discriminate NF; try exact Logic.I. unfold fold_step in M. rewrite RN, TE in M. destruct i; discriminate M. }
      destruct (own_go _ _ _ _ _ _ _ _ _ _ _ _ _ FR TW OW NF M) as (s1 & x2 & S & _). assert (Q : counts (JOfFold d (given e)) = false); [|discriminate Q]. apply (AR _ s1). eapply sf_own; [|exact S|constructor]. destruct e; exact NF.
    + destruct (maximal_cases nat nat unit (sure g op) (empty op) base l bound tt x0 (or_introl PI) NO) as [FI|(_ & EN & C2 & (k & it & EA & FU) & _)]; [now left|right]. split; [|auto]. split.
      * pose proof (v_count _ _ _ _ _ _ _ _ (p_v _ _ _ _ _ _ _ _ PI)) as HC. destruct (f_inp x0) as [|r rest] eqn:FI; [cbn in HC; lia|]. exfalso. specialize (NO EvInput eq_refl). unfold fold_step in NO. rewrite RN, FI in NO. destruct r; discriminate NO.
      * exists it. rewrite EA. split; [now left|exact FU].
  - exfalso. assert (ST : exists s1, step s (JSys e) = Some s1).
    { unfold j_step. destruct e as [k|d0 z|ident|w j|w e|w i|d0 j|d0]; try (destruct C; fail); try discriminate NR; rewrite Y; cbn [option_map]; eauto. }
    destruct ST as (s1 & ST). assert (Q : counts (JSys e) = false) by (apply (AR _ s1); eapply sf_sys; [exact C|exact ST|constructor]). cbn in Q. rewrite T in Q. discriminate Q.
Qed.
Lemma jf_steady : forall d s tr s', steadyf f g empty dead d s tr s' -> forall op inp x ftr x0, fready f g empty dead s d op inp x -> twin (j_sys s) d op inp x ftr x0 ->
  FoldLive.jinv nat nat unit (sure g op) (empty op) base l x0 \/ fin nat nat base l x0 ->
  exists x' ftr' x0', fready f g empty dead s' d op inp x' /\ twin (j_sys s') d op inp x' ftr' x0' /\ (FoldLive.jinv nat nat unit (sure g op) (empty op) base l x0' \/ fin nat nat base l x0').
Proof.
  intros d s tr s' SD op inp x ftr x0 FR TW J. destruct (steady_twin f g empty dead _ _ _ _ SD _ _ _ _ _ FR TW) as (x1 & new & x01 & FR1 & TW1 & RU). exists x1, (ftr ++ new), x01. split; [exact FR1|]. split; [exact TW1|].
  exact (proj1 (jf_run g empty base l bound op new x0 x01 J (twin_new _ _ _ _ _ _ _ _ TW1) RU)).
Qed.
End Must.
