(** C97: however its workers were interrupted, the pool can catch up as long as one of them goes on.

    The system is that of SystemModel (paladin-core/src/runtime/mod.rs:318-366 and 640-820, see there and WorkerModel). *)
From Coq Require Import List Arith NArith Lia Bool Wf_nat.
From Verif Require Import Base BaseFacts RetryModel WorkerModel WorkerSpec WorkerProofs WorkerFacts WorkerInv WorkerProps SystemModel SystemSpec SystemProofs SystemProps.
Import ListNotations.
Open Scope nat_scope.

(** * What is said *)
(** The main loop is over. *)
Definition stopped (ws : wstate) : bool := match w_main ws with WpStop _ => true | _ => false end.
(** The broker was told that the task is done with. *)
Definition settled (i : nat) (l : wlog) : bool := existsb (fun p => match snd p with AAck j | ANack j => Nat.eqb j i | _ => false end) l.
(** Some workers have crashed: nothing is assumed about what they were doing. *)
Definition gone (dead : nat -> bool) (w : nat) (ws : wstate) : bool := dead w || stopped ws.
(** A worker that goes on: it is not over, and was not told to be. *)
Definition able (ws : wstate) : Prop := w_flag ws = false /\ match w_main ws with WpTerm _ _ | WpSleep _ _ | WpStop _ => False | _ => True end.
Definition some_able (dead : nat -> bool) (s : sys) : Prop := exists w ws, nth_error (y_workers s) w = Some ws /\ dead w = false /\ able ws.

(** What a worker does while the pool catches up: executions succeed, broker operations too, no command arrives. *)
Definition goes_well (e : w_event) : bool :=
  match e with
  | WTick _ | WFlag | WCheck | WEffect _ | WJoin | WWake => true
  | WPoll false (Some (OcOk _)) => true
  | WReturn _ ok | WDeclare ok | WClose ok => ok
  | _ => false
  end.
(** And what else happens: tasks are taken; those that a worker which crashed or whose loop is over has left unsettled come back; results are received. *)
Definition calm (dead : nat -> bool) (s : sys) (e : y_event) : Prop :=
  match e with
  | YRecv _ _ => True
  | YTake w _ => dead w = false
  | YWork w e => dead w = false /\ goes_well e = true
  | YBack w i => exists ws, nth_error (y_workers s) w = Some ws /\ gone dead w ws = true /\ settled i (w_log ws) = false
  | _ => False
  end.
Definition is_recv (e : y_event) : bool := match e with YRecv _ _ => true | _ => false end.
Inductive calmly (may : nat -> outcome -> bool) (dead : nat -> bool) : sys -> list y_event -> sys -> Prop :=
| calm_nil : forall s, calmly may dead s [] s
| calm_cons : forall s e s1 tr s2, calm dead s e -> y_step may s e = Some s1 -> calmly may dead s1 tr s2 -> calmly may dead s (e :: tr) s2.

(** Nothing is left for the workers to do. *)
Definition worked_off (dead : nat -> bool) (s : sys) : Prop :=
  y_queue s = [] /\
  (forall w ws, nth_error (y_workers s) w = Some ws -> w_main ws = WpWait \/ gone dead w ws = true) /\
  (forall w ws i n, nth_error (y_workers s) w = Some ws -> gone dead w ws = true -> took ws i n -> settled i (w_log ws) = true \/ came_back w i (y_back s) = true).
(** And nothing for open directives to receive. *)
Definition handed_out (s : sys) : Prop := forall r d dd, In r (y_results s) -> nth_error (y_dirs s) d = Some dd -> d_open dd = true -> r_key r <> d_key dd.

(** * A worker *)
Definition rank (ws : wstate) : nat :=
  match w_main ws with
  | WpWait | WpStop _ => 0
  | WpFlag _ => 12
  | WpCheck _ => 11
  | WpRun _ _ _ => 10
  | WpSleep _ u => if (u <=? w_now ws)%N then 1 else 2
  | WpTerm _ a => 3 + io_left a
  | p => todo p
  end.
Lemma sound_run : forall ident tr ws, reaches ident tr ws -> sound (w_main ws).
Proof. intros ident tr ws R. exact (run_from_inv _ _ w_step (fun s => sound (w_main s)) sound_step tr (w_init ident) ws Logic.I R). Qed.
(** A worker with something to do can do it, and goes on if it went on before. *)
Lemma worker_moves : forall ident tr ws y, reaches ident tr ws -> 0 < rank ws -> exists e ws',
  goes_well e = true /\ w_step ws e = Some ws' /\ rank ws' < rank ws /\ (able ws -> able ws') /\ (forall t, e <> WTake t) /\
  (forall sf o, e = WPoll sf o -> o = Some (OcOk y)).
Proof.
  intros ident tr ws y R P. pose proof (sound_run _ _ _ R) as SO. unfold rank in P |- *.
  destruct (w_main ws) as [|t1|t1|t1 a|t1 sn1 st1|t1 y1 a d|t1 fs msg a d|t1 a|t1 u|en] eqn:M; try (exfalso; lia).
  - exists WFlag. eexists. split; [reflexivity|]. split; [unfold w_step; rewrite M; reflexivity|]. split; [destruct (w_flag ws); cbn; lia|]. split; [|split; discriminate].
    intros [F _]. rewrite F. split; [exact F|exact Logic.I].
  - exists WCheck. eexists. split; [reflexivity|]. split; [unfold w_step; rewrite M; reflexivity|]. split; [destruct (marked _ _); cbn; lia|]. split; [|split; discriminate].
    intros [F _]. destruct (marked _ _); (split; [exact F|exact Logic.I]).
  - cbn in SO. destruct a; [exists (WEffect SAck)|exists (WReturn SAck true)|now destruct SO]; eexists; (split; [reflexivity|]); (split; [unfold w_step; rewrite M; cbn; reflexivity|]);
      (split; [cbn; lia|]); (split; [|split; discriminate]); intros [F _]; (split; [exact F|exact Logic.I]).
  - exists (WPoll false (Some (OcOk y))). eexists. split; [reflexivity|]. split; [unfold w_step; rewrite M; reflexivity|].
    assert (Q : poll_select ws t1 sn1 st1 false (Some (OcOk y)) = set_main (log (start ws t1 sn1 st1) (AFinish (cur (start ws t1 sn1 st1)) (OcOk y))) (WpOk t1 y IoOpen ODecl)) by reflexivity.
    rewrite Q. cbn [w_main set_main]. split; [cbn; lia|]. split; [|split; [discriminate|intros sf o E; injection E as <- <-; reflexivity]].
    intros [F _]. split; [|exact Logic.I]. unfold start. destruct st1; exact F.
  - cbn in SO. destruct a; [exists (WEffect SAck)|exists (WReturn SAck true)|].
    1,2: eexists; (split; [reflexivity|]); (split; [unfold w_step; rewrite M; cbn; reflexivity|]); (split; [cbn; lia|]); (split; [|split; discriminate]); intros [F _]; (split; [exact F|exact Logic.I]).
    destruct d as [|p| |]; [exists (WDeclare true)|destruct p; [exists (WEffect SResult)|exists (WReturn SResult true)|now destruct SO]|exists (WClose true)|exists WJoin];
      eexists; (split; [reflexivity|]); (split; [unfold w_step; rewrite M; cbn; reflexivity|]); (split; [cbn; lia|]); (split; [|split; discriminate]); intros [F _]; (split; [exact F|exact Logic.I]).
  - cbn in SO. destruct a; [exists (WEffect SAck)|exists (WReturn SAck true)|].
    1,2: eexists; (split; [reflexivity|]); (split; [unfold w_step; rewrite M; cbn; reflexivity|]); (split; [cbn; lia|]); (split; [|split; discriminate]); intros [F _]; (split; [exact F|exact Logic.I]).
    destruct d as [|ab er| |]; [exists (WDeclare true)| |exists (WClose true)|exists WJoin].
    1,3,4: eexists; (split; [reflexivity|]); (split; [unfold w_step; rewrite M; cbn; reflexivity|]); (split; [cbn; lia|]); (split; [|split; discriminate]); intros [F _]; (split; [exact F|exact Logic.I]).
    destruct ab; [exists (WEffect SAbort)|exists (WReturn SAbort true)|destruct er; [exists (WEffect SResult)|exists (WReturn SResult true)|destruct SO as [SO|SO]; now destruct SO]];
      eexists; (split; [reflexivity|]); (split; [unfold w_step; rewrite M; cbn; reflexivity|]);
      (split; [try destruct er; cbn; lia|]); (split; [|split; discriminate]); intros [F _]; (split; [exact F|try destruct er; exact Logic.I]).
  - cbn in SO. destruct a; [exists (WEffect SAck)|exists (WReturn SAck true)|now destruct SO]; eexists; (split; [reflexivity|]); (split; [unfold w_step; rewrite M; cbn; reflexivity|]).
    + split; [cbn; lia|]. split; [|split; discriminate]. intros [_ A]. rewrite M in A. destruct A.
    + split; [cbn [set_main w_main w_now io_left]; destruct (_ <=? _)%N; lia|]. split; [|split; discriminate]. intros [_ A]. rewrite M in A. destruct A.
  - destruct (u <=? w_now ws)%N eqn:U.
    + exists WWake. eexists. split; [reflexivity|]. split; [unfold w_step; rewrite M, U; reflexivity|]. split; [cbn; lia|]. split; [|split; discriminate]. intros [_ A]. rewrite M in A. destruct A.
    + exists (WTick (u - w_now ws)). eexists. split; [reflexivity|]. split; [unfold w_step; reflexivity|]. apply N.leb_gt in U.
      split; [|split; [|split; discriminate]]; [|intros [_ A]; rewrite M in A; destruct A]. cbn [w_main w_now]. rewrite M.
      assert (E : (u <=? w_now ws + (u - w_now ws) = true)%N) by (apply N.leb_le; lia). rewrite E. lia.
Qed.
(** After a panic nothing more is done. *)
Lemma panic_step : forall s e s', ((exists tm i, In (tm, AFinish i OcPanic) (w_log s)) -> stopped s = true) -> w_step s e = Some s' ->
  (exists tm i, In (tm, AFinish i OcPanic) (w_log s')) -> stopped s' = true.
Proof.
  intros s e s' IH H (tm & i & I). destruct (step_acts _ _ _ H) as (new & L & X). rewrite L in I. apply in_app_or in I. destruct I as [I|I].
  - destruct (X _ _ I) as [_ E]. cbn in E. destruct E as (_ & t & sn & st & sf & M & ->).
    unfold w_step in H. rewrite M in H. injection H as <-. unfold stopped, poll_select in *. destruct sf.
    + destruct (signal_main s t sn st M) as (_ & _ & _ & _ & [(S4 & _ & _ & LG)|(_ & _ & [S6|[S6 _]])]).
      * exfalso. rewrite S4 in L. cbn iota in L. rewrite LG in L. change (?a :: ?b) with ([a] ++ b) in L. apply app_inv_tail in L. subst new. destruct I as [I|[]]. discriminate I.
      * rewrite S6. destruct (exec_main _ t (w_ver s) st (Some OcPanic) S6) as (_ & _ & _ & _ & Y). rewrite Y. reflexivity.
      * rewrite S6. cbn iota. rewrite S6. reflexivity.
    + destruct (exec_main s t sn st (Some OcPanic) M) as (_ & _ & _ & _ & Y). rewrite Y. cbn [finished]. rewrite Y. reflexivity.
  - assert (ST : stopped s = true) by (apply IH; eauto). unfold stopped in ST |- *. destruct (w_main s) eqn:M; try discriminate ST.
    destruct (main_event e) eqn:ME; [|rewrite (aside_main _ _ _ H ME), M; reflexivity].
    exfalso. destruct e as [d| |k| | |t| | | |sf r|sl|sl ok|ok|ok| |]; try discriminate ME; unfold w_step in H; rewrite M in H; try destruct sl; discriminate H.
Qed.
Lemma panic_run : forall ident tr ws, reaches ident tr ws -> (exists tm i, In (tm, AFinish i OcPanic) (w_log ws)) -> stopped ws = true.
Proof.
  intros ident tr ws R. apply (run_from_inv _ _ w_step (fun s => (exists tm i, In (tm, AFinish i OcPanic) (w_log s)) -> stopped s = true) panic_step tr (w_init ident) ws); [|exact R].
  intros (tm & i & []).
Qed.
(** What a waiting worker took, it settled. *)
Lemma settled_tally : forall i l, settled i l = true <-> 0 < tally CAck i l + tally CNack i l.
Proof.
  intros i l. unfold settled, tally. induction l as [|[tm a] l IH]; [split; [discriminate|intros X; inversion X]|]. cbn [existsb]. rewrite !cnt_cons, orb_true_iff, IH. cbn [snd].
  destruct a; cbn [is b2n]; try destruct (Nat.eqb _ _); cbn [b2n]; (split; intros E; [destruct E as [E|E]; [try discriminate E; lia|lia]|first [left; reflexivity|right; lia]]).
Qed.
Lemma wait_settled : forall ident tr ws i, reaches ident tr ws -> i < w_taken ws -> w_main ws = WpWait -> settled i (w_log ws) = true.
Proof.
  intros ident tr ws i R L M. apply settled_tally. destruct (C35_answers _ _ _ R) as (_ & A & _). assert (E : S i < w_taken ws \/ S i = w_taken ws /\ w_main ws = WpWait) by (destruct (Nat.eq_dec (S i) (w_taken ws)); [auto|left; lia]).
  rewrite !(A i _ E). destruct (outcome_of i (w_log ws)) as [[y|[|] msg|]|] eqn:O; cbn; try lia.
  exfalso. destruct (outcome_in _ _ _ O) as (tm & I). assert (ST : stopped ws = true) by (apply (panic_run _ _ _ R); eauto). unfold stopped in ST. rewrite M in ST. discriminate ST.
Qed.

(** * Where every task is *)
(** In the queue, or with a worker from which it has not come back. *)
Definition held (s : sys) (n : nat) : Prop := exists w ws i, nth_error (y_workers s) w = Some ws /\ took ws i n /\ came_back w i (y_back s) = false.
Record winv2 (s : sys) : Prop := {
  w2_back : forall w i n, In (w, i, n) (y_back s) -> exists ws, nth_error (y_workers s) w = Some ws /\ i < w_taken ws;
  w2_place : forall n, n < length (y_sent s) -> In n (y_queue s) \/ held s n
}.
Lemma taken_step : forall ws e ws', w_step ws e = Some ws' -> w_taken ws <= w_taken ws'.
Proof.
  intros ws e ws' H. destruct e as [d| |k| | |t| | | |sf r|sl|sl ok|ok|ok| |]; unfold w_step in H.
  - injection H as <-. reflexivity.
  - destruct (w_main ws); try discriminate; destruct (_ <=? _)%N; try discriminate; injection H as <-; reflexivity.
  - destruct (mark_state (log ws (ACommand k)) k) as (js & _ & _ & _ & _ & _ & A & _).
    assert (K : (let '(s1, fresh) := mark (log ws (ACommand k)) k in
          Some (if fresh then mkW (w_now s1) (w_jobs s1) (w_reap s1) (LisSend k) (w_ver s1) (w_val s1) (w_flag s1) (w_main s1) (w_taken s1) (w_log s1) else s1)) = Some ws').
    { destruct (w_main ws); try discriminate; destruct (w_lis ws); try discriminate; exact H. }
    destruct (mark (log ws (ACommand k)) k) as [s1 fresh] eqn:E. assert (Q : w_taken s1 = w_taken ws).
    { unfold mark in E. destruct (marked k (w_jobs (log ws (ACommand k)))); injection E as <- _; reflexivity. }
    destruct fresh; injection K as <-; cbn [w_taken]; lia.
  - destruct (w_main ws); try discriminate; destruct (w_lis ws); try discriminate; injection H as <-; reflexivity.
  - destruct (w_main ws); try discriminate; destruct (w_lis ws); try discriminate; injection H as <-; reflexivity.
  - destruct (w_main ws); try discriminate. injection H as <-. cbn. lia.
  - destruct (w_main ws); try discriminate. injection H as <-. reflexivity.
  - destruct (w_main ws); try discriminate. injection H as <-. reflexivity.
  - destruct (w_main ws); try discriminate. injection H as <-. destruct (marked _ _); reflexivity.
  - destruct (w_main ws) eqn:M; try discriminate. injection H as <-. unfold poll_select. destruct sf.
    + destruct (signal_main ws t seen started M) as (T & _ & _ & _ & [(S4 & _)|(_ & _ & [S6|[S6 _]])]).
      * rewrite S4. lia.
      * rewrite S6. destruct (exec_main _ t (w_ver ws) started r S6) as (Y & _). rewrite Y. lia.
      * rewrite S6. lia.
    + destruct (exec_main ws t seen started r M) as (T & _ & _ & _ & Y). rewrite Y. destruct r as [o|].
      * destruct o; cbn [finished]; lia.
      * destruct (signal_main _ t seen true Y) as (T' & _). rewrite T'. lia.
  - destruct sl; destruct (w_main ws) as [|t1|t1|t1 a|t1 sn1 st1|t1 y a d|t1 fs msg a d|t1 a|t1 u|en]; try discriminate; try (destruct d); try discriminate;
      repeat (match goal with x : io |- _ => destruct x end); cbn in H; try discriminate; injection H as <-; reflexivity.
  - destruct sl; destruct (w_main ws) as [|t1|t1|t1 a|t1 sn1 st1|t1 y a d|t1 fs msg a d|t1 a|t1 u|en]; try discriminate; try (destruct d); try discriminate;
      repeat (match goal with x : io |- _ => destruct x end); destruct ok; cbn in H; try discriminate; injection H as <-; reflexivity.
  - destruct (w_main ws) as [|t1|t1|t1 a|t1 sn1 st1|t1 y a d|t1 fs msg a d|t1 a|t1 u|en]; try discriminate; destruct d; try discriminate; injection H as <-; destruct ok; reflexivity.
  - destruct (w_main ws) as [|t1|t1|t1 a|t1 sn1 st1|t1 y a d|t1 fs msg a d|t1 a|t1 u|en]; try discriminate; destruct d; try discriminate; injection H as <-; destruct ok; reflexivity.
  - destruct (w_main ws) as [|t1|t1|t1 a|t1 sn1 st1|t1 y a d|t1 fs msg a d|t1 a|t1 u|en]; try discriminate; destruct a; try discriminate; destruct d; try discriminate; injection H as <-; reflexivity.
  - destruct (w_main ws); try discriminate. destruct (_ <=? _)%N; try discriminate. injection H as <-. reflexivity.
Qed.
Lemma took_step : forall ws e ws' i n, w_step ws e = Some ws' -> took ws i n -> took ws' i n.
Proof. intros ws e ws' i n H (tm & t & I & B). destruct (step_acts _ _ _ H) as (new & L & _). exists tm, t. rewrite L. split; [apply in_or_app; now right|exact B]. Qed.
Lemma nth_upd_cases : forall (A : Type) (l : list A) w x x' w0 y, nth_error l w = Some x -> nth_error l w0 = Some y -> (w0 = w /\ y = x /\ nth_error (upd w x' l) w0 = Some x') \/ (w0 <> w /\ nth_error (upd w x' l) w0 = Some y).
Proof.
  intros A l w x x' w0 y H H0. destruct (Nat.eq_dec w0 w) as [->|NE].
  - left. split; [reflexivity|]. split; [congruence|]. apply upd_nth_same. apply nth_error_Some. congruence.
  - right. split; [exact NE|]. rewrite upd_nth_other; auto.
Qed.

Section Pool.
Variable may : nat -> outcome -> bool.
Local Notation stp := (y_step may).

Lemma winv2_keep : forall s s', winv2 s -> y_sent s' = y_sent s -> y_queue s' = y_queue s -> y_back s' = y_back s ->
  (forall w ws, nth_error (y_workers s) w = Some ws -> exists ws', nth_error (y_workers s') w = Some ws' /\ w_taken ws <= w_taken ws' /\ forall i n, took ws i n -> took ws' i n) -> winv2 s'.
Proof.
  intros s s' [B P] ES EQ EB K. constructor.
  - intros w i n I. rewrite EB in I. destruct (B _ _ _ I) as (ws & W & L). destruct (K _ _ W) as (ws' & W' & L' & _). exists ws'. split; [exact W'|lia].
  - intros n L. rewrite ES in L. rewrite EQ. destruct (P _ L) as [Q|(w & ws & i & W & T & CB)]; [now left|right]. destruct (K _ _ W) as (ws' & W' & _ & T'). exists w, ws', i. rewrite EB. auto.
Qed.
Lemma winv2_step : forall s e s', sinv may s /\ winv2 s -> stp s e = Some s' -> sinv may s' /\ winv2 s'.
Proof.
  intros s e s' [SI V] H. assert (SI' : sinv may s').
  { destruct e; [eapply sinv_lease|eapply sinv_send|eapply sinv_start|eapply sinv_take|eapply sinv_work|eapply sinv_back|eapply sinv_recv|eapply sinv_release]; eauto. }
  split; [exact SI'|]. destruct e as [k|d x|ident|w j|w e|w i|d j|d]; cbn [y_step] in H.
  - destruct (existsb _ _); [discriminate|]. injection H as <-. apply (winv2_keep s); try reflexivity; [exact V|]. cbn. eauto.
  - destruct (nth_error (y_dirs s) d); [|discriminate]. injection H as <-. destruct V as [B P]. constructor; cbn [y_back y_workers y_sent y_queue]; [exact B|].
    intros n L. rewrite app_length in L. cbn in L. destruct (Nat.eq_dec n (length (y_sent s))) as [->|NE]; [left; apply in_or_app; right; now left|].
    destruct (P n ltac:(lia)) as [Q|Q]; [left; apply in_or_app; now left|now right].
  - injection H as <-. apply (winv2_keep s); try reflexivity; [exact V|]. cbn. intros w ws W. exists ws. split; [now apply nth_app_old|]. auto.
  - destruct (nth_error (y_workers s) w) as [ws|] eqn:W; [|discriminate]. destruct (pick j (y_queue s)) as [[n q]|] eqn:PK; [|discriminate]. destruct (nth_error (y_sent s) n) as [[d x]|]; [|discriminate].
    destruct (nth_error (y_dirs s) d) as [dd|]; [|discriminate]. destruct (w_step ws _) as [ws'|] eqn:WS; [|discriminate]. injection H as <-. destruct V as [B P].
    assert (T' : took ws' (w_taken ws) n). { exists (w_now ws), (mkT (d_key dd) n). split; [rewrite (take_step _ _ _ WS); now left|reflexivity]. }
    assert (W' : nth_error (upd w ws' (y_workers s)) w = Some ws') by (apply upd_nth_same; apply nth_error_Some; congruence).
    constructor; cbn [y_back y_workers y_sent y_queue].
    + intros w0 i0 n0 I. destruct (B _ _ _ I) as (ws0 & W0 & L0). destruct (nth_upd_cases _ _ _ _ ws' _ _ W W0) as [(-> & -> & U)|(_ & U)]; [exists ws'|exists ws0]; (split; [exact U|]); [pose proof (taken_step _ _ _ WS); lia|exact L0].
    + intros m L. destruct (Nat.eq_dec m n) as [->|NE].
      * right. exists w, ws', (w_taken ws). split; [exact W'|]. split; [exact T'|]. cbn [y_back]. destruct (came_back w (w_taken ws) (y_back s)) eqn:CB; [exfalso|reflexivity].
        apply existsb_exists in CB. destruct CB as ([[w1 i1] n1] & I & Q). cbn in Q. apply andb_prop in Q. destruct Q as [Q1 Q2]. apply Nat.eqb_eq in Q1, Q2. subst w1 i1.
        destruct (B _ _ _ I) as (ws0 & W0 & L0). assert (ws0 = ws) by congruence. subst ws0. lia.
      * destruct (P _ L) as [Q|(w0 & ws0 & i0 & W0 & T0 & CB)].
        -- left. apply (Permutation.Permutation_in _ (pick_perm _ _ _ _ _ PK)) in Q. destruct Q as [Q|Q]; [congruence|exact Q].
        -- right. destruct (nth_upd_cases _ _ _ _ ws' _ _ W W0) as [(-> & -> & U)|(_ & U)]; [exists w, ws', i0|exists w0, ws0, i0]; (split; [exact U|]); (split; [|exact CB]); [exact (took_step _ _ _ _ _ WS T0)|exact T0].
  - destruct (nth_error (y_workers s) w) as [ws|] eqn:W; [|discriminate]. destruct (possible may s ws e); [|discriminate]. destruct (w_step ws e) as [ws'|] eqn:WS; [|discriminate]. injection H as <-.
    apply (winv2_keep s); try reflexivity; [exact V|]. cbn [y_workers]. intros w0 ws0 W0. destruct (nth_upd_cases _ _ _ _ ws' _ _ W W0) as [(-> & -> & U)|(_ & U)]; [exists ws'|exists ws0]; (split; [exact U|]).
    + split; [exact (taken_step _ _ _ WS)|]. intros i n. exact (took_step _ _ _ _ _ WS).
    + auto.
  - destruct (nth_error (y_workers s) w) as [ws|] eqn:W; [|discriminate]. destruct (body_of i (w_log ws)) as [n|] eqn:BO; [|discriminate]. destruct (_ || _) eqn:AC; [discriminate|]. injection H as <-. destruct V as [B P].
    destruct (si_work _ _ SI _ _ W) as (ident & wtr & WR). pose proof (winv_run _ _ _ WR) as [WI _ _]. constructor; cbn [y_back y_workers y_sent y_queue].
    + intros w0 i0 n0 [E|I]; [|exact (B _ _ _ I)]. injection E as <- <- <-. exists ws. split; [exact W|]. destruct (body_in _ _ _ BO) as (tm & t & I & _). exact (WI _ _ I eq_refl).
    + intros m L. destruct (Nat.eq_dec m n) as [->|NE]; [left; apply in_or_app; right; now left|]. destruct (P _ L) as [Q|(w0 & ws0 & i0 & W0 & T0 & CB)]; [left; apply in_or_app; now left|right].
      exists w0, ws0, i0. split; [exact W0|]. split; [exact T0|]. cbn [y_back came_back existsb fst snd]. unfold came_back in CB. rewrite CB, orb_false_r.
      destruct (Nat.eqb_spec w w0) as [<-|]; [|reflexivity]. destruct (Nat.eqb_spec i i0) as [<-|]; [exfalso|reflexivity]. assert (ws0 = ws) by congruence. subst ws0.
      destruct T0 as (tm & t & I & Q). pose proof (body_reach _ _ _ _ _ _ WR I). congruence.
  - destruct (nth_error (y_dirs s) d) as [dd|]; [|discriminate]. destruct (pick j (y_results s)) as [[r rest]|]; [|discriminate]. destruct (_ && _); [|discriminate]. injection H as <-.
    apply (winv2_keep s); try reflexivity; [exact V|]. cbn. eauto.
  - destruct (nth_error (y_dirs s) d) as [dd|]; [|discriminate]. destruct (d_open dd); [|discriminate]. injection H as <-. apply (winv2_keep s); try reflexivity; [exact V|]. cbn. eauto.
Qed.
Lemma winv2_init : winv2 y_init.
Proof. constructor; cbn; [intros w i n []|intros n L; lia]. Qed.
Lemma winv2_run : forall tr s, run_from stp y_init tr = Some s -> winv2 s.
Proof. intros tr s R. apply (run_from_inv _ _ stp (fun s => sinv may s /\ winv2 s) winv2_step tr y_init s (conj (sinv_init may) winv2_init) R). Qed.

(** * Catching up *)
Variable dead : nat -> bool.
Definition loose (w : nat) (ws : wstate) (bk : list (nat * nat * nat)) (i : nat) : bool :=
  gone dead w ws && negb (settled i (w_log ws)) && negb (came_back w i bk) && match body_of i (w_log ws) with Some _ => true | None => false end.
Fixpoint bsum (k : nat) (l : list wstate) (bk : list (nat * nat * nat)) : nat :=
  match l with [] => 0 | ws :: r => cnt (loose k ws bk) (seq 0 (w_taken ws)) + bsum (S k) r bk end.
Fixpoint rsum (k : nat) (l : list wstate) : nat :=
  match l with [] => 0 | ws :: r => (if dead k then 0 else rank ws) + rsum (S k) r end.
Definition alive (s : sys) : nat := wsum (fun ws => if stopped ws then 0 else 1) (y_workers s).
Definition undone (s : sys) : nat := 40 * bsum 0 (y_workers s) (y_back s) + 20 * length (y_queue s) + rsum 0 (y_workers s).

Lemma loose_not : forall k ws bk l, gone dead k ws = false -> cnt (loose k ws bk) l = 0.
Proof. intros k ws bk l E. apply cnt_zero. intros i _. unfold loose. now rewrite E. Qed.
Lemma bsum_upd : forall l k w ws ws' bk, nth_error l w = Some ws -> gone dead (k + w) ws = false -> gone dead (k + w) ws' = false -> bsum k (upd w ws' l) bk = bsum k l bk.
Proof.
  intros l; induction l as [|x l IH]; intros k w ws ws' bk W E E'; destruct w as [|w]; cbn in W; try discriminate.
  - injection W as ->. rewrite Nat.add_0_r in *. cbn. now rewrite !loose_not.
  - cbn. replace (k + S w) with (S k + w) in * by lia. now rewrite (IH _ _ _ _ _ W E E').
Qed.
Lemma rsum_upd : forall l k w ws ws', nth_error l w = Some ws -> dead (k + w) = false -> rsum k (upd w ws' l) + rank ws = rsum k l + rank ws'.
Proof.
  intros l; induction l as [|x l IH]; intros k w ws ws' W E; destruct w as [|w]; cbn in W; try discriminate.
  - injection W as ->. rewrite Nat.add_0_r in *. cbn. rewrite E. lia.
  - cbn. replace (k + S w) with (S k + w) in * by lia. specialize (IH _ _ _ ws' W E). lia.
Qed.
Lemma rsum_some : forall l k, 0 < rsum k l -> exists w ws, nth_error l w = Some ws /\ dead (k + w) = false /\ 0 < rank ws.
Proof.
  intros l; induction l as [|x l IH]; intros k H; cbn in H; [lia|]. destruct (dead k) eqn:E; [|destruct (rank x) eqn:R; [|exists 0, x; rewrite Nat.add_0_r; repeat split; [exact E|lia]]].
  all: destruct (IH (S k) ltac:(lia)) as (w & ws & W & D & P); exists (S w), ws; replace (k + S w) with (S k + w) by lia; auto.
Qed.
Lemma rsum_none : forall l k w ws, rsum k l = 0 -> nth_error l w = Some ws -> dead (k + w) = false -> rank ws = 0.
Proof.
  intros l; induction l as [|x l IH]; intros k w ws H W E; destruct w as [|w]; cbn in W; try discriminate; cbn in H.
  - injection W as ->. rewrite Nat.add_0_r in *. rewrite E in H. lia.
  - replace (k + S w) with (S k + w) in * by lia. apply (IH (S k) w ws); [lia|exact W|exact E].
Qed.
Lemma cnt_le : forall (A : Type) (p q : A -> bool) l, (forall x, q x = true -> p x = true) -> cnt q l <= cnt p l.
Proof. intros A p q l H. induction l as [|x l IH]; [cbv; lia|]. rewrite !cnt_cons. specialize (H x). destruct (q x); [rewrite (H eq_refl); cbn; lia|]. destruct (p x); cbn; lia. Qed.
Lemma cnt_lt : forall (A : Type) (p q : A -> bool) l a, (forall x, q x = true -> p x = true) -> In a l -> p a = true -> q a = false -> cnt q l < cnt p l.
Proof.
  intros A p q l a H I P Q. apply in_split in I. destruct I as (l1 & l2 & ->). rewrite !cnt_app, !cnt_cons, P, Q. cbn. pose proof (cnt_le _ p q l1 H). pose proof (cnt_le _ p q l2 H). lia.
Qed.
Lemma loose_more : forall k ws bk x i, loose k ws (x :: bk) i = true -> loose k ws bk i = true.
Proof.
  intros k ws bk x i. unfold loose, came_back. cbn [existsb]. rewrite negb_orb. intros H. repeat (apply andb_prop in H; destruct H as [H ?]). repeat (match goal with E : _ && _ = true |- _ => apply andb_prop in E; destruct E end). repeat (apply andb_true_intro; split); auto.
Qed.
Lemma bsum_more : forall l k x bk, bsum k l (x :: bk) <= bsum k l bk.
Proof. intros l; induction l as [|ws l IH]; intros k x bk; cbn; [lia|]. specialize (IH (S k) x bk). pose proof (cnt_le _ (loose k ws bk) (loose k ws (x :: bk)) (seq 0 (w_taken ws)) (loose_more k ws bk x)). lia. Qed.
Lemma bsum_back : forall l k w ws i n bk, nth_error l w = Some ws -> i < w_taken ws -> loose (k + w) ws bk i = true -> bsum k l ((k + w, i, n) :: bk) < bsum k l bk.
Proof.
  intros l; induction l as [|x l IH]; intros k w ws i n bk W L LO; destruct w as [|w]; cbn in W; try discriminate.
  - injection W as ->. cbn [bsum]. rewrite Nat.add_0_r in *. pose proof (bsum_more l (S k) (k, i, n) bk).
    assert (cnt (loose k ws ((k, i, n) :: bk)) (seq 0 (w_taken ws)) < cnt (loose k ws bk) (seq 0 (w_taken ws))); [|lia].
    apply (cnt_lt _ _ _ _ i); [apply loose_more|apply in_seq; lia|exact LO|]. unfold loose, came_back. cbn [existsb fst snd]. rewrite !Nat.eqb_refl. cbn. now rewrite andb_false_r.
  - cbn [bsum]. replace (k + S w) with (S k + w) in * by lia. specialize (IH (S k) w ws i n bk W L LO).
    pose proof (cnt_le _ (loose k x bk) (loose k x ((S k + w, i, n) :: bk)) (seq 0 (w_taken x)) (loose_more k x bk _)). lia.
Qed.
Lemma cnt_some : forall (A : Type) (p : A -> bool) l, 0 < cnt p l -> exists a, In a l /\ p a = true.
Proof. intros A p l H. induction l as [|x l IH]; [cbv in H; lia|]. rewrite cnt_cons in H. destruct (p x) eqn:E; [exists x; split; [now left|exact E]|]. destruct (IH H) as (a & I & P). exists a. split; [now right|exact P]. Qed.
Lemma bsum_pos : forall l k bk, 0 < bsum k l bk -> exists w ws i, nth_error l w = Some ws /\ i < w_taken ws /\ loose (k + w) ws bk i = true.
Proof.
  intros l; induction l as [|x l IH]; intros k bk H; cbn in H; [lia|]. destruct (cnt (loose k x bk) (seq 0 (w_taken x))) eqn:E.
  - destruct (IH _ _ H) as (w & ws & i & W & L & LO). exists (S w), ws, i. replace (k + S w) with (S k + w) by lia. auto.
  - destruct (cnt_some _ (loose k x bk) (seq 0 (w_taken x)) ltac:(lia)) as (i & I & LO). apply in_seq in I. exists 0, x, i. rewrite Nat.add_0_r. repeat split; [lia|exact LO].
Qed.
Lemma bsum_none : forall l k bk w ws i, bsum k l bk = 0 -> nth_error l w = Some ws -> i < w_taken ws -> loose (k + w) ws bk i = false.
Proof.
  intros l; induction l as [|x l IH]; intros k bk w ws i H W L; destruct w as [|w]; cbn in W; try discriminate; cbn in H.
  - injection W as ->. rewrite Nat.add_0_r. assert (Z : cnt (loose k ws bk) (seq 0 (w_taken ws)) = 0) by lia. rewrite cnt_zero in Z. apply Z. apply in_seq. lia.
  - replace (k + S w) with (S k + w) by lia. apply IH; [lia|exact W|exact L].
Qed.

Variable total : forall x, exists y, may x (OcOk y) = true.

Lemma task_payload : forall s w ws t sn st, sinv may s -> nth_error (y_workers s) w = Some ws -> w_main ws = WpRun t sn st -> exists d x, nth_error (y_sent s) (t_body t) = Some (d, x).
Proof.
  intros s w ws t sn st SI W M. destruct (si_work _ _ SI _ _ W) as (ident & wtr & WR). pose proof (winv_run _ _ _ WR) as WI. destruct (take_cur ws t WI) as (tt & I); [now rewrite M|].
  destruct (si_take _ _ SI _ _ _ _ _ W I) as (d & x & _ & S & _). eauto.
Qed.
Lemma able_upd : forall s w ws ws', some_able dead s -> nth_error (y_workers s) w = Some ws -> (able ws -> able ws') -> exists w0 ws0, nth_error (upd w ws' (y_workers s)) w0 = Some ws0 /\ dead w0 = false /\ able ws0.
Proof.
  intros s w ws ws' (w0 & ws0 & W0 & DW & A) W K. destruct (nth_upd_cases _ _ _ _ ws' _ _ W W0) as [(-> & -> & U)|(_ & U)]; [exists w, ws'|exists w0, ws0]; auto.
Qed.
Lemma rank_zero : forall ws, rank ws = 0 -> w_main ws = WpWait \/ stopped ws = true.
Proof. intros ws. unfold rank, stopped. destruct (w_main ws); auto; intros H; exfalso; try (cbn in H; lia). destruct (_ <=? _)%N; lia. Qed.
Lemma catch_up_step : forall s, sinv may s -> some_able dead s -> worked_off dead s \/ exists e s', calm dead s e /\ is_recv e = false /\ stp s e = Some s' /\ some_able dead s' /\ (alive s' < alive s \/ (alive s' = alive s /\ undone s' < undone s)).
Proof.
  intros s SI AB. destruct (rsum 0 (y_workers s)) as [|m] eqn:RK.
  - (* every worker waits or is over *)
    destruct (y_queue s) as [|n q] eqn:Q.
    + destruct (bsum 0 (y_workers s) (y_back s)) as [|b] eqn:BS.
      * left. split; [exact Q|]. split.
        { intros w ws W. unfold gone. destruct (dead w) eqn:DW; [now right|]. cbn [orb]. apply rank_zero. exact (rsum_none _ _ _ _ RK W DW). }
        intros w ws i n W ST (tm & t & I & B).
        destruct (si_work _ _ SI _ _ W) as (ident & wtr & WR). pose proof (winv_run _ _ _ WR) as [WI _ _]. pose proof (bsum_none _ _ _ _ _ i BS W (WI _ _ I eq_refl)) as LO. cbn [plus] in LO.
        unfold loose in LO. rewrite ST, (body_reach _ _ _ _ _ _ WR I) in LO. destruct (settled i (w_log ws)); [now left|]. destruct (came_back w i (y_back s)); [now right|discriminate LO].
      * right. destruct (bsum_pos (y_workers s) 0 (y_back s) ltac:(lia)) as (w & ws & i & W & L & LO). pose proof LO as LO'. cbn [plus] in LO. unfold loose in LO.
        apply andb_prop in LO. destruct LO as [LO BO]. apply andb_prop in LO. destruct LO as [LO CB]. apply andb_prop in LO. destruct LO as [ST SE]. apply negb_true_iff in CB, SE.
        destruct (body_of i (w_log ws)) as [n|] eqn:BD; [|discriminate BO].
        assert (AK : acked i (w_log ws) = false).
        { destruct (acked i (w_log ws)) eqn:AK; [|reflexivity]. apply existsb_exists in AK. destruct AK as ([tm a] & I & E). rewrite <- SE. symmetry. apply existsb_exists. exists (tm, a). split; [exact I|]. cbn in *. destruct a; try discriminate E. exact E. }
        exists (YBack w i). eexists. split; [exists ws; auto|]. split; [reflexivity|]. split; [cbn [y_step]; rewrite W, BD, AK, CB; reflexivity|]. split; [exact AB|]. right. split; [reflexivity|].
        unfold undone. cbn [y_workers y_back y_queue]. rewrite app_length. cbn [length]. pose proof (bsum_back _ 0 _ _ _ n _ W L LO'). cbn [plus] in *. lia.
    + right. destruct AB as (w & ws & W & DW & AB). pose proof AB as (F & M). assert (MW : w_main ws = WpWait). { destruct (rank_zero ws (rsum_none _ _ _ _ RK W DW)) as [E|E]; [exact E|exfalso]. unfold stopped in E. destruct (w_main ws); try discriminate E. exact M. }
      assert (L : n < length (y_sent s)).
      { destruct (Nat.lt_ge_cases n (length (y_sent s))) as [L|L]; [exact L|exfalso]. pose proof (si_count _ _ SI n) as C. apply Nat.ltb_ge in L. rewrite L, Q, cnt_cons in C. unfold same at 1 in C. rewrite Nat.eqb_refl in C. cbn [b2n] in C.
        assert (Z : cnt (back_n n) (y_back s) = 0); [|lia]. apply cnt_zero. intros [[w0 i0] n0] I. unfold back_n. cbn. apply Nat.eqb_neq. intros ->. apply (si_back _ _ SI) in I. apply Nat.ltb_ge in L. lia. }
      apply nth_error_Some in L. destruct (nth_error (y_sent s) n) as [[d x]|] eqn:SN; [|easy]. pose proof (si_sent _ _ SI _ _ _ SN) as LD. apply nth_error_Some in LD. destruct (nth_error (y_dirs s) d) as [dd|] eqn:DD; [|easy].
      remember (mkW (w_now ws) (w_jobs ws) (w_reap ws) (w_lis ws) (w_ver ws) (w_val ws) (w_flag ws) (WpFlag (mkT (d_key dd) n)) (S (w_taken ws)) ((w_now ws, ATake (w_taken ws) (mkT (d_key dd) n)) :: w_log ws)) as ws' eqn:EW.
      assert (WS : w_step ws (WTake (mkT (d_key dd) n)) = Some ws') by (unfold w_step; rewrite MW, EW; reflexivity).
      exists (YTake w 0). eexists. split; [exact DW|]. split; [reflexivity|]. split; [cbn [y_step]; rewrite W, Q; cbn [pick]; rewrite SN, DD, WS; reflexivity|].
      assert (S0 : stopped ws = false) by (unfold stopped; now rewrite MW). assert (S1 : stopped ws' = false) by (rewrite EW; reflexivity).
      assert (G0 : gone dead (0 + w) ws = false) by (unfold gone; cbn [plus]; now rewrite DW, S0). assert (G1 : gone dead (0 + w) ws' = false) by (unfold gone; cbn [plus]; now rewrite DW, S1).
      split. { apply (able_upd s w ws ws'); [exists w, ws; auto|exact W|]. intros [F' _]. rewrite EW. split; [exact F'|exact Logic.I]. }
      right. unfold alive, undone. cbn [y_workers y_back y_queue]. rewrite Q. cbn [length].
      pose proof (wsum_upd (fun ws => if stopped ws then 0 else 1) _ _ ws' _ W) as U1. cbn beta in U1. rewrite S0, S1 in U1. pose proof (rsum_upd _ 0 _ _ ws' W DW) as U2.
      rewrite (bsum_upd _ 0 _ _ _ _ W G0 G1). assert (R0 : rank ws = 0) by (unfold rank; now rewrite MW). assert (R1 : rank ws' = 12) by (rewrite EW; reflexivity). lia.
  - right. destruct (rsum_some (y_workers s) 0 ltac:(lia)) as (w & ws & W & DW & P). cbn [plus] in DW. destruct (si_work _ _ SI _ _ W) as (ident & wtr & WR).
    assert (Y : exists y, forall t sn st, w_main ws = WpRun t sn st -> exists d x, nth_error (y_sent s) (t_body t) = Some (d, x) /\ may x (OcOk y) = true).
    { destruct (w_main ws) as [| | | |t sn st| | | | |] eqn:M; try (exists 0; discriminate). destruct (task_payload _ _ _ _ _ _ SI W M) as (d & x & S). destruct (total x) as (y & E). exists y. intros t' sn' st' E'. injection E' as <- <- <-. eauto. }
    destruct Y as (y & Y). destruct (worker_moves _ _ _ y WR P) as (e & ws' & GW & WS & LT & AK & NT & PO).
    assert (PS : possible may s ws e = true).
    { unfold possible. destruct e as [d| |k| | |t| | | |sf r|sl|sl ok|ok|ok| |]; try reflexivity; [now destruct (NT t)|]. rewrite (PO _ _ eq_refl). destruct (w_main ws) as [| | | |t sn st| | | | |] eqn:M; try reflexivity.
      destruct (Y _ _ _ eq_refl) as (d & x & S & E). now rewrite S. }
    exists (YWork w e). eexists. split; [exact (conj DW GW)|]. split; [reflexivity|]. split; [cbn [y_step]; rewrite W, PS, WS; reflexivity|]. split; [exact (able_upd s w ws ws' AB W AK)|].
    unfold alive, undone. cbn [y_workers y_back y_queue]. pose proof (wsum_upd (fun ws => if stopped ws then 0 else 1) _ _ ws' _ W) as U1. cbn beta in U1. pose proof (rsum_upd _ 0 _ _ ws' W DW) as U2.
    assert (S0 : stopped ws = false). { unfold stopped. unfold rank in P. destruct (w_main ws); try reflexivity. lia. }
    rewrite S0 in U1. destruct (stopped ws') eqn:S1; [left; lia|right].
    assert (G0 : gone dead (0 + w) ws = false) by (unfold gone; cbn [plus]; now rewrite DW, S0). assert (G1 : gone dead (0 + w) ws' = false) by (unfold gone; cbn [plus]; now rewrite DW, S1). rewrite (bsum_upd _ 0 _ _ _ _ W G0 G1). lia.
Qed.
Lemma catch_up : forall s, sinv may s -> some_able dead s -> exists tr s', calmly may dead s tr s' /\ forallb (fun e => negb (is_recv e)) tr = true /\ worked_off dead s'.
Proof.
  intros s. remember (alive s) as a eqn:A. revert s A. induction a as [a IHa] using lt_wf_ind. intros s A. remember (undone s) as b eqn:B. revert s A B. induction b as [b IHb] using lt_wf_ind. intros s A B SI AB.
  destruct (catch_up_step s SI AB) as [WO|(e & s1 & C & NR & S & AB1 & LT)]; [exists [], s; split; [constructor|auto]|].
  assert (SI1 : sinv may s1). { destruct e; [eapply sinv_lease|eapply sinv_send|eapply sinv_start|eapply sinv_take|eapply sinv_work|eapply sinv_back|eapply sinv_recv|eapply sinv_release]; eauto. }
  assert (K : exists tr s', calmly may dead s1 tr s' /\ forallb (fun e => negb (is_recv e)) tr = true /\ worked_off dead s').
  { destruct LT as [LT|[E LT]]; [apply (IHa (alive s1)); auto; lia|apply (IHb (undone s1)); auto; lia]. }
  destruct K as (tr & s' & R & NRs & WO). exists (e :: tr), s'. split; [exact (calm_cons _ _ _ _ _ _ _ C S R)|]. split; [cbn; now rewrite NR, NRs|exact WO].
Qed.
End Pool.
Lemma calmly_run : forall may dead s tr s', calmly may dead s tr s' -> run_from (y_step may) s tr = Some s'.
Proof. intros may dead s tr s' C. induction C as [|s e s1 tr s2 _ S _ IH]; [reflexivity|]. cbn. now rewrite S. Qed.
Lemma calmly_app : forall may dead s tr s1 tr2 s2, calmly may dead s tr s1 -> calmly may dead s1 tr2 s2 -> calmly may dead s (tr ++ tr2) s2.
Proof. intros may dead s tr s1 tr2 s2 C C2. induction C as [|s e s1 tr s2' P S _ IH]; [exact C2|]. cbn. exact (calm_cons _ _ _ _ _ _ _ P S (IH C2)). Qed.
(** What stays as it is. *)
Definition dirs_kept (s s' : sys) : Prop := y_sent s' = y_sent s /\ forall d dd, nth_error (y_dirs s) d = Some dd -> exists dd', nth_error (y_dirs s') d = Some dd' /\ d_key dd' = d_key dd /\ d_open dd' = d_open dd.
Lemma dirs_kept_trans : forall s1 s2 s3, dirs_kept s1 s2 -> dirs_kept s2 s3 -> dirs_kept s1 s3.
Proof. intros s1 s2 s3 [A B] [C D]. split; [congruence|]. intros d dd E. destruct (B _ _ E) as (dd1 & E1 & K1 & O1). destruct (D _ _ E1) as (dd2 & E2 & K2 & O2). exists dd2. repeat split; [exact E2|congruence|congruence]. Qed.
Lemma calm_dirs : forall may dead s e s', calm dead s e -> y_step may s e = Some s' -> dirs_kept s s'.
Proof.
  intros may dead s e s' C H. destruct e as [k|d x|ident|w j|w e|w i|d j|d]; try (destruct C; fail); cbn [y_step] in H.
  - destruct (nth_error (y_workers s) w) as [ws|] eqn:W; [|discriminate]. destruct (pick j (y_queue s)) as [[n q]|] eqn:PK; [|discriminate]. destruct (nth_error (y_sent s) n) as [[d x]|]; [|discriminate].
    destruct (nth_error (y_dirs s) d) as [dd|]; [|discriminate]. destruct (w_step ws _) as [ws'|] eqn:WS; [|discriminate]. injection H as <-. split; [reflexivity|]. cbn. eauto.
  - destruct (nth_error (y_workers s) w) as [ws|] eqn:W; [|discriminate]. destruct (possible may s ws e); [|discriminate]. destruct (w_step ws e) as [ws'|] eqn:WS; [|discriminate]. injection H as <-. split; [reflexivity|]. cbn. eauto.
  - destruct (nth_error (y_workers s) w) as [ws|] eqn:W; [|discriminate]. destruct (body_of i (w_log ws)) as [n|] eqn:BO; [|discriminate]. destruct (_ || _) eqn:AC; [discriminate|]. injection H as <-. split; [reflexivity|]. cbn. eauto.
  - destruct (nth_error (y_dirs s) d) as [dd|] eqn:D; [|discriminate]. destruct (pick j (y_results s)) as [[r rest]|]; [|discriminate]. destruct (_ && _) eqn:O; [|discriminate]. injection H as <-. split; [reflexivity|].
    cbn [y_dirs]. apply andb_prop in O. destruct O as [O _]. intros d0 dd0 D0. destruct (nth_upd_cases _ _ _ _ (mkD (d_key dd) true (d_got dd ++ [r])) _ _ D D0) as [(-> & -> & U)|(_ & U)]; eexists; (split; [exact U|]); auto.
Qed.
Lemma calmly_dirs : forall may dead s tr s', calmly may dead s tr s' -> dirs_kept s s'.
Proof. intros may dead s tr s' C. induction C as [s|s e s1 tr s2 P S _ IH]; [split; [reflexivity|eauto]|]. exact (dirs_kept_trans _ _ _ (calm_dirs _ _ _ _ _ P S) IH). Qed.
(** Results that wait for an open directive can be received. *)
Lemma pick_in : forall (A : Type) (l : list A) x, In x l -> exists j r, pick j l = Some (x, r).
Proof.
  intros A l; induction l as [|y l IH]; intros x I; [destruct I|]. destruct I as [->|I]; [exists 0, l; reflexivity|]. destruct (IH _ I) as (j & r & P). exists (S j), (y :: r). cbn. now rewrite P.
Qed.
Definition waits (s : sys) (r : res) : bool := existsb (fun dd => d_open dd && Nat.eqb (r_key r) (d_key dd)) (y_dirs s).
Lemma hand_out : forall may dead s, exists tr s', calmly may dead s tr s' /\ forallb is_recv tr = true /\ handed_out s' /\ y_queue s' = y_queue s /\ y_workers s' = y_workers s /\ y_back s' = y_back s.
Proof.
  intros may dead s. remember (length (y_results s)) as n eqn:E. revert s E. induction n as [n IH] using lt_wf_ind. intros s ->. destruct (existsb (waits s) (y_results s)) eqn:X.
  - apply existsb_exists in X. destruct X as (r & I & X). apply existsb_exists in X. destruct X as (dd & ID & O). apply In_nth_error in ID. destruct ID as (d & D). destruct (pick_in _ _ _ I) as (j & rest & PK).
    destruct (IH (length rest)) with (s := mkY (upd d (mkD (d_key dd) true (d_got dd ++ [r])) (y_dirs s)) (y_sent s) (y_queue s) (y_workers s) rest (y_lost s) (y_back s)) as (tr & s' & C & RV & HO & Q & W & B).
    + pose proof (pick_length _ _ _ _ _ PK). lia.
    + reflexivity.
    + exists (YRecv d j :: tr), s'. split; [|split; [exact RV|split; [exact HO|auto]]]. eapply (calm_cons may dead s (YRecv d j)); [exact Logic.I| |exact C]. cbn [y_step]. rewrite D, PK, O. reflexivity.
  - exists [], s. split; [constructor|]. split; [reflexivity|]. split; [|auto]. intros r d dd I D O K. assert (F : existsb (waits s) (y_results s) = true); [|congruence]. apply existsb_exists. exists r. split; [exact I|].
    apply existsb_exists. exists dd. split; [exact (nth_error_In _ _ D)|]. rewrite O, K, Nat.eqb_refl. reflexivity.
Qed.

(** * C97 *)
(** From wherever the system is, if one worker goes on and executions can succeed, everything in the queue can be executed, everything that workers
    left unsettled too, and all results received. *)
Theorem C97_catch_up : forall may dead tr s, sys_reaches may tr s -> (forall x, exists y, may x (OcOk y) = true) -> some_able dead s ->
  exists tr' s', calmly may dead s tr' s' /\ worked_off dead s' /\ handed_out s' /\ dirs_kept s s'.
Proof.
  intros may dead tr s R TO AB. destruct (catch_up may dead TO s (sinv_run _ _ _ R) AB) as (t1 & s1 & C1 & _ & (Q & W & B)). destruct (hand_out may dead s1) as (t2 & s2 & C2 & _ & HO & E1 & E2 & E3).
  exists (t1 ++ t2), s2. pose proof (calmly_app _ _ _ _ _ _ _ C1 C2) as C. split; [exact C|]. split; [|split; [exact HO|exact (calmly_dirs _ _ _ _ _ C)]].
  unfold worked_off. rewrite E1, E2, E3. auto.
Qed.
(** Then a task of an open directive is answered, unless a worker settled it without publishing a result. *)
Theorem C97_answered : forall may dead tr s n d x dd, sys_reaches may tr s -> worked_off dead s -> handed_out s -> dispatched s n d x -> nth_error (y_dirs s) d = Some dd -> d_open dd = true ->
  (exists r, In r (d_got dd) /\ r_n r = n) \/
  (exists w ws i, nth_error (y_workers s) w = Some ws /\ took ws i n /\ settled i (w_log ws) = true /\ forall tm k v, ~ In (tm, AOk i k v) (w_log ws) /\ ~ In (tm, AErr i k v) (w_log ws)).
Proof.
  intros may dead tr s n d x dd R (QE & WI & ST) HO D DD O. pose proof (sinv_run _ _ _ R) as SI. destruct (winv2_run _ _ _ R) as [_ PL].
  destruct (PL n) as [I|(w & ws & i & W & TK & CB)]; [apply nth_error_Some; unfold dispatched in D; congruence|rewrite QE in I; destruct I|].
  destruct (si_work _ _ SI _ _ W) as (ident & wtr & WR). pose proof (winv_run _ _ _ WR) as [WB _ _]. assert (IL : i < w_taken ws) by (destruct TK as (u & t & I & _); apply (WB _ _ I eq_refl)).
  assert (SE : settled i (w_log ws) = true).
  { destruct (WI _ _ W) as [M|S]; [exact (wait_settled _ _ _ _ WR IL M)|]. destruct (ST _ _ _ _ W S TK) as [E|E]; [exact E|congruence]. }
  destruct (tally COk i (w_log ws) + tally CErr i (w_log ws)) as [|c] eqn:CN.
  - right. exists w, ws, i. split; [exact W|]. split; [exact TK|]. split; [exact SE|]. intros tm k v. unfold tally in CN. split; intros I.
    + assert (Z : cnt (fun p => is COk i (snd p)) (w_log ws) = 0) by lia. rewrite cnt_zero in Z. specialize (Z _ I). cbn in Z. rewrite Nat.eqb_refl in Z. discriminate Z.
    + assert (Z : cnt (fun p => is CErr i (snd p)) (w_log ws) = 0) by lia. rewrite cnt_zero in Z. specialize (Z _ I). cbn in Z. rewrite Nat.eqb_refl in Z. discriminate Z.
  - left. rewrite <- (si_wi _ _ SI _ _ i W) in CN. destruct (cnt_some _ (of_wi w i) (all_res s) ltac:(lia)) as (r & A & OW).
    unfold of_wi in OW. apply andb_prop in OW. destruct OW as [O1 O2]. apply Nat.eqb_eq in O1, O2. subst w i.
    destruct (res_origin _ _ _ SI A) as (d0 & x0 & dd0 & ws0 & o0 & S1 & S2 & K & W0 & T0 & _). assert (ws0 = ws) by congruence. subst ws0.
    destruct TK as (u & t & T1 & T2). destruct T0 as (u0 & t0 & T3 & T4). destruct (proj2 (C35_one_execution _ _ _ WR) _ _ _ _ _ T1 T3) as [-> _].
    assert (ER : r_n r = n) by congruence. unfold dispatched in *. rewrite ER, D in S1. injection S1 as <- <-. assert (dd0 = dd) by congruence. subst dd0. exists r. split; [|exact ER].
    apply in_all in A. destruct A as [A|[(d' & dd' & D' & A)|A]].
    + exfalso. exact (HO _ _ _ A DD O K).
    + assert (d' = d) by (apply (keys_inj _ _ _ _ _ _ SI D' S2); rewrite <- K; symmetry; exact (si_got _ _ SI _ _ _ D' A)). subst d'. congruence.
    + exfalso. destruct (si_lost _ _ SI _ A) as (d' & dd' & D' & O' & K'). assert (d' = d) by (apply (keys_inj _ _ _ _ _ _ SI D' S2); congruence). subst d'. congruence.
Qed.
