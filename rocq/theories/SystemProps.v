(** C40, C57, C58: several directives and workers on one runtime. *)
From Coq Require Import List Arith NArith Lia Bool.
From Verif Require Import Base BaseFacts RetryModel WorkerModel WorkerSpec WorkerProofs WorkerFacts WorkerInv WorkerProps SystemModel SystemSpec SystemProofs.
Import ListNotations.
Open Scope nat_scope.

Definition sys_reaches (may : nat -> outcome -> bool) (tr : list y_event) (s : sys) : Prop := run_from (y_step may) y_init tr = Some s.

Lemma outcome_none : forall i l tm o, outcome_of i l = None -> ~ In (tm, AFinish i o) l.
Proof.
  intros i l tm o. induction l as [|[u a] l IH]; [easy|]. cbn [outcome_of]. intros H [Q|Q].
  - injection Q as -> ->. rewrite Nat.eqb_refl in H. discriminate.
  - destruct a; try (now apply IH). destruct (Nat.eqb i0 i); [discriminate | now apply IH].
Qed.
Lemma keys_inj : forall may s d d' dd dd', sinv may s -> nth_error (y_dirs s) d = Some dd -> nth_error (y_dirs s) d' = Some dd' -> d_key dd = d_key dd' -> d = d'.
Proof.
  intros may s d d' dd dd' SI A B E. apply (proj1 (NoDup_nth_error (map d_key (y_dirs s))) (si_keys _ _ SI)).
  - rewrite map_length. apply nth_error_Some. congruence.
  - rewrite !nth_error_map, A, B. cbn. now rewrite E.
Qed.
(** Where a result comes from. *)
Lemma res_origin : forall may s r, sinv may s -> In r (all_res s) -> exists d x dd ws o, dispatched s (r_n r) d x /\ nth_error (y_dirs s) d = Some dd /\ r_key r = d_key dd /\
  nth_error (y_workers s) (r_w r) = Some ws /\ took ws (r_i r) (r_n r) /\ (exists tm, In (tm, AFinish (r_i r) o) (w_log ws)) /\ may x o = true /\ result_of o = Some (r_out r).
Proof.
  intros may s r SI I. destruct (si_res _ _ SI _ I) as (ws & W & B & tm & L). destruct (si_work _ _ SI _ _ W) as (ident & tr & R). destruct (C35_contents _ _ _ R) as [CO CE].
  assert (Q : exists t tt o, In (tt, ATake (r_i r) t) (w_log ws) /\ r_key r = t_key t /\ outcome_of (r_i r) (w_log ws) = Some o /\ result_of o = Some (r_out r)).
  { unfold act_of in L. destruct (r_out r) as [y|m].
    - destruct (CO _ _ _ _ L) as [(t & tt & T & K) O]. exists t, tt, (OcOk y). auto.
    - destruct (CE _ _ _ _ L) as [(t & tt & T & K) O]. exists t, tt, (OcErr FsTerminate m). auto. }
  destruct Q as (t & tt & o & T & K & O & RO). pose proof (body_reach _ _ _ _ _ _ R T) as B'. assert (EN : t_body t = r_n r) by congruence.
  destruct (si_take _ _ SI _ _ _ _ _ W T) as (d & x & dd & S1 & S2 & S3). apply outcome_in in O. destruct O as (tf & F).
  destruct (si_exec _ _ SI _ _ _ _ _ W F) as (n & d' & x' & B2 & S4 & M). assert (n = t_body t) by congruence. subst n. rewrite S1 in S4. injection S4 as <- <-.
  exists d, x, dd, ws, o. unfold dispatched. rewrite <- EN. repeat split; auto; try congruence; [exists tt, t; auto | eauto].
Qed.

(** ** C40 *)
(** What a directive receives is the result of executing a task it dispatched. *)
Theorem C40_own : forall may tr s d dd r, sys_reaches may tr s -> nth_error (y_dirs s) d = Some dd -> In r (d_got dd) ->
  exists n x w ws i o, dispatched s n d x /\ nth_error (y_workers s) w = Some ws /\ took ws i n /\ (exists tm, In (tm, AFinish i o) (w_log ws)) /\ may x o = true /\ result_of o = Some (r_out r).
Proof.
  intros may tr s d dd r R D I. pose proof (sinv_run _ _ _ R) as SI.
  assert (A : In r (all_res s)) by (apply in_all; right; left; eauto).
  destruct (res_origin _ _ _ SI A) as (d' & x & dd' & ws & o & S1 & S2 & K & W & T & F & M & RO).
  assert (d' = d) by (apply (keys_inj _ _ _ _ _ _ SI S2 D); rewrite <- K; exact (si_got _ _ SI _ _ _ D I)). subst d'.
  exists (r_n r), x, (r_w r), ws, (r_i r), o. auto 10.
Qed.
(** What a worker publishes goes to the directive that dispatched the task: it waits where only that directive receives, or that directive has it, or it
    was discarded with that directive's channel. *)
Theorem C40_goes_home : forall may tr s w ws i n d x a, sys_reaches may tr s -> nth_error (y_workers s) w = Some ws -> took ws i n -> dispatched s n d x ->
  (exists tm k y, In (tm, a) (w_log ws) /\ (a = AOk i k y \/ a = AErr i k y)) ->
  exists r dd, nth_error (y_dirs s) d = Some dd /\ r_w r = w /\ r_i r = i /\ r_n r = n /\ r_key r = d_key dd /\
    (In r (y_results s) \/ In r (d_got dd) \/ (In r (y_lost s) /\ d_open dd = false)) /\
    (forall d' dd', nth_error (y_dirs s) d' = Some dd' -> d_key dd' = r_key r -> d' = d).
Proof.
  intros may tr s w ws i n d x a R W T D (tm & k & y & I & Q). pose proof (sinv_run _ _ _ R) as SI. destruct (si_work _ _ SI _ _ W) as (ident & wtr & WR).
  assert (C : 1 <= cnt (of_wi w i) (all_res s)).
  { rewrite (si_wi _ _ SI _ _ i W). apply in_split in I. destruct I as (l1 & l2 & ->). rewrite !tally_app. unfold tally. rewrite !cnt_cons. destruct Q as [-> | ->]; cbn; rewrite Nat.eqb_refl; cbn; lia. }
  assert (X : exists r, In r (all_res s) /\ of_wi w i r = true).
  { unfold cnt in C. destruct (filter (of_wi w i) (all_res s)) as [|r l] eqn:F; [cbn in C; lia|]. exists r. apply filter_In. rewrite F. now left. }
  destruct X as (r & A & O). unfold of_wi in O. apply andb_prop in O. destruct O as [O1 O2]. apply Nat.eqb_eq in O1, O2. subst w i.
  destruct (res_origin _ _ _ SI A) as (d0 & x0 & dd & ws0 & o & S1 & S2 & K & W0 & T0 & _). assert (ws0 = ws) by congruence. subst ws0.
  destruct T as (u & t & T1 & T2). destruct T0 as (u0 & t0 & T3 & T4). destruct (proj2 (C35_one_execution _ _ _ WR) _ _ _ _ _ T1 T3) as [-> _].
  assert (EN : r_n r = n) by congruence. unfold dispatched in *. rewrite EN, D in S1. injection S1 as <- <-. exists r, dd. repeat split; auto.
  - apply in_all in A. destruct A as [A|[(d' & dd' & D' & A)|A]]; [auto| |].
    + assert (d' = d) by (apply (keys_inj _ _ _ _ _ _ SI D' S2); rewrite <- K; symmetry; exact (si_got _ _ SI _ _ _ D' A)). subst d'. assert (dd' = dd) by congruence. subst dd'. auto.
    + right; right. split; [exact A|]. destruct (si_lost _ _ SI _ A) as (d' & dd' & D' & O' & K'). assert (d' = d) by (apply (keys_inj _ _ _ _ _ _ SI D' S2); congruence). subst d'. congruence.
  - intros d' dd' D' E. apply (keys_inj _ _ _ _ _ _ SI D' S2). congruence.
Qed.
(** While the directive's lease is open it can receive every result of its tasks. *)
Theorem C40_available : forall may tr s j r rest d x dd, sys_reaches may tr s -> pick j (y_results s) = Some (r, rest) -> dispatched s (r_n r) d x -> nth_error (y_dirs s) d = Some dd ->
  d_open dd = true -> exists s', y_step may s (YRecv d j) = Some s' /\ nth_error (y_dirs s') d = Some (mkD (d_key dd) true (d_got dd ++ [r])).
Proof.
  intros may tr s j r rest d x dd R P S D O. pose proof (sinv_run _ _ _ R) as SI. assert (A : In r (all_res s)) by (apply in_all; left; eapply pick_in; eauto).
  destruct (res_origin _ _ _ SI A) as (d0 & x0 & dd0 & _ & _ & S1 & S2 & K & _). unfold dispatched in *. rewrite S in S1. injection S1 as <- <-. assert (dd0 = dd) by congruence. subst dd0.
  cbn [y_step]. rewrite D, P, O, K, Nat.eqb_refl. eexists. split; [reflexivity|]. cbn [y_dirs]. apply upd_nth_same. apply nth_error_Some. congruence.
Qed.
Print Assumptions C40_own.
Print Assumptions C40_goes_home.
Print Assumptions C40_available.

(** Two directives with three tasks, two workers; payload [x] gives [x + 100]. *)
Definition any (x : nat) (o : outcome) : bool := match o with OcOk y => Nat.eqb y (x + 100) | _ => true end.
Definition work (w : nat) (o : outcome) (l : list w_event) : list y_event := map (YWork w) ([WFlag; WCheck; WPoll true (Some o)] ++ l).
Definition two_directives : list y_event :=
  [YLease 7; YLease 8; YStart 20; YStart 21; YSend 0 1; YSend 1 2; YSend 0 3; YTake 0 2; YTake 1 1] ++
  work 1 (OcOk 102) (resolve 0) ++ work 0 (OcOk 103) (resolve 0) ++ [YTake 1 0] ++ work 1 (OcOk 101) (resolve 0) ++ [YRecv 0 1; YRecv 1 0; YRecv 0 0].
Definition shown (s : sys) : list (nat * list (nat * (nat + nat))) * list nat * list res :=
  (map (fun d => (d_key d, map (fun r => (r_n r, r_out r)) (d_got d))) (y_dirs s), y_queue s, y_results s).
Example C40_example : option_map shown (run_from (y_step any) y_init two_directives) = Some ([(7, [(2, inl 103); (0, inl 101)]); (8, [(1, inl 102)])], [], []).
Proof. vm_compute. reflexivity. Qed.
(** The second directive cannot receive the first one's result. *)
Example C40_example_other : run_from (y_step any) y_init (firstn (length two_directives - 3) two_directives ++ [YRecv 1 1]) = None.
Proof. vm_compute. reflexivity. Qed.
(** A released lease takes its undelivered results with it. *)
Example C40_example_release : option_map (fun s => (map d_open (y_dirs s), length (y_results s), map r_n (y_lost s)))
  (run_from (y_step any) y_init (firstn (length two_directives - 3) two_directives ++ [YRelease 0])) = Some ([false; true], 1, [2; 0]).
Proof. vm_compute. reflexivity. Qed.

(** ** C57 *)
(** A directive receives at most one result for a dispatch, plus one for every time the task came back to the queue. *)
Theorem C57_at_most_one : forall may tr s n d dd, sys_reaches may tr s -> nth_error (y_dirs s) d = Some dd -> received n dd <= 1 + returned n s.
Proof.
  intros may tr s n d dd R D. pose proof (sinv_run _ _ _ R) as SI. pose proof (si_pub _ _ SI n) as P. pose proof (si_count _ _ SI n) as C.
  assert (A : wsum (fun ws => pubs n (w_log ws)) (y_workers s) <= wsum (fun ws => takes n (w_log ws)) (y_workers s)).
  { assert (G : forall ws, In ws (y_workers s) -> pubs n (w_log ws) <= takes n (w_log ws)).
    { intros ws I. apply In_nth_error in I. destruct I as (w & W). destruct (si_work _ _ SI _ _ W) as (ident & wtr & WR). eapply pubs_le; eauto. }
    revert G. generalize (y_workers s). clear. intros l; induction l as [|ws l IH]; intros G; [reflexivity|].
    change (pubs n (w_log ws) + wsum (fun ws => pubs n (w_log ws)) l <= takes n (w_log ws) + wsum (fun ws => takes n (w_log ws)) l). pose proof (G ws (or_introl eq_refl)). specialize (IH (fun x I => G x (or_intror I))). lia. }
  assert (B : received n dd <= cnt (of_n n) (all_res s)).
  { unfold received, all_res. fold (of_n n). change (cnt (of_n n) (d_got dd) <= cnt (of_n n) (y_results s ++ flat_map d_got (y_dirs s) ++ y_lost s)). apply nth_error_split in D. destruct D as (l1 & l2 & -> & _).
    rewrite !cnt_app, flat_map_app. cbn. rewrite !cnt_app. lia. }
  change (returned n s) with (cnt (back_n n) (y_back s)). destruct (n <? length (y_sent s)); lia.
Qed.
(** The bound is reached: the worker published and crashed before it acked. *)
Definition published_twice : list y_event :=
  [YLease 7; YStart 20; YStart 21; YSend 0 1; YTake 0 0] ++ work 0 (OcOk 101) [WDeclare true; WEffect SResult] ++ [YBack 0 0; YTake 1 0] ++ work 1 (OcOk 101) (resolve 0) ++ [YRecv 0 0; YRecv 0 0].
Theorem C57_at_least_once : exists tr s dd, sys_reaches any tr s /\ nth_error (y_dirs s) 0 = Some dd /\ received 0 dd = 2 /\ returned 0 s = 1.
Proof. exists published_twice. eexists. eexists. split; [vm_compute; reflexivity|]. repeat split. Qed.
Print Assumptions C57_at_most_one.
Print Assumptions C57_at_least_once.

(** ** C58 *)
Lemma wsum_pos : forall f l, 0 < wsum f l -> exists w ws, nth_error l w = Some ws /\ 0 < f ws.
Proof.
  intros f l. induction l as [|ws l IH]; unfold wsum; cbn; [lia|]. intros H. destruct (f ws) as [|m] eqn:E.
  - destruct (IH H) as (w & ws' & A & B). exists (S w), ws'. auto.
  - exists 0, ws. split; [reflexivity | lia].
Qed.
Lemma takes_took : forall n ws, 0 < takes n (w_log ws) -> exists i, took ws i n.
Proof.
  intros n ws H. unfold takes, cnt in H. destruct (filter (take_of n) (w_log ws)) as [|[tm a] l] eqn:F; [cbn in H; lia|].
  assert (I : In (tm, a) (filter (take_of n) (w_log ws))) by (rewrite F; now left). apply filter_In in I. destruct I as [I Q]. unfold take_of in Q. cbn in Q. destruct a; try discriminate.
  apply Nat.eqb_eq in Q. exists i, tm, t. auto.
Qed.
(** A dispatch that is no longer queued and that workers are done with has been answered, unless it was not executed, or it failed and failures are ignored. *)
Theorem C58_answered : forall may tr s n d x dd, sys_reaches may tr s -> dispatched s n d x -> nth_error (y_dirs s) d = Some dd -> d_open dd = true ->
  ~ In n (y_queue s) -> (forall r, In r (y_results s) -> r_n r <> n) -> (forall w ws i, nth_error (y_workers s) w = Some ws -> took ws i n -> ended ws i) ->
  (exists r, In r (d_got dd) /\ r_n r = n) \/
  (exists w ws i, nth_error (y_workers s) w = Some ws /\ took ws i n /\
     ((forall tm o, ~ In (tm, AFinish i o) (w_log ws)) \/ exists tm o, In (tm, AFinish i o) (w_log ws) /\ result_of o = None)).
Proof.
  intros may tr s n d x dd R D DD O Q P E. pose proof (sinv_run _ _ _ R) as SI. pose proof (si_count _ _ SI n) as C.
  assert (L : n < length (y_sent s)) by (apply nth_error_Some; unfold dispatched in D; congruence). apply Nat.ltb_lt in L. rewrite L in C.
  assert (Z : cnt (same n) (y_queue s) = 0). { apply cnt_zero. intros m I. unfold same. apply Nat.eqb_neq. intros ->. contradiction. }
  destruct (wsum_pos (fun ws => takes n (w_log ws)) (y_workers s) ltac:(lia)) as (w & ws & W & T). cbn beta in T. destruct (takes_took _ _ T) as (i & TK).
  destruct (si_work _ _ SI _ _ W) as (ident & wtr & WR). specialize (E _ _ _ W TK).
  destruct (C35_answers _ _ _ WR) as (_ & AN & _). pose proof (winv_run _ _ _ WR) as [WB _ _].
  assert (IL : i < w_taken ws) by (destruct TK as (u & t & I & _); apply (WB _ _ I eq_refl)).
  assert (EN : S i < w_taken ws \/ (S i = w_taken ws /\ w_main ws = WpWait)) by (destruct E as [E|E]; [auto|]; destruct (Nat.eq_dec (S i) (w_taken ws)); [auto | left; lia]).
  destruct (outcome_of i (w_log ws)) as [o|] eqn:OC.
  - pose proof (outcome_in _ _ _ OC) as (tf & F). destruct (result_of o) as [v|] eqn:RO; [left | right; exists w, ws, i; repeat split; auto; right; eauto].
    assert (CN : tally COk i (w_log ws) + tally CErr i (w_log ws) = 1).
    { rewrite !AN by exact EN. rewrite OC. destruct o as [y|[|] m|]; cbn in *; try discriminate; reflexivity. }
    rewrite <- (si_wi _ _ SI _ _ i W) in CN.
    assert (X : exists r, In r (all_res s) /\ of_wi w i r = true).
    { unfold cnt in CN. destruct (filter (of_wi w i) (all_res s)) as [|r l] eqn:FL; [cbn in CN; lia|]. exists r. apply filter_In. rewrite FL. now left. }
    destruct X as (r & A & OW). unfold of_wi in OW. apply andb_prop in OW. destruct OW as [O1 O2]. apply Nat.eqb_eq in O1, O2. subst w i.
    destruct (res_origin _ _ _ SI A) as (d0 & x0 & dd0 & ws0 & o0 & S1 & S2 & K & W0 & T0 & _). assert (ws0 = ws) by congruence. subst ws0.
    destruct TK as (u & t & T1 & T2). destruct T0 as (u0 & t0 & T3 & T4). destruct (proj2 (C35_one_execution _ _ _ WR) _ _ _ _ _ T1 T3) as [-> _].
    assert (ER : r_n r = n) by congruence. unfold dispatched in *. rewrite ER, D in S1. injection S1 as <- <-. assert (dd0 = dd) by congruence. subst dd0. exists r. split; [|exact ER].
    apply in_all in A. destruct A as [A|[(d' & dd' & D' & A)|A]].
    + exfalso. exact (P _ A ER).
    + assert (d' = d) by (apply (keys_inj _ _ _ _ _ _ SI D' S2); rewrite <- K; symmetry; exact (si_got _ _ SI _ _ _ D' A)). subst d'. congruence.
    + exfalso. destruct (si_lost _ _ SI _ A) as (d' & dd' & D' & O' & K'). assert (d' = d) by (apply (keys_inj _ _ _ _ _ _ SI D' S2); congruence). subst d'. congruence.
  - right. exists w, ws, i. repeat split; auto. left. intros tm o. now apply outcome_none.
Qed.
(** So a task that was executed each time it was taken, that did not come back, and whose outcome demands a result, is answered exactly once. *)
Theorem C58_exactly_one : forall may tr s n d x dd, sys_reaches may tr s -> dispatched s n d x -> nth_error (y_dirs s) d = Some dd -> d_open dd = true ->
  ~ In n (y_queue s) -> (forall r, In r (y_results s) -> r_n r <> n) -> returned n s = 0 ->
  (forall w ws i, nth_error (y_workers s) w = Some ws -> took ws i n -> ended ws i /\ exists tm o, In (tm, AFinish i o) (w_log ws)) ->
  (forall o, may x o = true -> result_of o <> None) -> received n dd = 1.
Proof.
  intros may tr s n d x dd R D DD O Q P B E N. pose proof (C57_at_most_one _ _ _ n _ _ R DD) as U. rewrite B in U.
  destruct (C58_answered _ _ _ _ _ _ _ R D DD O Q P (fun w ws i W T => proj1 (E w ws i W T))) as [(r & I & EN)|(w & ws & i & W & T & [X|(tm & o & F & RO)])].
  - assert (1 <= received n dd); [|lia]. unfold received. destruct (filter _ (d_got dd)) as [|r0 l] eqn:FL; [|cbn; lia].
    exfalso. assert (In r (filter (fun r => Nat.eqb (r_n r) n) (d_got dd))) as I'; [|rewrite FL in I'; exact I']. apply filter_In. split; [exact I | now apply Nat.eqb_eq].
  - destruct (E _ _ _ W T) as [_ (tm & o & F)]. exfalso. exact (X _ _ F).
  - exfalso. pose proof (sinv_run _ _ _ R) as SI. destruct (si_exec _ _ SI _ _ _ _ _ W F) as (m & d' & x' & B' & S' & M). destruct (si_work _ _ SI _ _ W) as (ident & wtr & WR).
    destruct T as (u & t & T1 & T2). pose proof (body_reach _ _ _ _ _ _ WR T1) as B2. assert (m = n) by congruence. subst m. unfold dispatched in D. rewrite D in S'. injection S' as <- <-. exact (N _ M RO).
Qed.
Print Assumptions C58_answered.
Print Assumptions C58_exactly_one.
(** The hypotheses hold in the run above... *)
Definition always_ok (x : nat) (o : outcome) : bool := match o with OcOk y => Nat.eqb y (x + 100) | _ => false end.
Example C58_example : exists s dd, sys_reaches always_ok two_directives s /\ dispatched s 2 0 3 /\ nth_error (y_dirs s) 0 = Some dd /\ d_open dd = true /\ ~ In 2 (y_queue s) /\
  (forall r, In r (y_results s) -> r_n r <> 2) /\ returned 2 s = 0 /\ (forall w ws i, nth_error (y_workers s) w = Some ws -> took ws i 2 -> ended ws i /\ exists tm o, In (tm, AFinish i o) (w_log ws)) /\ received 2 dd = 1.
Proof.
  eexists. eexists. split; [vm_compute; reflexivity|]. split; [reflexivity|]. split; [reflexivity|]. split; [reflexivity|]. split; [easy|]. split; [easy|]. split; [reflexivity|]. split; [|reflexivity].
  intros w ws i W (tm & t & I & E). destruct w as [|[|w]]; cbn [nth_error y_workers] in W.
  - injection W as <-. split; [right; reflexivity|]. cbn [w_log] in I |- *. cbn [In] in I.
    repeat (destruct I as [I|I]; [try (discriminate I); injection I as <- <- <-; exists 0%N, (OcOk 103); cbn; tauto|]). destruct I.
  - exfalso. injection W as <-. cbn [w_log In] in I. repeat (destruct I as [I|I]; [try (discriminate I); injection I as <- <- <-; discriminate E|]). destruct I.
  - exfalso. destruct w; discriminate W.
Qed.
(** ... and a directive whose task failed and was ignored has no answer, with nothing left to do. *)
Theorem C58_unanswered : exists tr s dd, sys_reaches any tr s /\ dispatched s 0 0 1 /\ nth_error (y_dirs s) 0 = Some dd /\ d_open dd = true /\ y_queue s = [] /\ y_results s = [] /\
  (forall ws, In ws (y_workers s) -> w_main ws = WpWait) /\ d_got dd = [].
Proof.
  exists ([YLease 7; YStart 20; YSend 0 1; YTake 0 0] ++ work 0 (OcErr FsIgnore 3) [WEffect SAck; WReturn SAck true; WJoin]). eexists. eexists. split; [vm_compute; reflexivity|].
  split; [reflexivity|]. split; [reflexivity|]. split; [reflexivity|]. split; [reflexivity|]. split; [reflexivity|]. split; [|reflexivity]. intros ws [<-|[]]. reflexivity.
Qed.
Print Assumptions C58_unanswered.
