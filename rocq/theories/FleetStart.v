(** C62, continued: when exactly a worker that starts can be stopped by what was published before. *)
From Coq Require Import List Arith NArith Lia Bool Permutation.
From Verif Require Import Base BaseFacts RetryModel WorkerModel WorkerSpec WorkerProofs WorkerFacts WorkerInv WorkerProps SystemModel SystemProofs FleetModel FleetSpec FleetProofs FleetProps.
Import ListNotations.
Open Scope nat_scope.

(** Where worker [w] can get, or got, a command from. *)
Definition places (s : fleet) (w x : nat) : Prop :=
  In x (fl_queue s) \/ exists m, nth_error (fl_mem s) w = Some m /\ (In x (received m) \/ In x (m_box m)).
Lemma publish_places : forall kind s k w x, places (publish kind s k) w x -> x = k \/ places s w x.
Proof.
  intros kind s k w x P. unfold publish in P. destruct kind; [|destruct (fl_mem s) as [|m0 ms] eqn:M].
  - destruct P as [P|P]; [|right; now right]. cbn in P. apply in_app_iff in P. destruct P as [P|[<-|[]]]; [right; now left|now left].
  - destruct P as [P|(m & N & _)]; [|destruct w; discriminate N]. cbn in P. apply in_app_iff in P. destruct P as [P|[<-|[]]]; [right; now left|now left].
  - destruct P as [P|(m & N & P)]; [right; now left|]. cbn [fl_mem] in N. rewrite nth_error_map in N. destruct (nth_error (m0 :: ms) w) as [m1|] eqn:N1; [|discriminate N]. injection N as <-. cbn in P.
    destruct P as [P|P]; [right; right; exists m1; rewrite M; auto|]. apply in_app_iff in P. destruct P as [P|[<-|[]]]; [right; right; exists m1; rewrite M; auto|now left].
Qed.
Lemma publish_n_places : forall kind n s k w x, places (publish_n kind s n k) w x -> (x = k /\ 0 < n) \/ places s w x.
Proof.
  intros kind n. induction n as [|n IH]; intros s k w x P; [now right|]. cbn [publish_n] in P. destruct (IH _ _ _ _ P) as [[-> _]|Q]; [left; split; [reflexivity|lia]|]. destruct (publish_places _ _ _ _ _ Q) as [->|R]; [left; split; [reflexivity|lia]|now right].
Qed.
Lemma upd_places : forall s w' m m' q w x, nth_error (fl_mem s) w' = Some m -> incl (received m') (received m) -> incl (m_box m') (m_box m) -> incl q (fl_queue s) ->
  places (mkFl (upd w' m' (fl_mem s)) q (fl_pub s)) w x -> places s w x.
Proof.
  intros s w' m m' q w x N R B Q [P|(u & U & P)]; [left; apply Q, P|]. cbn [fl_mem] in U. apply upd_nth in U. right. destruct U as [[<- ->]|[_ U]]; [exists m; split; [exact N|]; destruct P as [P|P]; [left; apply R, P|right; apply B, P]|exists u; auto].
Qed.
Lemma step_places : forall kind s e s' w x, f_step kind s e = Some s' -> w < length (fl_mem s) -> places s' w x ->
  places s w x \/ exists l, fl_pub s' = fl_pub s ++ l /\ In x l.
Proof.
  intros kind s e s' w x H L P. destruct e as [ident|w' we|w'|k|w'].
  - left. cbn in H. injection H as <-. destruct P as [P|(m & N & P)].
    + left. destruct kind; [exact P|destruct P].
    + right. exists m. split; [|exact P]. destruct kind; cbn [fl_mem] in N; rewrite nth_error_app1 in N by exact L; exact N.
  - assert (NC : forall k, we <> WCommand k) by (intros k ->; discriminate H).
    assert (H' : match nth_error (fl_mem s) w' with Some m => if m_up m then match w_step (m_w m) we with
       | Some ws => Some (publish_n kind (mkFl (upd w' (set_w m ws) (fl_mem s)) (fl_queue s) (fl_pub s)) (aborts (new_acts (m_w m) ws)) abort_all) | None => None end else None | None => None end = Some s')
      by (destruct we; try exact H; exfalso; eapply NC; reflexivity).
    destruct (nth_error (fl_mem s) w') as [m|] eqn:N; [|discriminate H']. destruct (m_up m); [|discriminate H']. destruct (w_step (m_w m) we) as [ws|] eqn:S; [|discriminate H']. injection H' as <-.
    destruct (publish_n_places _ _ _ _ _ _ P) as [[-> Z]|Q].
    + right. rewrite publish_n_pub. eexists. split; [reflexivity|]. destruct (aborts (new_acts (m_w m) ws)); [lia|now left].
    + left. apply (upd_places s w' m (set_w m ws) (fl_queue s) w x N); [|intros z Z; exact Z|intros z Z; exact Z|exact Q]. intros z Z. unfold received in *. cbn [set_w m_w] in Z. now rewrite (step_commands _ _ _ S NC) in Z.
  - left. cbn [f_step] in H. destruct (nth_error (fl_mem s) w') as [m|] eqn:N; [|discriminate H]. destruct (m_up m); [|discriminate H].
    destruct kind.
    + destruct (fl_queue s) as [|k q] eqn:Q; [try discriminate H; destruct (m_box m); discriminate H|]. destruct (w_step (m_w m) (WCommand k)) as [ws|] eqn:S; [|discriminate H]. injection H as <-.
      destruct P as [P|(u & U & P)]; [left; rewrite Q; now right|]. cbn [fl_mem] in U. apply upd_nth in U. destruct U as [[<- ->]|[_ U]]; [|right; eauto].
      unfold received in P. cbn [set_w m_w m_box] in P. rewrite (command_step _ _ _ S) in P. rewrite in_app_iff in P. destruct P as [[P|[<-|[]]]|P]; [right; eauto|left; rewrite Q; now left|right; eauto].
    + destruct (m_box m) as [|k b] eqn:Q; [try discriminate H; destruct (fl_queue s); discriminate H|].
      destruct (w_step (m_w m) (WCommand k)) as [ws|] eqn:S; [|try discriminate H; destruct (fl_queue s); discriminate H].
      assert (E : fl_queue s' = fl_queue s /\ exists up, fl_mem s' = upd w' (mkMem ws up (m_since m) b) (fl_mem s)) by (destruct (fl_queue s); cbn [option_map] in H; injection H as <-; cbn; eauto). destruct E as [E1 (up & E2)].
      destruct P as [P|(u & U & P)]; [left; now rewrite <- E1|]. rewrite E2 in U. apply upd_nth in U. destruct U as [[<- ->]|[_ U]]; [|right; eauto]. right. exists m. split; [exact N|]. unfold received in *. cbn [m_w m_box] in P. rewrite (command_step _ _ _ S), in_app_iff in P. rewrite Q.
      destruct P as [[P|[<-|[]]]|P]; [now left|right; now left|right; now right].
  - cbn in H. injection H as <-. destruct (publish_places _ _ _ _ _ P) as [->|Q]; [right; exists [k]; split; [apply publish_pub|now left]|now left].
  - left. cbn in H. destruct (nth_error (fl_mem s) w') as [m|] eqn:N; [|discriminate H]. injection H as <-. eapply (upd_places s w' m _ (fl_queue s) w x N); [| | |exact P]; intros z Z; exact Z.
Qed.
Lemma pub_grows : forall kind tr s s', run_from (f_step kind) s tr = Some s' -> exists l, fl_pub s' = fl_pub s ++ l.
Proof.
  intros kind tr. induction tr as [|e tr IH]; intros s s' R; cbn [run_from] in R; [injection R as <-; exists []; now rewrite app_nil_r|]. destruct (f_step kind s e) as [a|] eqn:S; [|discriminate R]. destruct (IH _ _ R) as (l & E).
  assert (G : exists l0, fl_pub a = fl_pub s ++ l0).
  { destruct e as [ident|w' we|w'|k|w']; cbn [f_step] in S.
    - injection S as <-. exists []. rewrite app_nil_r. now destruct kind.
    - destruct we; try discriminate S; (destruct (nth_error (fl_mem s) w') as [m|]; [|discriminate S]); (destruct (m_up m); [|discriminate S]); match type of S with context [w_step ?a ?b] => destruct (w_step a b) as [ws|]; [|discriminate S] end; injection S as <-; rewrite publish_n_pub; eauto.
    - destruct (nth_error (fl_mem s) w') as [m|]; [|discriminate S]. destruct (m_up m); [|discriminate S]. exists []. rewrite app_nil_r. destruct kind, (fl_queue s), (m_box m); try discriminate S; match type of S with context [w_step ?a ?b] => destruct (w_step a b) as [ws|]; [|discriminate S] end; injection S as <-; reflexivity.
    - injection S as <-. exists [k]. apply publish_pub.
    - destruct (nth_error (fl_mem s) w') as [m|]; [|discriminate S]. injection S as <-. exists []. now rewrite app_nil_r. }
  destruct G as (l0 & E0). exists (l0 ++ l). now rewrite E, E0, app_assoc.
Qed.
Lemma mem_grows : forall kind s e s', f_step kind s e = Some s' -> length (fl_mem s) <= length (fl_mem s').
Proof.
  intros kind s e s' S. rewrite <- (map_length m_w (fl_mem s)), <- (map_length m_w (fl_mem s')). destruct (step_ws _ _ _ _ S) as [->|[(i & _ & ->)|(w & m & we & ws' & W & _ & ->)]]; [lia|rewrite app_length; lia|rewrite upd_length; lia].
Qed.
(** With nothing published meanwhile, all that the worker can have got was there. *)
Lemma run_places : forall kind tr s s' w x, run_from (f_step kind) s tr = Some s' -> w < length (fl_mem s) -> fl_pub s' = fl_pub s -> places s' w x -> places s w x.
Proof.
  intros kind tr. induction tr as [|e tr IH]; intros s s' w x R L E P; cbn [run_from] in R; [injection R as <-; exact P|]. destruct (f_step kind s e) as [a|] eqn:S; [|discriminate R].
  destruct (pub_grows kind tr a s' R) as (l & E1). destruct (pub_grows kind [e] s a) as (l0 & E0); [cbn [run_from]; now rewrite S|].
  assert (Z : l0 = [] /\ l = []). { rewrite E, E0, <- app_assoc in E1. apply (f_equal (@length _)) in E1. rewrite !app_length in E1. split; [destruct l0|destruct l]; auto; cbn in E1; lia. } destruct Z as [-> ->]. rewrite app_nil_r in *.
  assert (Q : places a w x) by (apply (IH a s' w x R); [pose proof (mem_grows _ _ _ _ S); lia|congruence|exact P]).
  destruct (step_places _ _ _ _ _ _ S L Q) as [Y|(l1 & E2 & I)]; [exact Y|]. exfalso. rewrite E0 in E2. apply (f_equal (@length _)) in E2. rewrite app_length in E2. destruct l1; [destruct I|cbn in E2; lia].
Qed.

Definition ready (ws : wstate) : Prop := w_lis ws = LisIdle /\ w_main ws = WpWait /\ w_flag ws = false /\ marked abort_all (w_jobs ws) = false.
(** What the next commands of this worker are. *)
Definition src (kind : transport) (s : fleet) (m : member) : list nat := match kind with Shared => fl_queue s | Copies => m_box m end.
Lemma do_command : forall kind s w m k q ws, nth_error (fl_mem s) w = Some m -> m_up m = true -> src kind s m = k :: q -> w_step (m_w m) (WCommand k) = Some ws ->
  exists s1 m1, f_step kind s (FCommand w) = Some s1 /\ nth_error (fl_mem s1) w = Some m1 /\ m_w m1 = ws /\ m_up m1 = true /\ src kind s1 m1 = q /\ fl_pub s1 = fl_pub s.
Proof.
  intros kind s w m k q ws N U E S. assert (L : w < length (fl_mem s)) by (apply nth_error_Some; congruence). destruct kind; cbn [src] in E; cbn [f_step]; rewrite N, U, E; [|destruct (fl_queue s) eqn:Q]; rewrite S; cbn [option_map]; (eexists _, _; split; [reflexivity|]); cbn [fl_mem]; (split; [rewrite upd_nth_same by exact L; reflexivity|]); cbn; auto.
Qed.
Lemma do_work : forall kind s w m e ws, nth_error (fl_mem s) w = Some m -> m_up m = true -> w_step (m_w m) e = Some ws -> (forall k, e <> WCommand k) -> aborts (new_acts (m_w m) ws) = 0 ->
  exists s1 m1, f_step kind s (FWork w e) = Some s1 /\ nth_error (fl_mem s1) w = Some m1 /\ m_w m1 = ws /\ m_up m1 = true /\ src kind s1 m1 = src kind s m /\ fl_pub s1 = fl_pub s.
Proof.
  intros kind s w m e ws N U S NC A. assert (L : w < length (fl_mem s)) by (apply nth_error_Some; congruence). exists (mkFl (upd w (set_w m ws) (fl_mem s)) (fl_queue s) (fl_pub s)), (set_w m ws). split.
  - destruct e; try (exfalso; eapply NC; reflexivity); cbn [f_step]; rewrite N, U, S, A; reflexivity.
  - cbn [fl_mem]. split; [now rewrite upd_nth_same by exact L|]. cbn [set_w m_w m_up]. split; [reflexivity|]. split; [exact U|]. split; [destruct kind; reflexivity|reflexivity].
Qed.
Lemma unmarked : forall jobs, marked (S (list_max (map fst jobs))) jobs = false.
Proof.
  intros jobs. unfold marked. destruct (existsb _ jobs) eqn:E; [|reflexivity]. apply existsb_exists in E. destruct E as (p & I & E). apply Nat.eqb_eq in E. exfalso.
  assert (F : list_max (map fst jobs) <= list_max (map fst jobs)) by lia. apply list_max_le in F. rewrite Forall_forall in F. specialize (F (fst p) (in_map fst _ _ I)). lia.
Qed.
Lemma listen_one : forall kind s w m k q, nth_error (fl_mem s) w = Some m -> m_up m = true -> ready (m_w m) -> src kind s m = k :: q ->
  exists tr s1 m1, run_from (f_step kind) s tr = Some s1 /\ nth_error (fl_mem s1) w = Some m1 /\ m_up m1 = true /\ src kind s1 m1 = q /\ fl_pub s1 = fl_pub s /\
    w_lis (m_w m1) = LisIdle /\ w_main (m_w m1) = WpWait /\ w_flag (m_w m1) = false /\ (k <> abort_all -> marked abort_all (w_jobs (m_w m1)) = false) /\
    (k = abort_all -> w_ver (m_w m1) <> 0 /\ w_val (m_w m1) = abort_all).
Proof.
  intros kind s w m k q N U (L & M & F & B) E. destruct (marked k (w_jobs (m_w m))) eqn:MK.
  - assert (S : w_step (m_w m) (WCommand k) = Some (log (m_w m) (ACommand k))) by (cbn [w_step]; rewrite M, L; unfold mark; cbn [log w_jobs]; now rewrite MK).
    destruct (do_command kind s w m k q _ N U E S) as (s1 & m1 & F1 & N1 & W1 & U1 & E1 & P1). exists [FCommand w], s1, m1. split; [cbn [run_from]; now rewrite F1|]. rewrite W1. cbn [log w_lis w_main w_flag w_jobs w_ver w_val].
    repeat (split; [assumption|]). split; [intros _; exact B|]. intros ->. congruence.
  - assert (S : exists ws, w_step (m_w m) (WCommand k) = Some ws /\ w_lis ws = LisSend k /\ w_main ws = WpWait /\ w_flag ws = false /\ w_jobs ws = (k, w_now (m_w m)) :: w_jobs (m_w m))
      by (cbn [w_step]; rewrite M, L; unfold mark; cbn [log w_jobs]; rewrite MK; eexists; split; [reflexivity|]; cbn; auto).
    destruct S as (ws & S & Lw & Mw & Fw & Jw). destruct (do_command kind s w m k q _ N U E S) as (s1 & m1 & F1 & N1 & W1 & U1 & E1 & P1).
    assert (S2 : exists ws2, w_step (m_w m1) WSend = Some ws2 /\ w_log ws2 = [] ++ w_log (m_w m1) /\ w_lis ws2 = LisIdle /\ w_main ws2 = WpWait /\ w_flag ws2 = false /\ w_jobs ws2 = (k, w_now (m_w m)) :: w_jobs (m_w m) /\ w_ver ws2 <> 0 /\ w_val ws2 = k)
      by (rewrite W1; cbn [w_step]; rewrite Mw, Lw; eexists; split; [reflexivity|]; cbn; auto 8).
    destruct S2 as (ws2 & S2 & G2 & L2 & M2 & F2 & J2 & V2 & X2).
    destruct (do_work kind s1 w m1 WSend ws2 N1 U1 S2) as (s2 & m2 & Q2 & N2 & W2 & U2 & E2 & P2); [discriminate|now rewrite (new_acts_eq _ _ _ G2)|].
    exists [FCommand w; FWork w WSend], s2, m2. split; [cbn [run_from]; now rewrite F1, Q2|]. rewrite W2. repeat (split; [congruence|]). split; [|intros ->; auto].
    intros NK. rewrite J2. unfold marked. cbn [existsb fst]. apply Nat.eqb_neq in NK. rewrite NK. exact B.
Qed.
Lemma cut : forall kind s w m, nth_error (fl_mem s) w = Some m -> m_up m = true -> w_main (m_w m) = WpWait -> w_flag (m_w m) = false -> w_ver (m_w m) <> 0 -> w_val (m_w m) = abort_all ->
  exists tr s1 m1, run_from (f_step kind) s tr = Some s1 /\ nth_error (fl_mem s1) w = Some m1 /\ fl_pub s1 = fl_pub s /\ signalled m1 = true.
Proof.
  intros kind s w m N U M F V X. set (t := mkT (S (list_max (map fst (w_jobs (m_w m))))) 0).
  assert (S1 : exists ws, w_step (m_w m) (WTake t) = Some ws /\ w_log ws = [(w_now (m_w m), ATake (w_taken (m_w m)) t)] ++ w_log (m_w m) /\ w_main ws = WpFlag t /\ w_flag ws = false /\ w_jobs ws = w_jobs (m_w m) /\ w_ver ws <> 0 /\ w_val ws = abort_all)
    by (cbn [w_step]; rewrite M; eexists; split; [reflexivity|]; cbn; auto 8).
  destruct S1 as (w1 & S1 & G1 & M1 & F1 & J1 & V1 & X1). destruct (do_work kind s w m _ _ N U S1) as (s1 & m1 & Q1 & N1 & W1 & U1 & _ & P1); [discriminate|now rewrite (new_acts_eq _ _ _ G1)|].
  assert (S2 : exists ws, w_step (m_w m1) WFlag = Some ws /\ w_log ws = [] ++ w_log (m_w m1) /\ w_main ws = WpCheck t /\ w_jobs ws = w_jobs (m_w m) /\ w_ver ws <> 0 /\ w_val ws = abort_all)
    by (rewrite W1; cbn [w_step]; rewrite M1, F1; eexists; split; [reflexivity|]; cbn; auto 8).
  destruct S2 as (w2 & S2 & G2 & M2 & J2 & V2 & X2). destruct (do_work kind s1 w m1 _ _ N1 U1 S2) as (s2 & m2 & Q2 & N2 & W2 & U2 & _ & P2); [discriminate|now rewrite (new_acts_eq _ _ _ G2)|].
  assert (S3 : exists ws, w_step (m_w m2) WCheck = Some ws /\ w_log ws = [] ++ w_log (m_w m2) /\ w_main ws = WpRun t 0 false /\ w_ver ws <> 0 /\ w_val ws = abort_all)
    by (rewrite W2; cbn [w_step]; rewrite M2, J2; unfold t; cbn [t_key]; rewrite unmarked; eexists; split; [reflexivity|]; cbn; auto 8).
  destruct S3 as (w3 & S3 & G3 & M3 & V3 & X3). destruct (do_work kind s2 w m2 _ _ N2 U2 S3) as (s3 & m3 & Q3 & N3 & W3 & U3 & _ & P3); [discriminate|now rewrite (new_acts_eq _ _ _ G3)|].
  assert (S4 : exists ws, w_step (m_w m3) (WPoll true None) = Some ws /\ w_log ws = [(w_now w3, ASignal (cur w3))] ++ w_log (m_w m3)).
  { rewrite W3. cbn [w_step]. rewrite M3. eexists. split; [reflexivity|]. unfold poll_select, poll_signal. rewrite X3. destruct (w_ver w3); [congruence|]. reflexivity. }
  destruct S4 as (w4 & S4 & G4). destruct (do_work kind s3 w m3 _ _ N3 U3 S4) as (s4 & m4 & Q4 & N4 & W4 & U4 & _ & P4); [discriminate|now rewrite (new_acts_eq _ _ _ G4)|].
  exists [FWork w (WTake t); FWork w WFlag; FWork w WCheck; FWork w (WPoll true None)], s4, m4. split; [cbn [run_from]; now rewrite Q1, Q2, Q3, Q4|]. split; [exact N4|]. split; [congruence|]. unfold signalled. now rewrite W4, G4.
Qed.
Lemma hear_all : forall kind pre q s w m, nth_error (fl_mem s) w = Some m -> m_up m = true -> ready (m_w m) -> src kind s m = pre ++ abort_all :: q -> ~ In abort_all pre ->
  exists tr s1 m1, run_from (f_step kind) s tr = Some s1 /\ nth_error (fl_mem s1) w = Some m1 /\ fl_pub s1 = fl_pub s /\ signalled m1 = true.
Proof.
  intros kind pre q. induction pre as [|k pre IH]; intros s w m N U RD E NI; cbn [app] in E; destruct (listen_one kind s w m _ _ N U RD E) as (t1 & s1 & m1 & R1 & N1 & U1 & E1 & P1 & L1 & M1 & F1 & B1 & K1).
  - destruct (K1 eq_refl) as [V1 X1]. destruct (cut kind s1 w m1 N1 U1 M1 F1 V1 X1) as (t2 & s2 & m2 & R2 & N2 & P2 & G2). exists (t1 ++ t2), s2, m2. split; [apply run_from_app; eauto|]. split; [exact N2|]. split; [congruence|exact G2].
  - destruct (IH s1 w m1 N1 U1) as (t2 & s2 & m2 & R2 & N2 & P2 & G2); [repeat split; auto; apply B1; intros ->; apply NI; now left|exact E1|intros I; apply NI; now right|].
    exists (t1 ++ t2), s2, m2. split; [apply run_from_app; eauto|]. split; [exact N2|]. split; [congruence|exact G2].
Qed.
Lemma first_in : forall k (l : list nat), In k l -> exists a b, l = a ++ k :: b /\ ~ In k a.
Proof.
  intros k l. induction l as [|x l IH]; intros I; [destruct I|]. destruct (Nat.eq_dec x k) as [->|NE]; [exists [], l; split; [reflexivity|intros []]|]. destruct I as [->|I]; [contradiction|]. destruct (IH I) as (a & b & -> & NA). exists (x :: a), b. split; [reflexivity|]. intros [->|J]; [contradiction|exact (NA J)].
Qed.

(** A worker that starts can be stopped without any further abort-all exactly if one is waiting in the queue (AMQP) or the history (in memory). *)
Theorem C62_iff_partial : forall kind tr1 s1 ident, f_run kind tr1 = Some s1 ->
  ((exists tr2 s m, run_from (f_step kind) s1 (FStart ident :: tr2) = Some s /\ fl_pub s = fl_pub s1 /\ nth_error (fl_mem s) (length (fl_mem s1)) = Some m /\ signalled m = true)
   <-> In abort_all (fl_queue s1)).
Proof.
  intros kind tr1 s1 ident H1. split.
  - intros (tr2 & s & m & H2 & P & NM & SG). cbn [run_from] in H2. destruct (f_step kind s1 (FStart ident)) as [a|] eqn:S; [|discriminate H2].
    assert (RR : f_run kind (tr1 ++ FStart ident :: tr2) = Some s) by (apply run_from_app; exists s1; split; [exact H1|]; cbn [run_from]; now rewrite S).
    destruct (all_reach_run _ _ _ RR (m_w m)) as (id' & wtr & RW); [apply in_map; eapply nth_error_In; eauto|]. pose proof (signalled_received _ _ _ RW SG) as I.
    assert (PA : fl_pub a = fl_pub s1 /\ length (fl_mem a) = 1 + length (fl_mem s1)) by (cbn [f_step] in S; injection S as <-; destruct kind; cbn [fl_pub fl_mem]; rewrite app_length; cbn; split; auto; lia). destruct PA as [PA LA].
    assert (Q : places a (length (fl_mem s1)) abort_all) by (apply (run_places kind tr2 a s _ _ H2); [lia|congruence|right; exists m; auto]).
    cbn [f_step] in S. injection S as <-. destruct Q as [Q|(u & N & Q)]; [destruct kind; [exact Q|destruct Q]|].
    destruct kind; cbn [fl_mem] in N; rewrite nth_error_app2, Nat.sub_diag in N by lia; injection N as <-; destruct Q as [[]|Q]; [destruct Q|exact Q].
  - intros I. destruct (first_in _ _ I) as (pre & q & E & NI).
    assert (S : exists a m, f_step kind s1 (FStart ident) = Some a /\ nth_error (fl_mem a) (length (fl_mem s1)) = Some m /\ m_w m = w_init ident /\ m_up m = true /\ src kind a m = fl_queue s1 /\ fl_pub a = fl_pub s1)
      by (destruct kind; (eexists _, _; split; [reflexivity|]); cbn [fl_mem]; (split; [rewrite nth_error_app2, Nat.sub_diag by lia; reflexivity|]); cbn; auto).
    destruct S as (a & m & S & N & W & U & Es & P). rewrite E in Es.
    destruct (hear_all kind pre q a _ m N U) as (tr2 & s & m' & R & N' & P' & G); [rewrite W; repeat split|exact Es|exact NI|]. exists tr2, s, m'. split; [cbn [run_from]; now rewrite S|]. split; [congruence|]. split; [exact N'|exact G].
Qed.
Print Assumptions C62_iff_partial.
(** In memory: exactly if it is the first worker of all and abort-all was published before. *)
Theorem C62_in_memory_iff_partial : forall tr1 s1 ident, f_run Copies tr1 = Some s1 ->
  ((exists tr2 s m, run_from (f_step Copies) s1 (FStart ident :: tr2) = Some s /\ fl_pub s = fl_pub s1 /\ nth_error (fl_mem s) (length (fl_mem s1)) = Some m /\ signalled m = true)
   <-> fl_mem s1 = [] /\ In abort_all (fl_pub s1)).
Proof.
  intros tr1 s1 ident H1. rewrite (C62_iff_partial Copies tr1 s1 ident H1). destruct (cinv_run _ _ H1) as (_ & E1 & E2). destruct (fl_mem s1) as [|m ms].
  - rewrite (E1 eq_refl). tauto.
  - rewrite E2 by discriminate. split; [intros []|intros [X _]; discriminate X].
Qed.
Print Assumptions C62_in_memory_iff_partial.
(** Other commands wait in front of it, one of them twice. *)
Example C62_iff_case : exists s1, f_run Shared [FStart 101; FLeader 5; FLeader 6; FLeader 5; FLeader abort_all; FCrash 0] = Some s1 /\ In abort_all (fl_queue s1) /\ ~ In 7 (fl_queue s1).
Proof. eexists. split; [vm_compute; reflexivity|]. cbn. split; [auto 6|intros X; decompose [or] X; try discriminate; auto]. Qed.
(** The crashed worker had taken it: the next one cannot be stopped by it. *)
Example C62_iff_taken : exists s1, f_run Shared [FStart 101; FLeader 5; FLeader abort_all; FCommand 0; FWork 0 WSend; FCommand 0; FCrash 0] = Some s1 /\ fl_pub s1 = [5; abort_all] /\ ~ In abort_all (fl_queue s1).
Proof. eexists. split; [vm_compute; reflexivity|]. split; [reflexivity|intros []]. Qed.
(** In memory, both sides occur. *)
Example C62_in_memory_case : exists s1 s2, f_run Copies [FLeader 5; FLeader abort_all] = Some s1 /\ fl_mem s1 = [] /\ In abort_all (fl_pub s1) /\
  f_run Copies [FStart 101; FLeader abort_all; FCrash 0] = Some s2 /\ fl_mem s2 <> [] /\ In abort_all (fl_pub s2).
Proof. eexists _, _. split; [vm_compute; reflexivity|]. split; [reflexivity|]. split; [cbn; auto|]. split; [vm_compute; reflexivity|]. split; [discriminate|cbn; auto]. Qed.
