(** C72: concurrent deletions of AMQP queues all finish. *)
From Coq Require Import List Arith Bool Lia.
From Verif Require Import Base BaseFacts LockModel.
Import ListNotations.

Definition stuck (threads : nat) (s : list call) : Prop := forall e, l_step threads s e = None.
Definition all_done (s : list call) : Prop := forall c, In c s -> snd c = Finished.

(** ** Every event brings the end nearer *)
Definition weight (c : call) : nat :=
  match snd c with New => 6 | Blocked => 5 | Await1 => 4 | Ready1 => 3 | Await2 => 2 | Ready2 => 1 | Finished => 0 end.
Definition total (s : list call) : nat := list_sum (map weight s).
Lemma total_upd : forall s i c c', nth_error s i = Some c -> total (upd i c' s) + weight c = total s + weight c'.
Proof.
  induction s as [|x s IH]; intros [|i] c c' H; try discriminate; cbn [nth_error upd] in *.
  - injection H as ->. change (weight c' + total s + weight c = weight c + total s + weight c'). lia.
  - specialize (IH i c c' H). change (weight x + total (upd i c' s) + weight c = weight x + total s + weight c'). lia.
Qed.
Lemma total_spawned : forall locks, total (spawned locks) = 6 * length locks.
Proof. induction locks as [|l locks IH]; [reflexivity|]. change (6 + total (spawned locks) = 6 * S (length locks)). lia. Qed.
Section Threads.
Variable threads : nat.
Lemma step_total : forall s e s', l_step threads s e = Some s' -> total s' < total s.
Proof.
  intros s e s' H. assert (G : forall i c c', nth_error s i = Some c -> s' = upd i c' s -> weight c' < weight c -> total s' < total s).
  { intros i c c' N -> W. pose proof (total_upd s i c c' N). lia. }
  destruct e as [i|i ok|i]; cbn [l_step] in H.
  - destruct (busy s <? threads); [|discriminate H]. destruct (nth_error s i) as [[l [| | | | | | ]]|] eqn:N; try discriminate H; injection H as <-;
      (eapply G; [exact N|reflexivity|]); cbn; try lia. destruct (free l s); cbn; lia.
  - destruct (nth_error s i) as [[l [| | | | | | ]]|] eqn:N; try discriminate H; injection H as <-; (eapply G; [exact N|reflexivity|]); cbn; try lia. destruct ok; cbn; lia.
  - destruct (nth_error s i) as [[l [| | | | | | ]]|] eqn:N; try discriminate H. destruct (free l s); [|discriminate H]. injection H as <-. eapply G; [exact N|reflexivity|]. cbn. lia.
Qed.
Lemma run_total : forall tr s s', run_from (l_step threads) s tr = Some s' -> total s' + length tr <= total s.
Proof.
  induction tr as [|e tr IH]; intros s s' H; cbn [run_from length] in *; [injection H as ->; lia|].
  destruct (l_step threads s e) as [s1|] eqn:E; [|discriminate H]. apply step_total in E. apply IH in H. lia.
Qed.
Lemma step_locks : forall s e s', l_step threads s e = Some s' -> map fst s' = map fst s.
Proof.
  assert (G : forall (s : list call) i l p p', nth_error s i = Some (l, p) -> map fst (upd i (l, p') s) = map fst s).
  { induction s as [|x s IH]; intros [|i] l p p' H; try discriminate H; cbn in *; [injection H as ->; reflexivity|now rewrite (IH i l p p' H)]. }
  intros s e s' H. destruct e as [i|i ok|i]; cbn [l_step] in H.
  - destruct (busy s <? threads); [|discriminate H]. destruct (nth_error s i) as [[l [| | | | | | ]]|] eqn:N; try discriminate H; injection H as <-; eapply G; exact N.
  - destruct (nth_error s i) as [[l [| | | | | | ]]|] eqn:N; try discriminate H; injection H as <-; eapply G; exact N.
  - destruct (nth_error s i) as [[l [| | | | | | ]]|] eqn:N; try discriminate H. destruct (free l s); [|discriminate H]. injection H as <-. eapply G; exact N.
Qed.
Lemma run_locks : forall tr s s', run_from (l_step threads) s tr = Some s' -> map fst s' = map fst s.
Proof.
  intros tr s s' H. apply (run_from_inv _ _ (l_step threads) (fun t => map fst t = map fst s)) with (tr := tr) (s := s); auto.
  intros t e t' I E. rewrite (step_locks _ _ _ E). exact I.
Qed.

(** ** When nothing can happen *)
Lemma busy_all : forall s, busy s <= length s /\ (forall c, In c s -> blocked c = false -> busy s < length s).
Proof.
  unfold busy. induction s as [|x s [IH1 IH2]]; cbn; [split; [lia|intros c []]|]. destruct (blocked x) eqn:B; cbn.
  - split; [lia|]. intros c [->|I] C; [congruence|]. specialize (IH2 c I C). lia.
  - split; [lia|]. intros; lia.
Qed.
(** In a stuck state all threads are blocked, each on a lock whose holder only waits for a thread. *)
Lemma stuck_shape : forall s, 0 < threads -> stuck threads s -> ~ all_done s -> threads <= busy s /\
  (forall c, In c s -> snd c = Blocked -> exists h, In h s /\ fst h = fst c /\ blocked h = false).
Proof.
  intros s T ST ND.
  assert (B : forall c, In c s -> snd c = Blocked -> exists h, In h s /\ fst h = fst c /\ blocked h = false).
  { intros [l p] I P. cbn in P. subst p. apply In_nth_error in I. destruct I as (i & I). pose proof (ST (EEnter i)) as X. cbn [l_step] in X. rewrite I in X.
    destruct (free l s) eqn:F; [discriminate|]. unfold free in F. apply negb_false_iff in F. apply existsb_exists in F. destruct F as ([l' p'] & HI & HH).
    apply andb_true_iff in HH. destruct HH as [E P]. apply Nat.eqb_eq in E. cbn in E, P. exists (l', p'). split; [exact HI|]. split; [exact E|]. unfold blocked. cbn. destruct p'; auto. }
  split; [|exact B]. destruct (le_lt_dec threads (busy s)) as [L|L]; [exact L|]. exfalso. apply ND. intros [l p] I. pose proof I as I0. apply In_nth_error in I. destruct I as (i & I).
  assert (L' : (busy s <? threads) = true) by now apply Nat.ltb_lt.
  pose proof (ST (EPoll i)) as X1. pose proof (ST (EReply i true)) as X2. cbn [l_step] in X1, X2. rewrite L', I in X1. rewrite I in X2. cbn.
  destruct p; try discriminate; auto.
  destruct (B _ I0 eq_refl) as ([l' p'] & HI & HE & HB). cbn in HE. subst l'. apply In_nth_error in HI. destruct HI as (j & J).
  (* the holder *)
  pose proof (ST (EEnter i)) as Y. cbn [l_step] in Y. rewrite I in Y. destruct (free l s) eqn:F; [discriminate|]. unfold free in F. apply negb_false_iff in F. apply existsb_exists in F.
  destruct F as ([l' q] & HI & HH). apply andb_true_iff in HH. destruct HH as [E P]. cbn in P. apply In_nth_error in HI. destruct HI as (j' & J').
  pose proof (ST (EPoll j')) as Z1. pose proof (ST (EReply j' true)) as Z2. cbn [l_step] in Z1, Z2. rewrite L', J' in Z1. rewrite J' in Z2. destruct q; discriminate.
Qed.
End Threads.

(** C72, as far as it holds. With no more calls at a time than threads, or with the calls on distinct locks as in [release], no state is stuck: every
    execution can be continued until all calls have finished, and none is longer than six events per call. Missing to the full
    statement: more calls than threads on one connection object, for which it is false. *)
Theorem C72_few_partial : forall threads locks tr s, 0 < threads -> length locks <= threads -> run_from (l_step threads) (spawned locks) tr = Some s ->
  (all_done s \/ ~ stuck threads s) /\ length tr <= 6 * length locks.
Proof.
  intros threads locks tr s T L R. split.
  - assert (D : all_done s \/ ~ all_done s).
    { unfold all_done. clear. induction s as [|[l p] s IH]; [left; intros c []|]. destruct p; try (right; intros X; specialize (X _ (or_introl eq_refl)); discriminate).
      destruct IH as [IH|IH]; [left; intros c [<-|I]; auto|right; intros X; apply IH; intros c I; apply X; now right]. }
    destruct D as [D|D]; [auto|]. right. intros ST. destruct (stuck_shape threads s T ST D) as (B1 & B2). pose proof (run_locks _ _ _ _ R) as ML.
    assert (LS : length s = length locks) by (apply (f_equal (@length nat)) in ML; unfold spawned in ML; now rewrite !map_length in ML).
    destruct (busy_all s) as (B3 & B4).
    assert (NE : exists c, In c s /\ snd c = Blocked).
    { unfold busy in B1. destruct (filter blocked s) as [|c r] eqn:F; [cbn in B1; lia|]. assert (I : In c (filter blocked s)) by (rewrite F; now left). apply filter_In in I.
      exists c. split; [tauto|]. destruct I as [_ I]. unfold blocked in I. destruct (snd c); try discriminate. reflexivity. }
    destruct NE as (c & I & P). destruct (B2 c I P) as (h & HI & _ & HB). specialize (B4 h HI HB). lia.
  - apply run_total in R. rewrite total_spawned in R. lia.
Qed.
Theorem C72_distinct_partial : forall threads locks tr s, 0 < threads -> NoDup locks -> run_from (l_step threads) (spawned locks) tr = Some s ->
  (all_done s \/ ~ stuck threads s) /\ length tr <= 6 * length locks.
Proof.
  intros threads locks tr s T ND R. split.
  - assert (D : all_done s \/ ~ all_done s).
    { unfold all_done. clear. induction s as [|[l p] s IH]; [left; intros c []|]. destruct p; try (right; intros X; specialize (X _ (or_introl eq_refl)); discriminate).
      destruct IH as [IH|IH]; [left; intros c [<-|I]; auto|right; intros X; apply IH; intros c I; apply X; now right]. }
    destruct D as [D|D]; [auto|]. right. intros ST. destruct (stuck_shape threads s T ST D) as (B1 & B2). pose proof (run_locks _ _ _ _ R) as ML.
    assert (NE : exists c, In c s /\ snd c = Blocked).
    { unfold busy in B1. destruct (filter blocked s) as [|c r] eqn:F; [cbn in B1; lia|]. assert (I : In c (filter blocked s)) by (rewrite F; now left). apply filter_In in I.
      exists c. split; [tauto|]. destruct I as [_ I]. unfold blocked in I. destruct (snd c); try discriminate. reflexivity. }
    destruct NE as (c & I & P). destruct (B2 c I P) as (h & HI & HE & HB).
    assert (N : NoDup (map fst s)). { rewrite ML. unfold spawned. rewrite map_map. cbn. now rewrite map_id. }
    assert (c = h). { clear - N I HI HE. induction s as [|x s IH]; [destruct I|]. cbn in N. inversion N as [|? ? N1 N2]; subst. destruct I as [->|I], HI as [->|HI]; auto.
      - exfalso. apply N1. rewrite <- HE. now apply in_map.
      - exfalso. apply N1. rewrite HE. now apply in_map. }
    subst h. unfold blocked in HB. rewrite P in HB. discriminate.
  - apply run_total in R. rewrite total_spawned in R. lia.
Qed.
(** In particular the deletions that [release] starts, however many. *)
Corollary C72_release_partial : forall threads n tr s, 0 < threads -> run_from (l_step threads) (spawned (released n)) tr = Some s -> all_done s \/ ~ stuck threads s.
Proof. intros threads n tr s T R. exact (proj1 (C72_distinct_partial threads (released n) tr s T (seq_NoDup n 0) R)). Qed.

(** C72 is false for every number of threads: one call more than threads, all on one connection object and one shard, and the runtime hangs. *)
Definition hang (threads : nat) : list l_event := EPoll 0 :: EReply 0 true :: map EPoll (seq 1 threads).
Theorem C72_every_pool_refuted : forall threads, 0 < threads -> exists tr s, run_from (l_step threads) (spawned (repeat 0 (S threads))) tr = Some s /\
  stuck threads s /\ ~ all_done s.
Proof.
  intros threads T. exists (hang threads), ((0, Ready1) :: repeat (0, Blocked) threads). split; [|split].
  - assert (G : forall k j, k + j = threads -> run_from (l_step threads) ((0, Ready1) :: repeat (0, Blocked) j ++ repeat (0, New) k) (map EPoll (seq (S j) k)) =
      Some ((0, Ready1) :: repeat (0, Blocked) threads)).
    { induction k as [|k IH]; intros j K; cbn [seq map run_from].
      - cbn. rewrite app_nil_r. replace j with threads by lia. reflexivity.
      - assert (B : busy ((0, Ready1) :: repeat (0, Blocked) j ++ repeat (0, New) (S k)) = j).
        { unfold busy. cbn [filter blocked snd]. rewrite filter_app, app_length. assert (B1 : forall n, length (filter blocked (repeat (0, Blocked) n)) = n) by (induction n; cbn; auto).
          assert (B2 : forall n, length (filter blocked (repeat (0, New) n)) = 0) by (induction n; cbn; auto). rewrite B1, B2. lia. }
        assert (E : l_step threads ((0, Ready1) :: repeat (0, Blocked) j ++ repeat (0, New) (S k)) (EPoll (S j)) =
          Some ((0, Ready1) :: repeat (0, Blocked) (S j) ++ repeat (0, New) k)).
        { unfold l_step. rewrite B. replace (j <? threads) with true by (symmetry; apply Nat.ltb_lt; lia).
          cbn [nth_error]. rewrite nth_error_app2 by (rewrite repeat_length; lia). rewrite repeat_length, Nat.sub_diag. cbn [repeat nth_error].
          replace (free 0 ((0, Ready1) :: repeat (0, Blocked) j ++ (0, New) :: repeat (0, New) k)) with false by reflexivity.
          cbn [upd]. f_equal. f_equal. clear. induction j as [|j IH]; cbn; [reflexivity|]. rewrite IH. reflexivity. }
        rewrite E. apply (IH (S j)). lia. }
    unfold hang. cbn [run_from]. assert (S0 : spawned (repeat 0 (S threads)) = (0, New) :: repeat (0, New) threads).
    { unfold spawned. cbn. f_equal. clear. induction threads; cbn; congruence. }
    rewrite S0. assert (B2 : forall n, filter blocked (repeat (0, New) n) = []) by (induction n; cbn; auto).
    assert (B3 : forall n, existsb (holds 0) (repeat (0, New) n) = false) by (induction n; cbn; auto).
    assert (E1 : l_step threads ((0, New) :: repeat (0, New) threads) (EPoll 0) = Some ((0, Await1) :: repeat (0, New) threads)).
    { unfold l_step, busy. cbn [filter blocked snd]. rewrite B2. cbn [length]. replace (0 <? threads) with true by (symmetry; apply Nat.ltb_lt; lia).
      cbn [nth_error]. unfold free. cbn [existsb holds fst snd]. rewrite B3. reflexivity. }
    rewrite E1. cbn [l_step nth_error upd]. exact (G threads 0 (Nat.add_0_r threads)).
  - assert (B : busy ((0, Ready1) :: repeat (0, Blocked) threads) = threads).
    { unfold busy. cbn [filter blocked snd]. clear. induction threads; cbn in *; auto. }
    assert (F : free 0 ((0, Ready1) :: repeat (0, Blocked) threads) = false) by reflexivity.
    assert (SH : forall c, In c ((0, Ready1) :: repeat (0, Blocked) threads) -> c = (0, Ready1) \/ c = (0, Blocked)) by (intros c [<-|I]; [auto|apply repeat_spec in I; auto]).
    revert B F SH. generalize ((0, Ready1) :: repeat (0, Blocked) threads : list call). change (list (nat * phase)) with (list call). intros s B F SH [i|i b|i]; cbn [l_step].
    + rewrite B. now rewrite Nat.ltb_irrefl.
    + destruct (nth_error s i) as [c|] eqn:N; [|reflexivity]. apply nth_error_In, SH in N. destruct N as [-> | ->]; reflexivity.
    + destruct (nth_error s i) as [c|] eqn:N; [|reflexivity]. apply nth_error_In, SH in N. destruct N as [-> | ->]; [reflexivity|]. now rewrite F.
  - intros D. specialize (D _ (or_introl eq_refl)). discriminate.
Qed.
Theorem C72_refuted : exists threads locks tr s, 0 < threads /\ run_from (l_step threads) (spawned locks) tr = Some s /\ stuck threads s /\ ~ all_done s.
Proof.
  destruct (C72_every_pool_refuted 4) as (tr & s & R & H); [lia|]. exists 4, (repeat 0 5), tr, s. split; [lia|]. auto.
Qed.

(** Three calls on three threads, two of them on the same lock: one blocks a thread for a while. *)
Definition some_calls : list l_event :=
  [EPoll 0; EPoll 1; EReply 0 true; EPoll 2; EPoll 0; EReply 2 false; EReply 0 true; EPoll 0; EEnter 1; EPoll 2; EReply 1 true; EPoll 1; EReply 1 true; EPoll 1].
Example C72_example : run_from (l_step 3) (spawned [5; 5; 6]) (firstn 2 some_calls) = Some [(5, Await1); (5, Blocked); (6, New)] /\
  run_from (l_step 3) (spawned [5; 5; 6]) some_calls = Some [(5, Finished); (5, Finished); (6, Finished)].
Proof. split; reflexivity. Qed.
Example C72_distinct_example : exists s, run_from (l_step 1) (spawned (released 3)) [EPoll 0; EPoll 1; EReply 1 true; EPoll 2; EPoll 1] = Some s /\ ~ all_done s.
Proof. eexists. split; [reflexivity|]. intros D. specialize (D _ (or_introl eq_refl)). discriminate. Qed.

Print Assumptions C72_few_partial.
Print Assumptions C72_distinct_partial.
Print Assumptions C72_release_partial.
Print Assumptions C72_every_pool_refuted.
Print Assumptions C72_refuted.
