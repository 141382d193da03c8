(** C27, continued: once a consumer was ever declared, no later consumer gets a message published before it. *)
From Coq Require Import List Arith Bool Lia.
From Verif Require Import Base BaseFacts BroadcastModel BroadcastSpec BroadcastProofs BroadcastProps.
Import ListNotations.
Open Scope nat_scope.

Section Never.
Variable shards : nat.
Variable shard : nat -> nat.
Hypothesis shard_ok : forall n, shard n < shards.
Notation step := (b_step shards shard).

Ltac bcases H :=
  unfold pub_step_b, decl_step_b, set_bpub, set_bdecl in H; cbv zeta in H;
  repeat match type of H with
         | match ?x with _ => _ end = Some _ => destruct x eqn:?; try discriminate H
         | (if ?x then _ else _) = Some _ => destruct x eqn:?; try discriminate H
         end;
  try discriminate H; try (injection H as <-).
(** In the history or in the hands of a declaration. *)
Definition waiting (s : bq) (id : nat) : Prop := In id (b_hist s) \/ exists d, In d (b_decls s) /\ In id (gotten d).
Lemma upd_in : forall (A : Type) j (l : list A) x y, In x (upd j y l) -> x = y \/ In x l.
Proof. intros A j l x y I. apply In_nth_error in I as (k & K). apply upd_nth in K. destruct K as [[_ ->]|[_ K]]; [now left|right; eapply nth_error_In; eauto]. Qed.
Lemma waiting_step : forall s e s' id, step s e = Some s' -> waiting s' id -> waiting s id \/ exists i, e = EvBPubStep i /\ nth_error (b_pubs s) i = Some (BHist id).
Proof using.
  clear shard_ok. intros s e s' id H W. destruct e as [|i|i n|n|j|n]; cbn in H.
  - injection H as <-. now left.
  - destruct (nth_error (b_pubs s) i) as [p|] eqn:P; [|discriminate H]. destruct p as [|id0 k acc|id0|id0 k vis|id0]; bcases H; cbn in W; try (left; exact W).
    destruct W as [W|W]; [|left; now right]. cbn in W. apply in_app_iff in W. destruct W as [W|[<-|[]]]; [left; now left|right; eauto].
  - bcases H; now left.
  - injection H as <-. left. destruct W as [W|(d & I & G)]; [now left|]. cbn in I. apply in_app_iff in I. destruct I as [I|[<-|[]]]; [right; eauto|destruct G].
  - left. destruct (nth_error (b_decls s) j) as [d0|] eqn:D; [|discriminate H]. apply nth_error_In in D.
    destruct d0 as [n|n|n got|n got|n f]; bcases H; destruct W as [W|(d & I & G)]; cbn in *; try contradiction; try (left; assumption); try (left; match goal with X : b_hist s = _ |- _ => rewrite X end; right; assumption);
      (apply upd_in in I; destruct I as [-> | I]; [|right; eauto]); cbn in G; try contradiction; try (right; eexists; split; [exact D|exact G]).
    + destruct (mem n0 got); [right; eexists; split; [exact D|exact G]|]. apply in_app_iff in G. destruct G as [G|[<-|[]]]; [right; eexists; split; [exact D|exact G]|left; match goal with X : b_hist s = _ |- _ => rewrite X end; now left].
  - bcases H; now left.
Qed.
Lemma next_step : forall s e s', step s e = Some s' -> b_next s <= b_next s'.
Proof using. clear shard_ok. intros s e s' H. destruct e; cbn in H; bcases H; cbn; lia. Qed.
Lemma waiting_old : forall p tr s id, b_run shards shard p tr = Some s -> waiting s id -> id < b_next s.
Proof using.
  clear shard_ok. intros p tr s id R. enough (X : binv s /\ (waiting s id -> id < b_next s)) by tauto.
  apply (run_from_inv _ _ step (fun s => binv s /\ (waiting s id -> id < b_next s))) with tr (b_init p); [| |exact R].
  - intros a e b [B W] S. split; [eapply binv_step; eauto|]. intros X. pose proof (next_step _ _ _ S). destruct (waiting_step _ _ _ _ S X) as [Y|(i & _ & P)]; [specialize (W Y); lia|]. pose proof (bi_pid _ B _ _ id P eq_refl). lia.
  - split; [exact (binv_init shards shard p)|]. intros W. exfalso. destruct W as [[]|(d & I & _)]. destruct I.
Qed.
(** What publish call [i] knows when consumer [m] was declared before. *)
Definition passes (m : nat) (s : bq) (p : bpub) : Prop :=
  (match p with BScan _ k acc => shard m < k -> 0 < acc | BHist _ => False | _ => True end) /\ (forall id, pid p = Some id -> ~ waiting s id).
Lemma in_shard_has : forall m l, In m (names l) -> 0 < length (in_shard shard (shard m) l).
Proof using.
  clear shard_ok. intros m l I. unfold names in I. apply in_map_iff in I as (c & <- & I). assert (J : In c (in_shard shard (shard (bc_name c)) l)) by (apply filter_In; split; [exact I|apply Nat.eqb_refl]).
  destruct (in_shard shard (shard (bc_name c)) l); [destruct J|cbn; lia].
Qed.
Lemma passes_step : forall m i s e s', binv s -> b_persistent s = true -> (forall id, waiting s id -> id < b_next s) -> In m (names (b_cons s)) ->
  (forall p, nth_error (b_pubs s) i = Some p -> passes m s p) -> step s e = Some s' -> forall p, nth_error (b_pubs s') i = Some p -> passes m s' p.
Proof.
  intros m i s e s' B PE OLD IN J S p P'.
  assert (KEEP : forall q, nth_error (b_pubs s) i = Some q -> passes m s q -> (forall i0 id, e = EvBPubStep i0 -> nth_error (b_pubs s) i0 = Some (BHist id) -> i0 <> i) -> forall id, pid q = Some id -> ~ waiting s' id).
  { intros q Q [_ PS] NE id PQ W. destruct (waiting_step _ _ _ _ S W) as [X|(i0 & -> & H)]; [exact (PS id PQ X)|]. exact (NE i0 id eq_refl H (bi_pids _ B _ _ _ _ id H Q eq_refl PQ)). }
  assert (SAME : nth_error (b_pubs s) i = Some p -> (forall i0, e = EvBPubStep i0 -> i0 <> i) -> passes m s' p).
  { intros Q NE. destruct (J p Q) as [SH PS]. split; [exact SH|]. apply (KEEP p Q (conj SH PS)). intros i0 id E _. exact (NE i0 E). }
  destruct e as [|i0|i0 n|n|j|n]; cbn in S.
  - injection S as <-. cbn in P'. apply nth_app_new in P'. destruct P' as [[_ ->]|P']; [split; [exact Logic.I|discriminate]|apply SAME; [exact P'|discriminate]].
  - destruct (nth_error (b_pubs s) i0) as [q|] eqn:P0; [|discriminate S]. destruct (Nat.eq_dec i0 i) as [->|NI].
    + pose proof (J q P0) as [SH PS]. assert (NH : forall id, pid q = Some id -> ~ waiting s' id) by (apply (KEEP q P0 (conj SH PS)); intros i0 id E H; injection E as <-; rewrite P0 in H; injection H as ->; destruct SH).
      destruct q as [|id k acc|id|id k vis|id]; bcases S; cbn in P'; try (rewrite upd_nth_same in P' by (apply nth_error_Some; congruence); injection P' as <-).
      * rewrite PE. split; [cbn; lia|]. intros id E. injection E as <-. intros W. assert (W0 : waiting s (b_next s)) by exact W. apply OLD in W0. lia.
      * split; [intros L|exact NH]. destruct (Nat.eq_dec k (shard m)) as [->|N0]; [pose proof (in_shard_has m _ IN); lia|specialize (SH ltac:(lia)); lia].
      * pose proof (shard_ok m). match goal with X : (_ <? _) = false |- _ => apply Nat.ltb_ge in X end. specialize (SH ltac:(lia)). destruct (Nat.eqb_spec acc 0); [lia|]. split; [exact Logic.I|exact NH].
      * destruct SH.
      * split; [exact Logic.I|exact NH].
      * split; [exact Logic.I|exact NH].
    + apply SAME; [|intros i1 E; injection E as <-; exact NI]. destruct q as [|id k acc|id|id k vis|id]; bcases S; cbn in P'; rewrite ?upd_nth_other in P' by exact NI; exact P'.
  - destruct (nth_error (b_pubs s) i0) as [q|] eqn:P0; [|discriminate S]. destruct (Nat.eq_dec i0 i) as [->|NI].
    + pose proof (J q P0) as [SH PS]. assert (NH : forall id, pid q = Some id -> ~ waiting s' id) by (apply (KEEP q P0 (conj SH PS)); discriminate). bcases S. cbn in P'. rewrite upd_nth_same in P' by (apply nth_error_Some; congruence). injection P' as <-. split; [exact Logic.I|exact NH].
    + apply SAME; [|discriminate]. bcases S. cbn in P'. rewrite upd_nth_other in P' by exact NI. exact P'.
  - injection S as <-. apply SAME; [exact P'|discriminate].
  - apply SAME; [|discriminate]. bcases S; exact P'.
  - bcases S. apply SAME; [exact P'|discriminate].
Qed.
Lemma enq_new : forall s e s' n id, step s e = Some s' -> enq_of s' n id -> enq_of s n id \/ waiting s id \/ exists i j vis, nth_error (b_pubs s) i = Some (BIter id j vis).
Proof using.
  clear shard_ok. intros s e s' n id S (c & I & N & Q). destruct (cons_step _ _ _ _ _ S) as [E|[(i & id' & j & vis & m & -> & P & _ & _ & _ & E)|(j & m & got & -> & D & E)]]; rewrite E in I.
  - left. exists c. auto.
  - unfold deliver_to in I. apply in_map_iff in I as (c0 & <- & I0). destruct (Nat.eqb_spec (bc_name c0) m) as [EM|NM]; [|left; exists c0; auto]. rewrite deliver_name in N.
    unfold deliver in Q. destruct (b_persistent s); [destruct (mem id' (bc_seen c0)); [left; exists c0; auto|]|]; cbn in Q; apply in_app_iff in Q; (destruct Q as [Q|[<-|[]]]; [left; exists c0; auto|right; right; eauto]).
  - apply in_app_iff in I. destruct I as [I|[<-|[]]]; [left; exists c; auto|]. right. left. right. exists (DIns m got). split; [eapply nth_error_In; eauto|exact Q].
Qed.
(** Once any consumer was ever declared, alive or not, a message whose publish was called after that and has returned is never enqueued
    for any consumer declared for the first time afterwards, whatever follows. Missing from C27: it should be when all consumers before had been dropped. *)
Theorem C27_never_partial : forall t0 t1 t2 s0 s1 s2 m i id n,
  b_run shards shard true t0 = Some s0 -> declared s0 m ->
  run_from step s0 t1 = Some s1 -> length (b_pubs s0) <= i -> published s1 i id -> ~ declared s1 n ->
  run_from step s1 t2 = Some s2 -> times_enqueued s2 n id = 0.
Proof.
  intros t0 t1 t2 s0 s1 s2 m i id n R0 (f & D) R1 L P ND R2.
  assert (PER : forall t s, b_run shards shard true t = Some s -> b_persistent s = true).
  { intros t s R. apply (run_from_inv _ _ step (fun s => b_persistent s = true)) with t (b_init true); [|reflexivity|exact R]. intros a e b E S. now rewrite (persistent_step shards shard _ _ _ S). }
  assert (G : forall t s s', run_from step s t = Some s' -> (exists t', b_run shards shard true t' = Some s) -> In m (names (b_cons s)) -> (forall p, nth_error (b_pubs s) i = Some p -> passes m s p) ->
     forall p, nth_error (b_pubs s') i = Some p -> passes m s' p).
  { intros t. induction t as [|e t IH]; intros s s' R (t' & RT) IN J; cbn [run_from] in R; [injection R as <-; exact J|]. destruct (step s e) as [a|] eqn:S; [|discriminate R].
    apply (IH a s' R); [exists (t' ++ [e]); apply run_from_app; exists s; split; [exact RT|]; cbn [run_from]; now rewrite S|eapply names_step; eauto|].
    apply (passes_step m i s e a); auto; [eapply binv_run; eauto|eapply PER; eauto|intros; eapply waiting_old; eauto]. }
  pose proof (binv_run _ _ _ _ _ R0) as B0. pose proof (bi_done _ B0 _ _ D) as IN0.
  assert (RT1 : b_run shards shard true (t0 ++ t1) = Some s1) by (apply run_from_app; eauto). pose proof (binv_run _ _ _ _ _ RT1) as B1.
  assert (PA : passes m s1 (BDone id)).
  { apply (G t1 s0 s1 R1 (ex_intro _ t0 R0) IN0); [|exact P]. intros p X. apply nth_lt_b in X. lia. }
  assert (NE : ~ enq_of s1 n id).
  { intros (c & I & N & _). apply ND. exists true. apply (names_from_run shards shard true _ s1 n RT1). rewrite <- N. now apply in_map. }
  assert (X : binv s2 /\ published s2 i id /\ ~ waiting s2 id /\ ~ enq_of s2 n id).
  { apply (run_from_inv _ _ step (fun s => binv s /\ published s i id /\ ~ waiting s id /\ ~ enq_of s n id)) with t2 s1; [|split; [exact B1|]; split; [exact P|]; split; [exact (proj2 PA id eq_refl)|exact NE]|exact R2].
    intros a e b (B & PB & NW & NQ) S. split; [eapply binv_step; eauto|]. split; [eapply done_step; eauto|]. split.
    - intros W. destruct (waiting_step _ _ _ _ S W) as [Y|(i0 & _ & Y)]; [exact (NW Y)|]. pose proof (bi_pids _ B _ _ _ _ id Y PB eq_refl eq_refl) as ->. unfold published in PB. congruence.
    - intros Q. destruct (enq_new _ _ _ _ _ S Q) as [Y|[Y|(i0 & j & vis & Y)]]; [exact (NQ Y)|exact (NW Y)|]. pose proof (bi_pids _ B _ _ _ _ id Y PB eq_refl eq_refl) as ->. unfold published in PB. congruence. }
  destruct X as (B2 & _ & _ & NQ). destruct (enq_times s2 n id B2) as [E1 E2]. destruct (times_enqueued s2 n id) as [|[|k]]; [reflexivity| |lia]. exfalso. apply NQ, E1. reflexivity.
Qed.
End Never.
Print Assumptions C27_never_partial.

(** The history of C27_refuted: consumer 1 declared and dropped, a message published, consumer 2 declared. *)
Example C27_never_case : exists s0 s1 s2, (forall n, (fun _ : nat => 0) n < 1) /\ b_run 1 (fun _ => 0) true c27_before = Some s0 /\ declared s0 1 /\ b_live s0 = [] /\
  run_from (b_step 1 (fun _ => 0)) s0 c27_publish = Some s1 /\ length (b_pubs s0) <= 0 /\ published s1 0 0 /\ ~ declared s1 2 /\
  run_from (b_step 1 (fun _ => 0)) s1 c27_after = Some s2 /\ declared s2 2.
Proof.
  eexists. eexists. eexists. split; [intros n; cbn; lia|]. split; [vm_compute; reflexivity|]. split; [exists true; now left|]. split; [reflexivity|]. split; [vm_compute; reflexivity|]. split; [cbn; lia|]. split; [reflexivity|].
  split; [intros (f & [X|[]]); discriminate X|]. split; [vm_compute; reflexivity|]. exists true. right. now left.
Qed.
