(** The mapped stream as a user of the coordinated channel. MapModel repeats the channel's counters inside its own steps, since only one
    task touches them (functor.rs:28-68); CoordModel has every memory access as a step of its own (coordinated_channel). Here every
    execution of the former is shown to be one of the latter: the relation between their states, and the simulation. *)
From Coq Require Import List Arith NArith Bool Lia Permutation.
From Verif Require Import Base BaseFacts CoordModel CoordSpec PublishModel MapModel MapSpec.
Import ListNotations.
Open Scope nat_scope.
Arguments cnt : simpl never.
Arguments wsucc : simpl never.
Arguments wpred : simpl never.
Arguments half_done : simpl never.

Section Lists.
Context {X : Type}.
Definition key (f : nat * X * fut) : nat := fst (fst f).
Lemma key_upd : forall i (l : list (nat * X * fut)) n x st st', nth_error l i = Some (n, x, st) -> map key (upd i (n, x, st') l) = map key l.
Proof.
  intros i l n x st st' H. destruct (upd_split _ _ _ _ H) as (a & b & -> & _ & U). rewrite U, !map_app. reflexivity.
Qed.
Lemma upd_other : forall i (l : list (nat * X * fut)) n x st st' g, NoDup (map key l) -> nth_error l i = Some (n, x, st) -> In g (upd i (n, x, st') l) ->
  g = (n, x, st') \/ (In g l /\ key g <> n).
Proof.
  intros i l n x st st' g ND H I. destruct (upd_split _ _ _ _ H) as (a & b & -> & _ & U). rewrite U in I.
  rewrite map_app in ND. cbn [map] in ND. apply NoDup_remove_2 in ND. rewrite in_app_iff in ND. cbn [key fst] in ND.
  apply in_app_iff in I as [I|[<-|I]]; [right|now left|right]; split; rewrite ?in_app_iff; cbn; auto; intros K; apply ND; rewrite <- K; [left|right]; now apply in_map.
Qed.
Lemma upd_upd : forall (Y : Type) i (l : list Y) x y, upd i y (upd i x l) = upd i y l.
Proof. intros Y i; induction i as [|i IH]; intros [|z l] x y; cbn; auto. now rewrite IH. Qed.
Lemma upd_id : forall (Y : Type) i (l : list Y) x, nth_error l i = Some x -> upd i x l = l.
Proof. intros Y i; induction i as [|i IH]; intros [|z l] x H; cbn in *; auto; [now injection H as ->|]. now rewrite IH. Qed.
Lemma half_keys : forall (l : list (nat * X * fut)), NoDup (map key l) -> NoDup (map fst (half_done l)).
Proof.
  unfold half_done. induction l as [|[[n x] st] l IH]; cbn; intros H; [constructor|]. apply NoDup_cons_iff in H as [H1 H2].
  assert (S : forall k, In k (map fst (map fst (filter (fun f => match snd f with FWait false _ => true | _ => false end) l))) -> In k (map key l)).
  { intros k. rewrite map_map. rewrite !in_map_iff. intros (g & <- & G). apply filter_In in G as [G _]. now exists g. }
  destruct st as [|[]|]; cbn; auto. constructor; auto.
Qed.
Lemma half_in : forall (l : list (nat * X * fut)) n x, In (n, x) (half_done l) -> exists r, In (n, x, FWait false r) l.
Proof.
  intros l n x H. unfold half_done in H. apply in_map_iff in H as ([[n' x'] st] & Q & G). cbn in Q. injection Q as -> ->.
  apply filter_In in G as [G1 G2]. destruct st as [|[] r|]; try discriminate G2. now exists r.
Qed.
End Lists.

(** The publish call of a future: none of its memory accesses done; waiting for the broker; accepted; over. *)
Definition pub_of (st : fut) (p : pub_phase) : Prop :=
  match st with
  | FNew => p = PubStart
  | FWait false _ => p = PubInner
  | FWait true _ => p = PubSent
  | FReady _ => exists r, p = PubDone r
  end.

(** [publish_all]'s futures are the channel's publish calls, under the same numbers. *)
Record prel {X E : Type} (p : pall X E) (c : chan) : Prop := {
  pr_len : length (ch_pubs c) = length (pa_pulled p);
  pr_sent : ch_sent c = length (pa_acc p);
  pr_futs : forall n x st, In (n, x, st) (pa_futs p) -> exists q, nth_error (ch_pubs c) n = Some q /\ pub_of st q;
  pr_drop : forall n x, In (n, x) (pa_dropped p) -> nth_error (ch_pubs c) n = Some PubInner;
  pr_keys : NoDup (map key (pa_futs p));
  pr_dkeys : NoDup (map fst (pa_dropped p));
  pr_both : pa_ret p <> None -> pa_futs p = [];
  pr_none : pa_ret p = None -> pa_dropped p = [];
  pr_prog : forall n q, nth_error (ch_pubs c) n = Some q -> in_progress q = true ->
    (exists x a r, In (n, x, FWait a r) (pa_futs p)) \/ (exists e, pa_ret p = Some e /\ e <> PaOk);
  pr_fail : forall n b, nth_error (ch_pubs c) n = Some (PubDone (PubInnerErr b)) ->
    (exists x, In (n, x, FReady false) (pa_futs p)) \/ (exists e, pa_ret p = Some e /\ e <> PaOk)
}.

(** The parts of the channel that publishing does not touch. *)
Definition rest_of (c : chan) :=
  (ch_closed c, ch_closes c, ch_avail c, ch_lost c, ch_ackers c, ch_acks c, (ch_poll c, ch_log c, ch_subs c)).
(** Steps of publishing. *)
Definition pub_event (e : chan_event) : bool := match e with EvPublish | EvPubStep _ _ => true | _ => false end.

Definition few_pub (ctr : list chan_event) : bool := forallb pub_event ctr && (length ctr <=? 2).

Section PaSim.
Context {X E : Type}.
Notation pa := (pall X E).
Lemma prel_same : forall (p p' : pa) c, prel p c -> pa_futs p' = pa_futs p -> pa_pulled p' = pa_pulled p -> pa_acc p' = pa_acc p ->
  pa_dropped p' = pa_dropped p -> pa_ret p' = pa_ret p -> prel p' c.
Proof. intros p p' c [H1 H2 H3 H4 H5 H6 H7 H8 H9 H10] Q1 Q2 Q3 Q4 Q5. constructor; rewrite ?Q1, ?Q2, ?Q3, ?Q4, ?Q5; auto. Qed.
Lemma prel_return : forall (p : pa) c r, prel p c -> r <> PaOk \/ (pa_futs p = [] /\ pa_ret p = None) -> prel (pa_return p r) c.
Proof.
  intros p c r [H1 H2 H3 H4 H5 H6 H7 H8 H9 H10] OK. constructor; cbn; auto; try discriminate.
  - intros ? ? ? [].
  - intros n x I. apply half_in in I as (b & I). destruct (H3 _ _ _ I) as (q & Q1 & Q2). cbn in Q2. congruence.
  - constructor.
  - now apply half_keys.
  - intros n q Q1 Q2. right. exists r. split; [reflexivity|]. destruct OK as [OK|[F N]]; [exact OK|].
    destruct (H9 n q Q1 Q2) as [(x & a & b & I)|(e & I & _)]; [rewrite F in I; destruct I|congruence].
  - intros n b Q. right. exists r. split; [reflexivity|]. destruct OK as [OK|[F N]]; [exact OK|].
    destruct (H10 n b Q) as [(x & I)|(e & I & _)]; [rewrite F in I; destruct I|congruence].
Qed.
(** One future moves on, and so does its publish call. *)
Lemma prel_upd : forall (p p' : pa) c c' i n x st st' q, prel p c -> pa_ret p = None -> pa_ret p' = None -> nth_error (pa_futs p) i = Some (n, x, st) ->
  pa_futs p' = upd i (n, x, st') (pa_futs p) -> pa_pulled p' = pa_pulled p -> length (pa_acc p') = length (pa_acc p) + (ch_sent c' - ch_sent c) -> ch_sent c <= ch_sent c' ->
  pa_dropped p' = pa_dropped p -> ch_pubs c' = upd n q (ch_pubs c) -> pub_of st' q ->
  (in_progress q = true -> exists a r, st' = FWait a r) -> ((exists b, q = PubDone (PubInnerErr b)) -> st' = FReady false) -> prel p' c'.
Proof.
  intros p p' c c' i n x st st' q [H1 H2 H3 H4 H5 H6 H7 H8 H9 H10] RN RN' N Q1 Q2 Q3 Q3' Q4 Q5 PQ PG PF. specialize (H8 RN).
  assert (L : n < length (ch_pubs c)).
  { destruct (H3 n x st (nth_error_In _ _ N)) as (q0 & Z & _). apply nth_error_Some. congruence. }
  constructor; rewrite ?Q4, ?H8; auto.
  - now rewrite Q5, upd_length, Q2.
  - lia.
  - rewrite Q1, Q5. intros m y s I. destruct (upd_other _ _ _ _ _ _ _ H5 N I) as [Z|[Z1 Z2]].
    + injection Z as -> -> ->. exists q. split; [now apply upd_nth_same|exact PQ].
    + cbn in Z2. rewrite upd_nth_other by auto. now apply (H3 m y s).
  - intros ? ? [].
  - rewrite Q1. now rewrite (key_upd _ _ _ _ _ _ N).
  - constructor.
  - intros Z. contradiction.
  - rewrite Q5, Q1. intros m q' I1 I2. left. apply upd_nth in I1 as [[-> ->]|[NE I1]].
    + destruct (PG I2) as (a & r & ->). exists x, a, r. eapply In_upd_new; eauto.
    + destruct (H9 _ _ I1 I2) as [(y & a & r & I)|(e & I & _)]; [|congruence]. exists y, a, r. eapply In_upd_other; eauto. congruence.
  - rewrite Q5, Q1. intros m b I1. left. apply upd_nth in I1 as [[-> Z]|[NE I1]].
    + rewrite (PF (ex_intro _ b (eq_sym Z))). exists x. eapply In_upd_new; eauto.
    + destruct (H10 _ _ I1) as [(y & I)|(e & I & _)]; [|congruence]. exists y. eapply In_upd_other; eauto. congruence.
Qed.

Ltac ups := try reflexivity; cbn [pa_acc ch_sent pa_dropped pub_of set_pub set_futs set_woken ch_pubs pa_futs pa_pulled pa_ret in_progress]; rewrite ?app_length; cbn [length]; auto; try lia; eauto;
  try (intros [? Z]; discriminate Z); try discriminate; try (now eexists).
Lemma pa_sim : forall (p p' : pa) e c, prel p c -> pa_step p e = Some p' ->
  (forall i, e = PaStart i -> ch_closed c = false) -> (forall i, e = PaRefuse i -> ch_closed c = true) ->
  exists ctr c', run_from chan_step c ctr = Some c' /\ few_pub ctr = true /\ prel p' c' /\ rest_of c' = rest_of c /\
    ch_pending c' = (match e with PaStart _ => wsucc (ch_pending c) | _ => ch_pending c end) /\
    ch_inflight c' = ch_inflight c + (length (pa_acc p') - length (pa_acc p)) /\ length (pa_acc p) <= length (pa_acc p').
Proof.
  intros p p' e c PR S ST RF. pose proof PR as PR0. destruct PR as [H1 H2 H3 H4 H5 H6 H7 H8 H9 H10].
  assert (SAME : forall p'', p' = p'' -> prel p'' c -> length (pa_acc p'') = length (pa_acc p) -> (forall i, e <> PaStart i) ->
    exists ctr c', run_from chan_step c ctr = Some c' /\ few_pub ctr = true /\ prel p' c' /\ rest_of c' = rest_of c /\
    ch_pending c' = (match e with PaStart _ => wsucc (ch_pending c) | _ => ch_pending c end) /\
    ch_inflight c' = ch_inflight c + (length (pa_acc p') - length (pa_acc p)) /\ length (pa_acc p) <= length (pa_acc p')).
  { intros p'' -> P L NS. exists [], c. split; [reflexivity|]. split; [reflexivity|]. split; [exact P|]. split; [reflexivity|].
    split; [destruct e; auto; exfalso; eapply NS; reflexivity|]. lia. }
  unfold pa_step in S. destruct (pa_ret p) as [r|] eqn:RN.
  - destruct e as [|i|i|i|i| | | |i|i ok|i]; try discriminate S. destruct (pick i (pa_dropped p)) as [[[n x] d]|] eqn:P; [|discriminate S]. injection S as <-.
    pose proof (pick_in _ _ _ _ _ P) as IN. pose proof (H4 _ _ IN) as PN.
    pose proof (pick_perm _ _ _ _ _ P) as PP.
    exists [EvPubStep n true]. cbn [run_from chan_step]. rewrite PN. cbn [pub_step]. eexists. split; [reflexivity|]. split; [reflexivity|].
    assert (K : NoDup (n :: map fst d)) by (eapply Permutation_NoDup; [apply (Permutation_map fst PP)|exact H6]).
    apply NoDup_cons_iff in K as [K1 K2].
    assert (F0 : pa_futs p = []) by (apply H7; discriminate).
    split; [constructor; cbn; auto; try discriminate|].
    + now rewrite upd_length.
    + rewrite app_length. cbn. lia.
    + rewrite F0. intros ? ? ? [].
    + intros m y I. rewrite upd_nth_other; [eapply H4, pick_in_rest; eauto|]. intros ->. apply K1. now apply (in_map fst) in I.
    + intros m q I1 I2. right. destruct (H9 n PubInner PN eq_refl) as [(y & a & b & I)|W]; [rewrite F0 in I; destruct I|exact W].
    + intros m b I1. apply upd_nth in I1 as [[_ Z]|[_ I1]]; [discriminate Z|]. destruct (H10 _ _ I1) as [W|W]; [left|right]; exact W.
    + split; [reflexivity|]. split; [reflexivity|]. cbn. rewrite app_length. cbn. lia.
  - destruct e as [|i|i|i|i| | | |i|i ok|i]; try discriminate S.
    + (* PaPull *)
      destruct (pa_open p && may_pull p); [|discriminate S].
      destruct (pa_arr p) as [|[x|x] r]; [destruct (pa_end p)| |]; injection S as <-.
      * eapply SAME; [reflexivity| |reflexivity|discriminate]. eapply prel_same; eauto.
      * eapply SAME; [reflexivity| |reflexivity|discriminate]. eapply prel_same; eauto.
      * exists [EvPublish]. cbn [run_from chan_step]. eexists. split; [reflexivity|]. split; [reflexivity|].
        specialize (H8 eq_refl). split; [constructor; cbn; rewrite ?H8; auto; try (intros Z; exfalso; now apply Z)|].
        -- rewrite !app_length. cbn. lia.
        -- intros n y st I. apply in_app_iff in I as [I|[I|[]]].
           ++ destruct (H3 _ _ _ I) as (q & Q1 & Q2). exists q. split; [|exact Q2]. rewrite nth_error_app1; [exact Q1|]. apply nth_error_Some. congruence.
           ++ injection I as <- <- <-. exists PubStart. split; [|reflexivity]. rewrite <- H1, nth_error_app2, Nat.sub_diag by lia. reflexivity.
        -- intros ? ? [].
        -- rewrite map_app. cbn. eapply Permutation_NoDup; [apply Permutation_cons_append|]. constructor; [|exact H5].
           intros I. apply in_map_iff in I as ([[n y] st] & Q & I). cbn in Q. subst n. destruct (H3 _ _ _ I) as (q & Q1 & _).
           assert (length (pa_pulled p) < length (ch_pubs c)) by (apply nth_error_Some; congruence). lia.
        -- constructor.
        -- intros n q I1 I2. left. destruct (lt_dec n (length (ch_pubs c))) as [L|L].
           ++ rewrite nth_error_app1 in I1 by exact L. destruct (H9 _ _ I1 I2) as [(y & a & b & I)|(e & I & _)]; [|discriminate I]. exists y, a, b. apply in_app_iff. now left.
           ++ rewrite nth_error_app2 in I1 by lia. apply nth_error_In in I1 as [<-|[]]. discriminate I2.
        -- intros n b I1. left. destruct (lt_dec n (length (ch_pubs c))) as [L|L].
           ++ rewrite nth_error_app1 in I1 by exact L. destruct (H10 _ _ I1) as [(y & I)|(e & I & _)]; [|discriminate I]. exists y. apply in_app_iff. now left.
           ++ rewrite nth_error_app2 in I1 by lia. apply nth_error_In in I1 as [I1|[]]. discriminate I1.
        -- split; [reflexivity|]. split; [reflexivity|]. cbn. lia.
      * eapply SAME; [reflexivity| |reflexivity|discriminate]. apply prel_return; [|left; discriminate]. eapply prel_same; eauto.
    + (* PaStart *)
      destruct (nth_error (pa_futs p) i) as [[[n x] [|a b|b]]|] eqn:N; try discriminate S. injection S as <-.
      destruct (H3 _ _ _ (nth_error_In _ _ N)) as (q & Q1 & Q2). cbn in Q2. subst q.
      assert (L : n < length (ch_pubs c)) by (apply nth_error_Some; congruence).
      exists [EvPubStep n true; EvPubStep n true]. cbn [run_from chan_step]. rewrite Q1. cbn [pub_step]. rewrite (ST i eq_refl). cbn [set_pub ch_pubs].
      rewrite upd_nth_same by exact L. cbn [pub_step]. eexists. split; [reflexivity|]. split; [reflexivity|].
      split; [|split; [unfold rest_of; cbn; rewrite (ST i eq_refl); reflexivity|split; [reflexivity|cbn; lia]]].
      eapply (prel_upd p _ c _ i n x FNew (FWait false false) PubInner); ups. apply upd_upd.
    + (* PaRefuse *)
      destruct (nth_error (pa_futs p) i) as [[[n x] [|a b|b]]|] eqn:N; try discriminate S. injection S as <-.
      destruct (H3 _ _ _ (nth_error_In _ _ N)) as (q & Q1 & Q2). cbn in Q2. subst q.
      exists [EvPubStep n true]. cbn [run_from chan_step]. rewrite Q1. cbn [pub_step]. rewrite (RF i eq_refl).
      eexists. split; [reflexivity|]. split; [reflexivity|].
      split; [|split; [reflexivity|split; [reflexivity|cbn; lia]]].
      eapply (prel_upd p _ c _ i n x FNew (FReady false) (PubDone PubClosed)); ups.
    + (* PaCheck *)
      destruct (nth_error (pa_futs p) i) as [[[n x] [|a [|]|b]]|] eqn:N; try discriminate S. injection S as <-.
      destruct (H3 _ _ _ (nth_error_In _ _ N)) as (q & Q1 & Q2).
      eapply SAME; [reflexivity| |reflexivity|discriminate].
      eapply (prel_upd p _ c c i n x (FWait a false) (FWait a true) q); ups; [symmetry; now apply upd_id|].
      intros [z ->]. destruct a; discriminate Q2.
    + (* PaFinish *)
      destruct (pick i (pa_futs p)) as [[[[n x] [|a b|[|]]] r]|] eqn:P; try discriminate S; injection S as <-.
      * eapply SAME; [reflexivity| |reflexivity|discriminate]. specialize (H8 eq_refl). constructor; cbn; rewrite ?H8; auto; try (intros Z; exfalso; now apply Z).
        -- intros m y st I. eapply H3, pick_in_rest; eauto.
        -- intros ? ? [].
        -- pose proof (pick_perm _ _ _ _ _ P) as PP. apply (Permutation_map key) in PP. eapply Permutation_NoDup in PP; [|exact H5]. now apply NoDup_cons_iff in PP.
        -- constructor.
        -- intros m q I1 I2. left. destruct (H9 _ _ I1 I2) as [(y & a & b & I)|(e & I & _)]; [|discriminate I]. exists y, a, b.
           eapply Permutation_in in I; [|exact (pick_perm _ _ _ _ _ P)]. destruct I as [I|I]; [discriminate I|exact I].
        -- intros m b I1. left. destruct (H10 _ _ I1) as [(y & I)|(e & I & _)]; [|discriminate I]. exists y.
           eapply Permutation_in in I; [|exact (pick_perm _ _ _ _ _ P)]. destruct I as [I|I]; [discriminate I|exact I].
      * eapply SAME; [reflexivity| |reflexivity|discriminate]. apply prel_return; [exact PR0|left; discriminate].
    + destruct (pa_open p); [discriminate S|]. destruct (pa_futs p) eqn:F; [|discriminate S]. injection S as <-.
      eapply SAME; [reflexivity| |reflexivity|discriminate]. apply prel_return; [exact PR0|right; auto].
    + destruct (pa_late p); [discriminate S|]. injection S as <-. eapply SAME; [reflexivity| |reflexivity|discriminate]. eapply prel_same; eauto.
    + destruct (pa_late p); [|discriminate S]. destruct (pa_end p); [discriminate S|]. injection S as <-. eapply SAME; [reflexivity| |reflexivity|discriminate]. eapply prel_same; eauto.
    + (* PaAccept *)
      destruct (nth_error (pa_futs p) i) as [[[n x] [|[|] b|b]]|] eqn:N; try discriminate S. injection S as <-.
      destruct (H3 _ _ _ (nth_error_In _ _ N)) as (q & Q1 & Q2). cbn in Q2. subst q.
      exists [EvPubStep n true]. cbn [run_from chan_step]. rewrite Q1. cbn [pub_step].
      eexists. split; [reflexivity|]. split; [reflexivity|].
      split; [|split; [reflexivity|split; [reflexivity|cbn; rewrite app_length; cbn; lia]]].
      eapply (prel_upd p _ c _ i n x (FWait false b) (FWait true b) PubSent); ups.
    + (* PaReply *)
      destruct (nth_error (pa_futs p) i) as [[[n x] [|a b|b]]|] eqn:N; try discriminate S.
      destruct (negb ok || a) eqn:G; [|discriminate S]. injection S as <-.
      destruct (H3 _ _ _ (nth_error_In _ _ N)) as (q & Q1 & Q2).
      destruct a; cbn in Q2; subst q.
      * exists [EvPubStep n ok]. cbn [run_from chan_step]. rewrite Q1. cbn [pub_step].
        eexists. split; [reflexivity|]. split; [reflexivity|].
        split; [|split; [reflexivity|split; [reflexivity|cbn; lia]]].
        eapply (prel_upd p _ c _ i n x (FWait true b) (FReady ok)); ups.
        intros [z Z]. destruct ok; [discriminate Z|reflexivity].
      * destruct ok; [discriminate G|]. exists [EvPubStep n false]. cbn [run_from chan_step]. rewrite Q1. cbn [pub_step].
        eexists. split; [reflexivity|]. split; [reflexivity|].
        split; [|split; [reflexivity|split; [reflexivity|cbn; lia]]].
        eapply (prel_upd p _ c _ i n x (FWait false b) (FReady false)); ups.
Qed.
End PaSim.

(** Items of the log that come from the result stream: a result was received; its acknowledgement took effect. *)
Definition received {B E : Type} (r : mret B E) : bool := match r with MItem _ _ | MErr (EWorker _) | MErr EAck => true | _ => false end.
Definition confirmed {B E : Type} (r : mret B E) : bool := match r with MItem _ _ | MErr (EWorker _) => true | _ => false end.
Definition waiting {A B E : Type} (s : mstate A B E) : nat := match m_then s with Some _ => 1 | None => 0 end.
Definition done {A B E : Type} (sd : side) (s : mstate A B E) : bool := match sd with L => m_ldone s | R => m_rdone s end.

Section MapSim.
Context {A B E O : Type}.
Variable exec : O -> A -> res E B.
Notation st := (mstate A B E).

(** Everything but what a poll reports. [nd]: nothing was delivered twice so far. *)
Record relx (nd : bool) (s : st) (c : chan) : Prop := {
  rx_pa : prel (m_pa s) c;
  rx_closed : ch_closed c = m_closed s;
  rx_sent : m_closed s = m_sent s;
  rx_pending : ch_pending c = m_pending s;
  rx_env : length (m_tasks s) + length (m_results s) <= ch_inflight c + ch_avail c;
  rx_exact : nd = true -> ch_inflight c = length (m_tasks s) + length (m_results s) /\ ch_avail c = 0 /\ ch_lost c = length (m_lost s);
  rx_idle : ch_poll c = PollIdle;
  rx_then : m_then s <> None -> exists l, ch_ackers c = l ++ [false]
}.
Definition polled (s : st) : Prop :=
  match m_poll s with MIdle => True | MSide sd k => done sd s = false /\ (k = KFirst -> done (other sd) s = false) end.
Record rel (nd : bool) (s : st) (c : chan) : Prop := {
  r_x : relx nd s c;
  r_ends : ends c = b2n (m_rdone s);
  r_ackers : length (ch_ackers c) = cnt received (m_log s) + waiting s;
  r_subs : length (ch_subs c) = cnt confirmed (m_log s);
  r_poll : polled s
}.

(** What the relation reads of a state. *)
Definition reads (s : st) := (m_closed s, m_sent s, m_pending s, length (m_tasks s), length (m_results s), length (m_lost s), m_then s).
Lemma relx_same : forall nd s s' c, relx nd s c -> reads s' = reads s -> prel (m_pa s') c -> relx nd s' c.
Proof.
  intros nd s s' c [H1 H2 H3 H4 H5 H6 H7 H8] Q P. unfold reads in Q. injection Q as Q1 Q2 Q3 Q4 Q5 Q6 Q7.
  constructor; rewrite ?Q1, ?Q2, ?Q3, ?Q4, ?Q5, ?Q6, ?Q7; auto.
Qed.
Lemma prel_woken : forall (p : pall (N * A) E) w c, prel p c -> prel (set_woken p w) c.
Proof. intros p w c H. eapply prel_same; eauto. Qed.

(** The end of the poll of one side. *)
Lemma side_rel : forall nd s c sd k r, relx nd s c -> m_poll s = MSide sd k -> polled s ->
  ends c = b2n (match sd, r with R, SNone => true | _, _ => m_rdone s end) ->
  length (ch_ackers c) = cnt received (m_log s) + waiting s + (match r with SItem x => b2n (received x) | _ => 0 end) ->
  length (ch_subs c) = cnt confirmed (m_log s) + (match r with SItem x => b2n (confirmed x) | _ => 0 end) ->
  rel nd (side_done s sd k r) c.
Proof.
  intros nd s c sd k r X P PO EN AC SU. pose proof (rx_pa _ _ _ X) as PA. unfold polled in PO. rewrite P in PO. destruct PO as [PO1 PO2].
  destruct r as [x| |]; cbn [side_done].
  - constructor; cbn; rewrite ?cnt_cons; try lia; auto.
    + eapply relx_same; [exact X|reflexivity|]. cbn. destruct x; auto; now apply prel_woken.
    + destruct sd; exact EN.
    + unfold waiting in *. cbn in *. lia.
  - assert (Y : forall s' lg p, s' = finish s sd -> cnt received lg = cnt received (m_log s) -> cnt confirmed lg = cnt confirmed (m_log s) ->
      match p with MIdle => True | MSide sd' k' => sd' = other sd /\ k = KFirst /\ k' <> KFirst end ->
      rel nd (mkM (m_pa s') (m_sent s') (m_closed s') (m_pending s') (m_tasks s') (m_results s') (m_resreg s') (m_then s') (m_next s') (m_ldone s') (m_rdone s') p lg (m_lost s')) c).
    { intros s' lg p -> G1 G2 PP. constructor; cbn; rewrite ?G1, ?G2; auto.
      - eapply relx_same; [exact X|reflexivity|exact PA].
      - destruct sd; exact EN.
      - unfold waiting in *. cbn in *. lia.
      - lia.
      - unfold polled. cbn. destruct p as [|sd' k']; [exact Logic.I|]. destruct PP as (-> & -> & NK). split; [|intros Z; contradiction].
        specialize (PO2 eq_refl). destruct sd; exact PO2. }
    destruct k as [|[|]|].
    + assert (NK : KSecond true <> KFirst) by discriminate.
      exact (Y (finish s sd) (m_log s) (MSide (other sd) (KSecond true)) eq_refl eq_refl eq_refl (conj eq_refl (conj eq_refl NK))).
    + exact (Y (finish s sd) (MNone :: m_log s) MIdle eq_refl eq_refl eq_refl Logic.I).
    + exact (Y (finish s sd) (MPending :: m_log s) MIdle eq_refl eq_refl eq_refl Logic.I).
    + exact (Y (finish s sd) (MNone :: m_log s) MIdle eq_refl eq_refl eq_refl Logic.I).
  - assert (EN' : ends c = b2n (m_rdone s)) by (destruct sd; exact EN).
    assert (Y : rel nd (m_return s MPending) c).
    { constructor; cbn; rewrite ?cnt_cons; auto; try exact Logic.I; try (unfold waiting in *; cbn in *; lia).
      eapply relx_same; [exact X|reflexivity|exact PA]. }
    destruct k as [|b|]; try exact Y. constructor; cbn; auto.
    + eapply relx_same; [exact X|reflexivity|exact PA].
    + unfold waiting in *. cbn in *. lia.
    + lia.
    + unfold polled. cbn. specialize (PO2 eq_refl). split; [destruct sd; exact PO2|discriminate].
Qed.

(** Steps of the channel the simulation may take. *)
Definition allowed (nd : bool) (e : chan_event) : bool :=
  match e with EvPollInner RNone => false | EvDupResult => negb nd | _ => true end.
Definition few (k : nat) (nd : bool) (ctr : list chan_event) : bool := forallb (allowed nd) ctr && (length ctr <=? k).
Lemma few_app : forall i j k nd a b, few i nd a = true -> few j nd b = true -> i + j <= k -> few k nd (a ++ b) = true.
Proof.
  intros i j k nd a b H1 H2 L. unfold few in *. apply andb_true_iff in H1 as [H1 K1]. apply andb_true_iff in H2 as [H2 K2].
  apply Nat.leb_le in K1, K2. rewrite forallb_app, H1, H2, app_length. apply Nat.leb_le. lia.
Qed.
Lemma pub_allowed : forall nd ctr, few_pub ctr = true -> few 2 nd ctr = true.
Proof.
  intros nd ctr H. unfold few_pub, few in *. apply andb_true_iff in H as [H K]. rewrite K, andb_true_r. rewrite forallb_forall in *. intros e I. specialize (H e I). now destruct e.
Qed.
Lemma pub_allowed8 : forall nd ctr, few_pub ctr = true -> few 8 nd ctr = true.
Proof. intros nd ctr H. rewrite <- (app_nil_r ctr). apply (few_app 2 0); [now apply pub_allowed|reflexivity|lia]. Qed.

(** The sending future ends: [close], then [drop]; or [drop] only. *)
Lemma close_sim : forall c, ch_closed c = false -> exists c',
  run_from chan_step c [EvClose; EvCloseStep (length (ch_closes c)) true; EvCloseStep (length (ch_closes c)) true; EvCloseStep (length (ch_closes c)) true;
                        EvDrop; EvCloseStep (S (length (ch_closes c))) true] = Some c' /\
  ch_closed c' = true /\ ch_pubs c' = ch_pubs c /\
  (ch_pending c', ch_inflight c', ch_avail c', ch_lost c', ch_ackers c', ch_poll c', (ch_log c', ch_sent c', ch_subs c')) =
  (ch_pending c, ch_inflight c, ch_avail c, ch_lost c, ch_ackers c, ch_poll c, (ch_log c, ch_sent c, ch_subs c)).
Proof.
  intros c H. set (n := length (ch_closes c)).
  assert (U : forall p q, upd n q (ch_closes c ++ [p]) = ch_closes c ++ [q]).
  { intros p q. assert (V : nth_error (ch_closes c ++ [p]) n = Some p) by (unfold n; rewrite nth_error_app2, Nat.sub_diag; auto).
    unfold n. clear. induction (ch_closes c); cbn; [reflexivity|now rewrite IHl]. }
  assert (V : forall p, nth_error (ch_closes c ++ [p]) n = Some p) by (intros p; unfold n; rewrite nth_error_app2, Nat.sub_diag; auto).
  cbn [run_from chan_step set_closes ch_closes ch_closed]. rewrite V. cbn [close_step set_closes ch_closes ch_closed]. rewrite U, V. cbn [close_step set_closes ch_closes ch_closed].
  rewrite H, U, V. cbn [close_step set_closes ch_closes ch_closed]. rewrite U.
  assert (W : forall p q, nth_error ((ch_closes c ++ [p]) ++ [q]) (S n) = Some q).
  { intros p q. rewrite nth_error_app2; rewrite app_length; cbn [length]; [|unfold n; lia]. replace (S n - (length (ch_closes c) + 1)) with 0 by (unfold n; lia). reflexivity. }
  rewrite W.
  cbn. eexists. split; [reflexivity|]. cbn. auto.
Qed.
Lemma drop_sim : forall c, ch_closed c = false -> exists c',
  run_from chan_step c [EvDrop; EvCloseStep (length (ch_closes c)) true; EvCloseStep (length (ch_closes c)) true] = Some c' /\
  ch_closed c' = true /\ ch_pubs c' = ch_pubs c /\
  (ch_pending c', ch_inflight c', ch_avail c', ch_lost c', ch_ackers c', ch_poll c', (ch_log c', ch_sent c', ch_subs c')) =
  (ch_pending c, ch_inflight c, ch_avail c, ch_lost c, ch_ackers c, ch_poll c, (ch_log c, ch_sent c, ch_subs c)).
Proof.
  intros c H. set (n := length (ch_closes c)).
  assert (U : forall p q, upd n q (ch_closes c ++ [p]) = ch_closes c ++ [q]).
  { intros p q. unfold n. clear. induction (ch_closes c); cbn; [reflexivity|now rewrite IHl]. }
  assert (V : forall p, nth_error (ch_closes c ++ [p]) n = Some p) by (intros p; unfold n; rewrite nth_error_app2, Nat.sub_diag; auto).
  cbn [run_from chan_step set_closes ch_closes ch_closed]. rewrite V. cbn [close_step set_closes ch_closes ch_closed]. rewrite H, U, V.
  cbn [close_step set_closes ch_closes ch_closed]. eexists. split; [reflexivity|]. cbn. auto.
Qed.

Lemma end_sim : forall nd s c p ok, relx nd s c -> prel p c -> m_sent s = false ->
  exists ctr c', run_from chan_step c ctr = Some c' /\ few 6 nd ctr = true /\ relx nd (sender_done s p) c' /\
    ends c' = ends c /\ ch_ackers c' = ch_ackers c /\ ch_subs c' = ch_subs c /\ (ok = true -> In EvClose ctr).
Proof.
  intros nd s c p ok X P F. destruct X as [H1 H2 H3 H4 H5 H6 H7 H8].
  assert (C : ch_closed c = false) by congruence.
  assert (G : forall c', ch_closed c' = true -> ch_pubs c' = ch_pubs c ->
    (ch_pending c', ch_inflight c', ch_avail c', ch_lost c', ch_ackers c', ch_poll c', (ch_log c', ch_sent c', ch_subs c')) =
    (ch_pending c, ch_inflight c, ch_avail c, ch_lost c, ch_ackers c, ch_poll c, (ch_log c, ch_sent c, ch_subs c)) ->
    relx nd (sender_done s p) c' /\ ends c' = ends c /\ ch_ackers c' = ch_ackers c /\ ch_subs c' = ch_subs c).
  { intros c' K1 K2 K3. injection K3 as Z1 Z2 Z3 Z4 Z5 Z6 Z7 Z8 Z9.
    split; [|unfold ends; rewrite Z7; auto]. constructor; cbn; rewrite ?Z1, ?Z2, ?Z3, ?Z4, ?Z5, ?Z6; auto.
    destruct P as [P1 P2 P3 P4 P5 P6 P7 P8 P9 P10]. constructor; rewrite ?K2, ?Z8; auto. }
  destruct ok.
  - destruct (close_sim c C) as (c' & R & K1 & K2 & K3). eexists. exists c'. split; [exact R|]. split; [reflexivity|].
    destruct (G c' K1 K2 K3) as (G1 & G2 & G3 & G4). split; [exact G1|]. split; [exact G2|]. split; [exact G3|]. split; [exact G4|]. intros _. now left.
  - destruct (drop_sim c C) as (c' & R & K1 & K2 & K3). eexists. exists c'. split; [exact R|]. split; [reflexivity|].
    destruct (G c' K1 K2 K3) as (G1 & G2 & G3 & G4). split; [exact G1|]. split; [exact G2|]. split; [exact G3|]. split; [exact G4|]. discriminate.
Qed.

Lemma run_one : forall (X Y : Type) (stp : X -> Y -> option X) a t1 b t2 c, run_from stp a t1 = Some b -> run_from stp b t2 = Some c -> run_from stp a (t1 ++ t2) = Some c.
Proof. intros. apply run_from_app. eauto. Qed.

Lemma map_step_sim : forall nd s c e s', rel nd s c -> m_step exec s e = Some s' ->
  exists ctr c', run_from chan_step c ctr = Some c' /\ few 8 (nd && negb (duplicates e)) ctr = true /\ rel (nd && negb (duplicates e)) s' c'.
Proof.
  intros nd s c e s' RL H. pose proof RL as RL0. destruct RL as [X EN AC SU PO]. pose proof X as X0. destruct X as [H1 H2 H3 H4 H5 H6 H7 H8].
  assert (SAME : forall s2, duplicates e = false -> s' = s2 -> rel nd s2 c ->
    exists ctr c', run_from chan_step c ctr = Some c' /\ few 8 (nd && negb (duplicates e)) ctr = true /\ rel (nd && negb (duplicates e)) s' c').
  { intros s2 D -> RL2. exists [], c. rewrite D, andb_true_r. auto. }
  destruct e as [| e | | | | | | | | e | ok | i o | i | i | i | i]; cbn [m_step duplicates negb] in H |- *; rewrite ?andb_true_r, ?andb_false_r.
  - (* MPoll *)
    destruct (m_poll s) eqn:P; [|discriminate H]. cbn [m_ldone m_rdone set_pa] in H.
    assert (PW : prel (set_woken (m_pa s) false) c) by now apply prel_woken.
    destruct (m_ldone s) eqn:LD, (m_rdone s) eqn:RD; injection H as <-; (exists [], c; split; [reflexivity|]; split; [reflexivity|]);
      constructor; cbn; rewrite ?cnt_cons, ?LD, ?RD; auto; try (eapply relx_same; [exact X0|reflexivity|exact PW]).
    all: try (exact Logic.I).
    all: unfold polled; cbn; rewrite ?LD, ?RD; try (split; [auto|discriminate]).
    destruct (m_next s); cbn; auto.
  - (* MLeft *)
    destruct (m_poll s) as [|[|] k] eqn:P; try discriminate H.
    destruct (m_sent s || negb (poll_event e)) eqn:G; [discriminate H|]. apply orb_false_iff in G as [G1 G2]. apply negb_false_iff in G2.
    assert (AN : forall p, pa_step (m_pa s) e = Some p -> pa_acc p = pa_acc (m_pa s)).
    { intros p S. unfold pa_step in S. destruct (pa_ret (m_pa s)); [destruct e; discriminate|]. destruct e; try discriminate G2;
      repeat match type of S with match ?x with _ => _ end = Some _ => destruct x eqn:?; try discriminate S end; injection S as <-; reflexivity. }
    assert (ST : forall p, pa_step (m_pa s) e = Some p -> (forall i, e <> PaStart i) -> (forall i, e <> PaRefuse i) -> s' = left_done s k p ->
      exists ctr c', run_from chan_step c ctr = Some c' /\ few 8 nd ctr = true /\ rel nd s' c').
    { intros p S NS NR ->.
      destruct (pa_sim _ _ _ c H1 S) as (ctr & c1 & R1 & F1 & P1 & Q1 & Q2 & Q3 & Q4); [intros i Z; exfalso; eapply NS; eauto|intros i Z; exfalso; eapply NR; eauto|].
      unfold rest_of in Q1. injection Q1 as Z1 Z2 Z3 Z4 Z5 Z6 Z7 Z8 Z9.
      assert (Q2' : ch_pending c1 = ch_pending c) by (destruct e; auto; exfalso; eapply NS; reflexivity).
      assert (Q3' : ch_inflight c1 = ch_inflight c) by (rewrite Q3, (AN p S), Nat.sub_diag; lia).
      assert (X1 : relx nd (set_pa s p) c1).
      { constructor; cbn; rewrite ?Z1, ?Z3, ?Z4, ?Z5, ?Z7, ?Q2', ?Q3'; auto. }
      assert (EE : ends c1 = ends c) by (unfold ends; now rewrite Z8).
      unfold left_done. destruct (pa_ret p) as [q|] eqn:RP.
      - assert (GO : forall (ok : bool) (r : sret (B := B) (E := E)), (r = SNone \/ exists x, r = SItem x /\ received x = false) ->
          exists ctr c', run_from chan_step c ctr = Some c' /\ few 8 nd ctr = true /\ rel nd (side_done (sender_done s p) L k r) c').
        { intros ok r RR. destruct (end_sim nd (set_pa s p) c1 p ok X1 P1 G1) as (ct2 & c2 & R2 & F2 & X2 & E2 & A2 & S2 & _).
          exists (ctr ++ ct2), c2. split; [eapply run_one; eauto|]. split; [eapply (few_app 2 6); [now apply pub_allowed|exact F2|lia]|].
          assert (CF : forall x : mret B E, received x = false -> confirmed x = false) by (intros [|[]| |]; cbn; auto).
          apply side_rel; auto.
          - cbn. rewrite E2, EE, EN. destruct r; reflexivity.
          - cbn. rewrite A2, Z5, AC. unfold waiting. cbn. destruct RR as [-> | (x & -> & RX)]; [lia|]. rewrite RX. cbn. lia.
          - cbn. rewrite S2, Z9, SU. destruct RR as [-> | (x & -> & RX)]; [lia|]. rewrite (CF x RX). cbn. lia. }
        destruct q as [|x|n].
        + apply (GO true). now left.
        + apply (GO false). right. eexists. split; [reflexivity|reflexivity].
        + apply (GO false). right. eexists. split; [reflexivity|reflexivity].
      - exists ctr, c1. split; [exact R1|]. split; [now apply pub_allowed8|]. constructor; cbn; auto; rewrite ?EE, ?Z5, ?Z9; auto. }
    destruct e as [|i|i|i|i| | | |i|i ok|i]; try discriminate G2.
    + destruct (pa_inreg (m_pa s)); [discriminate H|]. destruct (pa_step (m_pa s) PaPull) as [p|] eqn:S; [|discriminate H]. injection H as <-.
      apply (ST p eq_refl); auto; discriminate.
    + destruct (m_closed s) eqn:C; [discriminate H|]. destruct (pa_step (m_pa s) (PaStart i)) as [p|] eqn:S; [|discriminate H]. injection H as <-.
      destruct (pa_sim _ _ _ c H1 S) as (ctr & c1 & R1 & F1 & P1 & Q1 & Q2 & Q3 & Q4); [intros; congruence|discriminate|].
      unfold rest_of in Q1. injection Q1 as Z1 Z2 Z3 Z4 Z5 Z6 Z7 Z8 Z9.
      assert (Q3' : ch_inflight c1 = ch_inflight c) by (rewrite Q3, (AN p eq_refl), Nat.sub_diag; lia).
      exists ctr, c1. split; [exact R1|]. split; [now apply pub_allowed8|].
      constructor; cbn; rewrite ?Z5, ?Z9; auto; [|unfold ends in *; rewrite Z8; exact EN].
      constructor; cbn; rewrite ?Z1, ?Z3, ?Z4, ?Z5, ?Z7, ?Q2, ?Q3'; auto; [congruence|congruence|now rewrite H4].
    + destruct (m_closed s) eqn:C; [|discriminate H]. congruence.
    + destruct (pa_step (m_pa s) (PaCheck i)) as [p|] eqn:S; [|discriminate H]. injection H as <-. apply (ST p eq_refl); auto; discriminate.
    + destruct (pa_step (m_pa s) (PaFinish i)) as [p|] eqn:S; [|discriminate H]. injection H as <-. apply (ST p eq_refl); auto; discriminate.
    + destruct (pa_step (m_pa s) PaReturn) as [p|] eqn:S; [|discriminate H]. injection H as <-. apply (ST p eq_refl); auto; discriminate.
  - (* MLeftPend *)
    destruct (m_poll s) as [|[|] k] eqn:P; try discriminate H. destruct (negb (m_sent s) && pa_idle (m_pa s)); [|discriminate H]. injection H as <-.
    exists [], c. split; [reflexivity|]. split; [reflexivity|].
    apply (side_rel nd s c L k SPend); auto; lia.
  - destruct (m_poll s) as [|[|] k] eqn:P; try discriminate H. destruct (m_sent s) eqn:G; [|discriminate H]. injection H as <-.
    exists [], c. split; [reflexivity|]. split; [reflexivity|].
    apply (side_rel nd s c L k SNone); auto; lia.
  - (* MTake *)
    destruct (m_poll s) as [|[|] k] eqn:P; try discriminate H. destruct (m_then s) eqn:Tn; [discriminate H|].
    destruct (m_results s) as [|r rs] eqn:Rs; [discriminate H|]. injection H as <-. cbn [length] in H5, H6.
    assert (GO : forall c0 ctr0 n, run_from chan_step c ctr0 = Some c0 -> few 1 nd ctr0 = true ->
       (ch_closed c0, ch_pending c0, ch_lost c0, ch_ackers c0, ch_poll c0, ch_log c0, (ch_sent c0, ch_subs c0, ch_pubs c0)) = (ch_closed c, ch_pending c, ch_lost c, ch_ackers c, ch_poll c, ch_log c, (ch_sent c, ch_subs c, ch_pubs c)) ->
       ch_avail c0 = S n -> length (m_tasks s) + length rs <= ch_inflight c0 + n -> (nd = true -> ch_inflight c0 = length (m_tasks s) + length rs /\ n = 0) ->
       exists ctr c', run_from chan_step c ctr = Some c' /\ few 8 nd ctr = true /\
         rel nd (set_then (set_queues s (m_tasks s) rs (m_lost s)) (Some (r, ANew))) c').
    { intros c0 ctr0 n R0 F0 Q AV LE EX. injection Q as Z1 Z2 Z3 Z4 Z5 Z6 Z7 Z8 Z9.
      exists (ctr0 ++ [EvPoll; EvPollInner RItem]). eexists. split; [eapply run_one; [exact R0|]|].
      - cbn [run_from chan_step]. rewrite Z5, H7. cbn [set_poll ch_poll ch_avail]. rewrite AV. reflexivity.
      - split; [eapply (few_app 1 2); [exact F0|reflexivity|lia]|]. cbn [set_poll ch_closed ch_pending ch_pubs ch_closes ch_inflight ch_lost ch_ackers ch_acks ch_log ch_sent ch_subs ch_calls].
        constructor; cbn; rewrite ?Z1, ?Z2, ?Z3, ?Z4, ?Z5, ?Z6, ?Z7, ?Z8, ?Z9; auto.
        + constructor; cbn; rewrite ?Z1, ?Z2, ?Z3, ?Z4; auto.
          * destruct H1 as [P1 P2 P3 P4 P5 P6 P7 P8 P9 P10]. constructor; cbn; rewrite ?Z7, ?Z9; auto.
          * intros D. destruct (EX D). destruct (H6 D) as (_ & _ & W). auto.
          * intros _. eauto.
        + rewrite app_length. unfold waiting in *. rewrite Tn in AC. cbn. lia. }
    destruct (ch_avail c) as [|n] eqn:AV.
    + assert (exists m, ch_inflight c = S m) as [m IM] by (destruct (ch_inflight c); [lia|eauto]).
      eapply (GO _ [EvResult] 0); [cbn [run_from chan_step]; rewrite IM; reflexivity|reflexivity|reflexivity|cbn; now rewrite AV|cbn; lia|].
      intros D. destruct (H6 D) as (W & _ & _). cbn. lia.
    + eapply (GO c [] n); auto; [lia|]. intros D. destruct (H6 D) as (W & W2 & _). discriminate W2.
  - (* MEmpty *)
    destruct (m_poll s) as [|[|] k] eqn:P; try discriminate H. destruct (m_then s) eqn:Tn; [discriminate H|].
    destruct (m_results s) as [|r rs] eqn:Rs; [|discriminate H]. injection H as <-.
    exists [EvPoll; EvPollInner RPending; EvPollStep; EvPollStep]. cbn [run_from chan_step]. rewrite H7. cbn [set_poll ch_poll poll_step run_from chan_step ch_pending ch_closed ch_log].
    eexists. split; [reflexivity|]. split; [reflexivity|]. cbn [set_poll ch_closed ch_pending ch_pubs ch_closes ch_inflight ch_avail ch_lost ch_ackers ch_acks ch_log ch_sent ch_subs ch_calls].
    unfold polled in PO. rewrite P in PO. destruct PO as [PO1 PO2]. cbn [done] in PO1.
    rewrite H2, H4. apply side_rel; auto.
    + constructor; cbn; rewrite ?Tn; auto.
      destruct H1 as [P1 P2 P3 P4 P5 P6 P7 P8 P9 P10]. constructor; cbn; auto.
    + unfold polled. cbn. auto.
    + unfold ends in *. cbn. rewrite PO1 in *. destruct (m_closed s && (m_pending s =? 0)%N); cbn; [now rewrite EN|exact EN].
    + cbn. unfold waiting in *. rewrite Tn in AC. cbn in *. destruct (m_closed s && (m_pending s =? 0)%N); lia.
    + cbn. destruct (m_closed s && (m_pending s =? 0)%N); lia.
  - (* MAckStart *)
    destruct (m_poll s) as [|[|] k] eqn:P; try discriminate H. destruct (m_then s) as [[r [|b|b]]|] eqn:Tn; try discriminate H. injection H as <-.
    exists [], c. split; [reflexivity|]. split; [reflexivity|]. constructor; cbn; auto.
    + constructor; cbn; auto. intros _. apply H8. discriminate.
    + unfold waiting in *. rewrite Tn in AC. cbn. exact AC.
  - (* MAckCheck *)
    destruct (m_poll s) as [|[|] k] eqn:P; try discriminate H. destruct (m_then s) as [[r [|b|b]]|] eqn:Tn; try discriminate H. injection H as <-.
    exists [], c. split; [reflexivity|]. split; [reflexivity|]. apply (side_rel nd (set_then s (Some (r, AWait true))) c R k SPend); auto.
    + constructor; cbn; auto. intros _. apply H8. discriminate.
    + unfold waiting in *. rewrite Tn in AC. cbn. lia.
    + cbn. lia.
  - (* MAckFinish *)
    destruct (m_poll s) as [|[|] k] eqn:P; try discriminate H. destruct (m_then s) as [[r [|b|[|]]]|] eqn:Tn; try discriminate H; injection H as <-.
    + destruct (H8 ltac:(discriminate)) as (l & LA).
      set (a := length l). set (j := length (ch_acks c)).
      assert (U : forall (Y : Type) (t : list Y) p q, upd (length t) q (t ++ [p]) = t ++ [q]).
      { intros Y t p q. clear. induction t; cbn; [reflexivity|now rewrite IHt]. }
      assert (V : forall (Y : Type) (t : list Y) p, nth_error (t ++ [p]) (length t) = Some p) by (intros Y t p; rewrite nth_error_app2, Nat.sub_diag; auto).
      exists [EvAck a; EvAckStep j; EvAckStep j]. cbn [run_from chan_step]. rewrite LA, app_length. cbn [length].
      replace (Nat.ltb a (length l + 1)) with true by (symmetry; apply Nat.ltb_lt; unfold a; lia).
      cbn [set_acks ch_acks]. unfold j. rewrite V. cbn [ack_step set_acks ch_ackers ch_acks]. rewrite LA. unfold a. rewrite V. cbn [ch_acks]. rewrite !U, V. cbn [ack_step].
      eexists. split; [reflexivity|]. split; [reflexivity|]. cbn [ch_closed ch_pending ch_pubs ch_closes ch_inflight ch_avail ch_lost ch_ackers ch_acks ch_poll ch_log ch_sent ch_subs ch_calls].
      apply (side_rel nd (set_pending (set_pa (set_then s None) (set_woken (m_pa s) (pa_woken (m_pa s) || (m_pending s =? 1)%N))) (wpred (m_pending s))) _ R k
        (SItem (match snd r with ROk y => MItem (fst (fst r)) y | RErr e => MErr (EWorker e) end))); auto.
      * constructor; cbn; auto; [|now rewrite H4|intros Z; now contradiction Z].
        apply prel_woken. destruct H1 as [P1 P2 P3 P4 P5 P6 P7 P8 P9 P10]. constructor; cbn; auto.
      * cbn. rewrite app_length. cbn. unfold waiting in *. rewrite Tn in AC. cbn in *. rewrite LA, app_length in AC. cbn in AC. destruct (snd r); cbn; lia.
      * cbn. rewrite SU. destruct (snd r); cbn; lia.
    + exists [], c. split; [reflexivity|]. split; [reflexivity|]. apply (side_rel nd (set_then s None) c R k (SItem (MErr EAck))); auto.
      * constructor; cbn; auto.
      * cbn. unfold waiting in *. rewrite Tn in AC. cbn in *. lia.
      * cbn. lia.
  - (* MEnv *)
    destruct (poll_event e) eqn:PE; [discriminate H|]. destruct (pa_step (m_pa s) e) as [p|] eqn:S; [|discriminate H]. injection H as <-.
    destruct (pa_sim _ _ _ c H1 S) as (ctr & c1 & R1 & F1 & P1 & Q1 & Q2 & Q3 & Q4); [intros i ->; discriminate PE|intros i ->; discriminate PE|].
    unfold rest_of in Q1. injection Q1 as Z1 Z2 Z3 Z4 Z5 Z6 Z7 Z8 Z9.
    assert (Q2' : ch_pending c1 = ch_pending c) by (destruct e; auto; discriminate PE).
    exists ctr, c1. split; [exact R1|]. split; [now apply pub_allowed8|].
    constructor; cbn; rewrite ?Z5, ?Z9; auto; [|unfold ends in *; rewrite Z8; exact EN].
    constructor; cbn; rewrite ?Z1, ?Z3, ?Z4, ?Z5, ?Z7, ?Q2', ?Q3; auto.
    + rewrite app_length, map_length, skipn_length. lia.
    + intros D. destruct (H6 D) as (W1 & W2 & W3). rewrite app_length, map_length, skipn_length. repeat split; auto. lia.
  - (* MAckReply *)
    destruct (m_then s) as [[r [|b|b]]|] eqn:Tn; try discriminate H. injection H as <-.
    exists [], c. split; [reflexivity|]. split; [reflexivity|]. constructor; cbn; auto.
    + constructor; cbn; auto; [now apply prel_woken|]. intros _. apply H8. discriminate.
    + unfold waiting in *. rewrite Tn in AC. cbn. exact AC.
  - (* MWork *)
    destruct (pick i (m_tasks s)) as [[t ts]|] eqn:K; [|discriminate H]. injection H as <-. apply pick_length in K.
    exists [], c. split; [reflexivity|]. split; [reflexivity|]. constructor; cbn; auto.
    constructor; cbn; auto; rewrite ?app_length; cbn; [now apply prel_woken|lia|]. intros D. destruct (H6 D) as (W1 & W2 & W3). repeat split; auto. lia.
  - (* MLose *)
    destruct (pick i (m_tasks s)) as [[t ts]|] eqn:K; [|discriminate H]. injection H as <-. apply pick_length in K.
    destruct (ch_inflight c) as [|m] eqn:IF.
    + exists [], c. split; [reflexivity|]. split; [reflexivity|]. constructor; cbn; auto. constructor; cbn; auto; rewrite ?IF; [lia|].
      intros D. destruct (H6 D) as (W1 & W2 & W3). lia.
    + exists [EvLoseMsg]. cbn [run_from chan_step]. rewrite IF. eexists. split; [reflexivity|]. split; [reflexivity|]. constructor; cbn; auto.
      constructor; cbn; auto; [|lia|intros D; destruct (H6 D) as (W1 & W2 & W3); repeat split; auto; lia].
      destruct H1 as [P1 P2 P3 P4 P5 P6 P7 P8 P9 P10]. constructor; cbn; auto.
  - (* MLoseResult *)
    destruct (pick i (m_results s)) as [[t ts]|] eqn:K; [|discriminate H]. injection H as <-. apply pick_length in K.
    destruct (ch_inflight c) as [|m] eqn:IF.
    + exists [], c. split; [reflexivity|]. split; [reflexivity|]. constructor; cbn; auto. constructor; cbn; auto; rewrite ?IF; [lia|].
      intros D. destruct (H6 D) as (W1 & W2 & W3). lia.
    + exists [EvLoseMsg]. cbn [run_from chan_step]. rewrite IF. eexists. split; [reflexivity|]. split; [reflexivity|]. constructor; cbn; auto.
      constructor; cbn; auto; [|lia|intros D; destruct (H6 D) as (W1 & W2 & W3); repeat split; auto; lia].
      destruct H1 as [P1 P2 P3 P4 P5 P6 P7 P8 P9 P10]. constructor; cbn; auto.
  - (* MDupTask *)
    destruct (nth_error (m_tasks s) i) as [t|] eqn:K; [|discriminate H]. injection H as <-.
    exists [EvDupResult]. cbn [run_from chan_step]. eexists. split; [reflexivity|]. split; [reflexivity|]. constructor; cbn; auto.
    constructor; cbn; auto; [|rewrite app_length; cbn; lia|discriminate].
    destruct H1 as [P1 P2 P3 P4 P5 P6 P7 P8 P9 P10]. constructor; cbn; auto.
  - destruct (nth_error (m_results s) i) as [t|] eqn:K; [|discriminate H]. injection H as <-.
    exists [EvDupResult]. cbn [run_from chan_step]. eexists. split; [reflexivity|]. split; [reflexivity|]. constructor; cbn; auto.
    constructor; cbn; auto; [|rewrite app_length; cbn; lia|discriminate].
    apply prel_woken. destruct H1 as [P1 P2 P3 P4 P5 P6 P7 P8 P9 P10]. constructor; cbn; auto.
Qed.
End MapSim.
