(** How many items a mapped stream yields, whatever comes back a second time. *)
From Coq Require Import List Arith NArith Bool Lia Permutation.
From Verif Require Import Base BaseFacts CoordModel PublishModel PublishSpec PublishProofs MapModel MapSpec MapProofs.
Import ListNotations.
Open Scope nat_scope.
Local Opaque usize_max usize_mod wsucc wpred.

Section Count.
Context {A B E O : Type}.
Variable exec : O -> A -> res E B.
Notation st := (mstate A B E).
Notation step := (m_step exec).
Arguments cnt : simpl never.

(** The acknowledgements that were counted: one for each item or worker's error returned. *)
Definition is_ack (r : mret B E) : bool := match r with MItem _ _ | MErr (EWorker _) => true | _ => false end.
Definition congr (a b : N) : Prop := (a mod usize_mod = b mod usize_mod)%N.

Lemma mod_nz : usize_mod <> 0%N.
Proof. Local Transparent usize_mod. discriminate. Qed.
Local Opaque usize_mod.
Lemma congr_wsucc : forall p a b, congr (p + a) b -> congr (wsucc p + a) (b + 1).
Proof.
  intros p a b H. Local Transparent wsucc. unfold wsucc, congr in *. Local Opaque wsucc. rewrite N.add_mod_idemp_l by exact mod_nz. replace (p + 1 + a)%N with (p + a + 1)%N by lia.
  rewrite <- N.add_mod_idemp_l, H, N.add_mod_idemp_l by exact mod_nz. reflexivity.
Qed.
Lemma congr_wpred : forall p a b, congr (p + a) b -> congr (wpred p + (1 + a)) b.
Proof.
  intros p a b H. Local Transparent wpred. unfold wpred. Local Opaque wpred. destruct (N.eqb_spec p 0) as [->|D].
  - unfold congr in *. cbn [N.add] in H. rewrite <- H. Local Transparent usize_max. unfold usize_max. Local Opaque usize_max.
    replace (usize_mod - 1 + (1 + a))%N with (a + 1 * usize_mod)%N by (pose proof mod_nz; lia). apply N.mod_add. exact mod_nz.
  - replace (p - 1 + (1 + a))%N with (p + a)%N by lia. exact H.
Qed.

Lemma pa_started : forall (s : pall (N * A) E) e s', pa_step s e = Some s' -> (forall i, e <> PaRefuse i) -> pa_ret s = None -> pa_ret s' = None \/ pa_ret s' = Some PaOk ->
  cnt is_new (pa_futs s') + starts e + length (pa_pulled s) = cnt is_new (pa_futs s) + length (pa_pulled s').
Proof.
  intros s e s' H NR R R'. unfold pa_step in H. rewrite R in H.
  destruct e as [|i|i|i|i| | | |i|i ok|i]; try discriminate; cbn [starts] in *.
  - destruct (pa_open s && may_pull s); [|discriminate]. destruct (pa_arr s) as [|[x|x] arr]; [destruct (pa_end s)| |]; injection H as <-; cbn [pa_futs pa_pulled]; try lia.
    + rewrite cnt_app, app_length, cnt_one. cbn. lia.
    + cbn in R'. destruct R'; discriminate.
  - destruct (nth_error (pa_futs s) i) as [[[n x] [|a b|b]]|] eqn:Q; try discriminate. injection H as <-.
    pose proof (cnt_upd _ is_new i _ _ (n, x, FWait false false) Q) as C. cbn in C. cbn [pa_futs pa_pulled set_futs]. lia.
  - now destruct (NR i).
  - destruct (nth_error (pa_futs s) i) as [[[n x] [|a [|]|b]]|] eqn:Q; try discriminate. injection H as <-.
    pose proof (cnt_upd _ is_new i _ _ (n, x, FWait a true) Q) as C. cbn in C. cbn [pa_futs pa_pulled set_futs]. lia.
  - destruct (pick i (pa_futs s)) as [[[[n x] [|a b|[|]]] r]|] eqn:P; try discriminate; injection H as <-; [|destruct R'; discriminate].
    pose proof (cnt_pick _ is_new _ _ _ _ P) as C. cbn in C. cbn [pa_futs pa_pulled set_futs]. lia.
  - destruct (pa_open s); [discriminate|]. destruct (pa_futs s) eqn:F; [|discriminate]. injection H as <-. cbn [pa_futs pa_pulled pa_return]. lia.
  - destruct (pa_late s); [discriminate|]. injection H as <-. cbn [pa_futs pa_pulled]. lia.
  - destruct (pa_late s); [|discriminate]. destruct (pa_end s); [discriminate|]. injection H as <-. cbn [pa_futs pa_pulled]. lia.
  - destruct (nth_error (pa_futs s) i) as [[[n x] [|[|] b|b]]|] eqn:Q; try discriminate. injection H as <-.
    pose proof (cnt_upd _ is_new i _ _ (n, x, FWait true b) Q) as C. cbn in C. cbn [pa_futs pa_pulled]. lia.
  - destruct (nth_error (pa_futs s) i) as [[[n x] [|a b|b]]|] eqn:Q; try discriminate. destruct (negb ok || a); [|discriminate]. injection H as <-.
    pose proof (cnt_upd _ is_new i _ _ (n, x, FReady ok) Q) as C. cbn in C. cbn [pa_futs pa_pulled set_futs set_woken]. lia.
Qed.

Record cinv (inp : list (res E (N * A))) (s : st) : Prop := {
  ci_pa : pinv inp (m_pa s);
  ci_count : exists k, (pa_ret (m_pa s) = None \/ pa_ret (m_pa s) = Some PaOk -> k + cnt is_new (pa_futs (m_pa s)) = length (pa_pulled (m_pa s))) /\
    congr (m_pending s + N.of_nat (cnt is_ack (m_log s))) (N.of_nat k);
  ci_sent : m_sent s = true <-> pa_ret (m_pa s) <> None;
  ci_closed : m_closed s = m_sent s;
  ci_ret : forall r, pa_ret (m_pa s) = Some r -> r <> PaOk -> failed (m_log s) = true;
  ci_rdone : m_rdone s = true -> m_closed s = true /\ m_pending s = 0%N;
  ci_ldone : m_ldone s = true -> m_sent s = true;
  ci_none : ended (m_log s) = true -> m_rdone s = true /\ m_ldone s = true;
  ci_kont : match m_poll s with
            | MIdle | MSide L (KSecond false) => True
            | MSide L (KSecond true) | MSide L KOnly => m_rdone s = true
            | MSide R (KSecond true) | MSide R KOnly => m_ldone s = true /\ m_rdone s = false
            | MSide R (KSecond false) | MSide _ KFirst => m_rdone s = false
            end
}.

Lemma cnt_quiet : forall (r : mret B E) l, is_ack r = false -> cnt is_ack (r :: l) = cnt is_ack l.
Proof. intros r l H. rewrite cnt_cons, H. reflexivity. Qed.
Lemma cinv_quiet : forall inp s sd k r, cinv inp s -> m_poll s = MSide sd k ->
  r = SPend \/ (r = SNone /\ match sd with L => m_sent s = true | R => m_closed s = true /\ m_pending s = 0%N end) -> cinv inp (side_done s sd k r).
Proof.
  intros inp s sd k r I P Q. destruct I. rewrite P in ci_kont0.
  assert (X : forall s', (k = KFirst /\ s' = set_mpoll s (MSide (other sd) (KSecond false)) \/ s' = m_return s MPending) -> cinv inp s').
  { intros s' [[-> ->] | ->]; constructor; cbn; auto. destruct sd; [exact ci_kont0|exact Logic.I]. }
  destruct Q as [-> | [-> Q]].
  - cbn. destruct k; auto.
  - cbn [side_done].
    assert (Y : forall s' lg p, s' = finish s sd -> (lg = m_log s \/ lg = MPending :: m_log s \/ (lg = MNone :: m_log s /\ match sd with L => m_rdone s = true | R => m_ldone s = true end)) ->
      match p with
            | MIdle | MSide L (KSecond false) => True
            | MSide L (KSecond true) | MSide L KOnly => m_rdone s' = true
            | MSide R (KSecond true) | MSide R KOnly => m_ldone s' = true /\ m_rdone s' = false
            | MSide R (KSecond false) | MSide _ KFirst => m_rdone s' = false
            end ->
      cinv inp (mkM (m_pa s') (m_sent s') (m_closed s') (m_pending s') (m_tasks s') (m_results s') (m_resreg s') (m_then s') (m_next s') (m_ldone s') (m_rdone s') p lg (m_lost s'))).
    { intros s' lg p -> LG PP. constructor; cbn; auto.
      - destruct LG as [-> | [-> | [-> _]]]; rewrite ?(cnt_quiet _ _ (eq_refl : is_ack MPending = false)), ?(cnt_quiet _ _ (eq_refl : is_ack MNone = false)); auto.
      - destruct LG as [-> | [-> | [-> _]]]; cbn; auto.
      - destruct sd; auto.
      - destruct sd; auto.
      - destruct LG as [-> | [-> | [-> Z]]]; cbn.
        + intros W. destruct (ci_none0 W). destruct sd; auto.
        + intros W. destruct (ci_none0 W). destruct sd; auto.
        + intros _. destruct sd; auto. }
    destruct k as [|[|]|].
    + exact (Y _ (m_log s) (MSide (other sd) (KSecond true)) eq_refl (or_introl eq_refl) ltac:(destruct sd; cbn; auto)).
    + assert (K : match sd with L => m_rdone s = true | R => m_ldone s = true end) by (destruct sd; [exact ci_kont0|apply ci_kont0]).
      exact (Y _ (MNone :: m_log s) MIdle eq_refl (or_intror (or_intror (conj eq_refl K))) Logic.I).
    + exact (Y _ (MPending :: m_log s) MIdle eq_refl (or_intror (or_introl eq_refl)) Logic.I).
    + assert (K : match sd with L => m_rdone s = true | R => m_ldone s = true end) by (destruct sd; [exact ci_kont0|apply ci_kont0]).
      exact (Y _ (MNone :: m_log s) MIdle eq_refl (or_intror (or_intror (conj eq_refl K))) Logic.I).
Qed.

(** What is in the queues does not matter. *)
Definition same_but_queues (s s' : st) : Prop :=
  (exists w, m_pa s' = set_woken (m_pa s) w) /\ m_sent s' = m_sent s /\ m_closed s' = m_closed s /\ m_pending s' = m_pending s /\ m_ldone s' = m_ldone s /\ m_rdone s' = m_rdone s /\
  m_poll s' = m_poll s /\ m_log s' = m_log s.
Lemma cinv_queues : forall inp s s', cinv inp s -> same_but_queues s s' -> cinv inp s'.
Proof.
  intros inp s s' I ((w & H1) & H2 & H3 & H4 & H5 & H6 & H7 & H8). destruct I. constructor; rewrite ?H1, ?H2, ?H3, ?H4, ?H5, ?H6, ?H7, ?H8; auto. now apply pinv_woken.
Qed.
Lemma woken_same : forall (p : pall (N * A) E), set_woken p (pa_woken p) = p.
Proof. now intros []. Qed.

Lemma cinv_step : forall inp s e s', cinv inp s -> step s e = Some s' -> cinv inp s'.
Proof.
  intros inp s e s' I H. pose proof I as I0. destruct I as [PA (k & CK & CG) SE CS RE RD LD NO KO].
  assert (QU : forall s1, same_but_queues s s1 -> cinv inp s1) by (intros s1; now apply cinv_queues).
  destruct e as [| e | | | | | | | | e | ok | i o | i | i | i | i]; cbn [m_step] in H.
  - (* MPoll *)
    destruct (m_poll s) eqn:P; [|discriminate]. assert (W : pinv inp (set_woken (m_pa s) false)) by now apply pinv_woken.
    cbn in H. destruct (m_ldone s) eqn:LDn, (m_rdone s) eqn:RDn; injection H as <-; cbn; constructor; cbn; rewrite ?LDn, ?RDn; eauto.
    + destruct (m_next s); reflexivity.
  - (* MLeft *)
    destruct (m_poll s) as [|[|] k0] eqn:P; try discriminate.
    destruct (m_sent s || negb (poll_event e)) eqn:G; [discriminate|]. apply orb_false_iff in G as [G1 G2]. apply negb_false_iff in G2.
    assert (NRET : pa_ret (m_pa s) = None).
    { destruct (pa_ret (m_pa s)) eqn:RR; [|reflexivity]. exfalso. assert (m_sent s = true) by (apply SE; congruence). congruence. }
    assert (ST : forall p, pa_step (m_pa s) e = Some p -> starts e = 0 -> (forall i, e <> PaRefuse i) -> cinv inp (left_done s k0 p)).
    { intros p S Z NR. pose proof (pinv_step _ _ _ _ PA S) as PA'. pose proof (pa_started _ _ _ S NR NRET) as PS. rewrite Z in PS. specialize (CK (or_introl NRET)).
      unfold left_done. destruct (pa_ret p) as [[|x|n]|] eqn:RP.
      - apply cinv_quiet; [|cbn; rewrite P; reflexivity|right; split; [reflexivity|reflexivity]]. specialize (PS (or_intror eq_refl)).
        constructor; cbn; eauto; try congruence.
        + exists k. split; [intros _; lia|exact CG].
        + split; [congruence|reflexivity].
        + intros Q. destruct (RD Q). split; [reflexivity|assumption].
        + now rewrite P.
      - cbn. constructor; cbn; eauto; try congruence.
        + now apply pinv_woken.
        + exists k. split; [rewrite RP; intros [Q|Q]; discriminate|]. rewrite cnt_quiet by reflexivity. exact CG.
        + split; [congruence|reflexivity].
        + intros Q. destruct (RD Q). split; [reflexivity|assumption].
      - cbn. constructor; cbn; eauto; try congruence.
        + now apply pinv_woken.
        + exists k. split; [rewrite RP; intros [Q|Q]; discriminate|]. rewrite cnt_quiet by reflexivity. exact CG.
        + split; [congruence|reflexivity].
        + intros Q. destruct (RD Q). split; [reflexivity|assumption].
      - specialize (PS (or_introl eq_refl)). constructor; cbn; eauto; try congruence.
        + exists k. split; [intros _; lia|exact CG].
        + now rewrite P. }
    destruct e as [|i|i|i|i| | | |i|i ok|i]; try discriminate.
    + destruct (pa_inreg (m_pa s)); [discriminate|]. destruct (pa_step (m_pa s) PaPull) as [p|] eqn:S; [|discriminate]. injection H as <-. (apply ST; [reflexivity|reflexivity|intros; discriminate]).
    + destruct (m_closed s) eqn:C; [discriminate|]. destruct (pa_step (m_pa s) (PaStart i)) as [p|] eqn:S; [|discriminate]. injection H as <-.
      assert (RP : pa_ret p = None).
      { unfold pa_step in S. rewrite NRET in S. destruct (nth_error (pa_futs (m_pa s)) i) as [[[n x] [|a b|b]]|]; try discriminate. injection S as <-. exact NRET. }
      pose proof (pinv_step _ _ _ _ PA S) as PA'. pose proof (pa_started _ _ _ S ltac:(congruence) NRET (or_introl RP)) as PS. cbn [starts] in PS. specialize (CK (or_introl NRET)).
      constructor; cbn; eauto; try congruence.
      * exists (k + 1). split; [intros _; lia|]. rewrite Nnat.Nat2N.inj_add. now apply congr_wsucc.
      * intros Q. destruct (RD Q). congruence.
      * now rewrite P.
    + rewrite CS, G1 in H. discriminate.
    + destruct (pa_step (m_pa s) (PaCheck i)) as [p|] eqn:S; [|discriminate]. injection H as <-. (apply ST; [reflexivity|reflexivity|intros; discriminate]).
    + destruct (pa_step (m_pa s) (PaFinish i)) as [p|] eqn:S; [|discriminate]. injection H as <-. (apply ST; [reflexivity|reflexivity|intros; discriminate]).
    + destruct (pa_step (m_pa s) PaReturn) as [p|] eqn:S; [|discriminate]. injection H as <-. (apply ST; [reflexivity|reflexivity|intros; discriminate]).
  - (* MLeftPend *)
    destruct (m_poll s) as [|[|] k0] eqn:P; try discriminate. destruct (negb (m_sent s) && pa_idle (m_pa s)); [|discriminate]. injection H as <-.
    exact (cinv_quiet inp s L k0 SPend I0 P (or_introl eq_refl)).
  - (* MLeftNone *)
    destruct (m_poll s) as [|[|] k0] eqn:P; try discriminate. destruct (m_sent s) eqn:G; [|discriminate]. injection H as <-.
    exact (cinv_quiet inp s L k0 SNone I0 P (or_intror (conj eq_refl G))).
  - (* MTake *)
    destruct (m_poll s) as [|[|] k0] eqn:P; try discriminate. destruct (m_then s) eqn:Tn; [discriminate|].
    destruct (m_results s) as [|r rs] eqn:Rs; [discriminate|]. injection H as <-. apply QU. repeat split; cbn; auto. exists (pa_woken (m_pa s)). now rewrite woken_same.
  - (* MEmpty *)
    destruct (m_poll s) as [|[|] k0] eqn:P; try discriminate. destruct (m_then s) eqn:Tn; [discriminate|].
    destruct (m_results s) as [|r rs] eqn:Rs; [|discriminate]. injection H as <-. apply cinv_quiet.
    + apply QU. repeat split; cbn; auto. exists (pa_woken (m_pa s)). now rewrite woken_same.
    + reflexivity.
    + destruct (m_closed s && (m_pending s =? 0)%N) eqn:G; [right|now left]. apply andb_true_iff in G as [G1 G2].
      split; [reflexivity|]. split; [exact G1|]. now apply N.eqb_eq.
  - (* MAckStart *)
    destruct (m_poll s) as [|[|] k0] eqn:P; try discriminate. destruct (m_then s) as [[r [|b|b]]|] eqn:Tn; try discriminate. injection H as <-.
    apply QU. repeat split; cbn; auto. exists (pa_woken (m_pa s)). now rewrite woken_same.
  - (* MAckCheck *)
    destruct (m_poll s) as [|[|] k0] eqn:P; try discriminate. destruct (m_then s) as [[r [|b|b]]|] eqn:Tn; try discriminate. injection H as <-.
    apply (cinv_quiet inp (set_then s (Some (r, AWait true))) R k0 SPend); [|exact P|auto]. apply QU. repeat split; cbn; auto. exists (pa_woken (m_pa s)). now rewrite woken_same.
  - (* MAckFinish *)
    destruct (m_poll s) as [|[|] k0] eqn:P; try discriminate. destruct (m_then s) as [[r [|b|[|]]]|] eqn:Tn; try discriminate; injection H as <-.
    + assert (RDF : m_rdone s = false) by (destruct k0 as [|[|]|]; tauto). unfold side_done. destruct (snd r) as [y|x] eqn:Sr.
      * constructor; cbn; rewrite ?P; auto.
        -- now apply pinv_woken, pinv_woken.
        -- exists k. split; [exact CK|]. rewrite cnt_cons. cbn [is_ack b2n]. rewrite Nnat.Nat2N.inj_add. now apply congr_wpred.
        -- rewrite RDF. discriminate.
      * constructor; cbn; rewrite ?P; auto.
        -- now apply pinv_woken, pinv_woken.
        -- exists k. split; [exact CK|]. rewrite cnt_cons. cbn [is_ack b2n]. rewrite Nnat.Nat2N.inj_add. now apply congr_wpred.
        -- rewrite RDF. discriminate.
    + constructor; cbn; rewrite ?P; auto.
      * now apply pinv_woken.
      * exists k. split; [exact CK|]. rewrite cnt_quiet by reflexivity. exact CG.
  - (* MEnv *)
    destruct (poll_event e) eqn:PV; [discriminate|]. destruct (pa_step (m_pa s) e) as [p|] eqn:S; [|discriminate]. injection H as <-.
    assert (Z : starts e = 0) by (destruct e; try reflexivity; discriminate PV). pose proof (pinv_step _ _ _ _ PA S) as PA'.
    assert (RP : pa_ret p = pa_ret (m_pa s)).
    { clear -S PV. unfold pa_step in S. destruct (pa_ret (m_pa s)) eqn:RR.
      - destruct e; try discriminate. destruct (pick i (pa_dropped (m_pa s))) as [[x d]|]; [|discriminate]. injection S as <-. reflexivity.
      - destruct e as [|i|i|i|i| | | |i|i ok|i]; try discriminate.
        + destruct (pa_late (m_pa s)); [discriminate|]. injection S as <-. reflexivity.
        + destruct (pa_late (m_pa s)); [|discriminate]. destruct (pa_end (m_pa s)); [discriminate|]. injection S as <-. reflexivity.
        + destruct (nth_error (pa_futs (m_pa s)) i) as [[[n x] [|[|] b|b]]|]; try discriminate. injection S as <-. reflexivity.
        + destruct (nth_error (pa_futs (m_pa s)) i) as [[[n x] [|a b|b]]|]; try discriminate. destruct (negb ok || a); [|discriminate].
          injection S as <-. exact RR. }
    constructor; cbn; eauto; rewrite ?RP; auto. exists k. split; [|exact CG]. intros Q. specialize (CK Q).
    destruct (pa_ret (m_pa s)) as [r|] eqn:RR.
    + clear - S RR CK. unfold pa_step in S. rewrite RR in S. destruct e; try discriminate. destruct (pick i (pa_dropped (m_pa s))) as [[x d]|]; [|discriminate]. injection S as <-. exact CK.
    + assert (PS : cnt is_new (pa_futs p) + starts e + length (pa_pulled (m_pa s)) = cnt is_new (pa_futs (m_pa s)) + length (pa_pulled p)).
      { apply (pa_started _ _ _ S); auto. intros i ->. discriminate PV. }
      lia.
  - (* MAckReply *)
    destruct (m_then s) as [[r [|b|b]]|] eqn:Tn; try discriminate. injection H as <-. apply QU. repeat split; cbn; eauto.
  - destruct (pick i (m_tasks s)) as [[t ts]|]; [|discriminate]. injection H as <-. apply QU. repeat split; cbn; eauto.
  - destruct (pick i (m_tasks s)) as [[t ts]|]; [|discriminate]. injection H as <-. apply QU. repeat split; cbn; eauto. exists (pa_woken (m_pa s)). now rewrite woken_same.
  - destruct (pick i (m_results s)) as [[r rs]|]; [|discriminate]. injection H as <-. apply QU. repeat split; cbn; eauto. exists (pa_woken (m_pa s)). now rewrite woken_same.
  - destruct (nth_error (m_tasks s) i); [|discriminate]. injection H as <-. apply QU. repeat split; cbn; eauto. exists (pa_woken (m_pa s)). now rewrite woken_same.
  - destruct (nth_error (m_results s) i); [|discriminate]. injection H as <-. apply QU. repeat split; cbn; eauto.
Qed.
Lemma cinv_init : forall arr late en, cinv (arr ++ late) (m_init arr late en).
Proof.
  intros. constructor; cbn; auto; try discriminate.
  - apply pinv_woken, pinv_init.
  - exists 0. split; reflexivity.
  - split; [discriminate|congruence].
Qed.
Lemma acks_yielded : forall log : list (mret B E), failed log = false -> cnt is_ack log = length (yielded log).
Proof.
  induction log as [|r l IH]; intros H; [reflexivity|]. rewrite cnt_cons. unfold failed in H. cbn [existsb] in H. apply orb_false_iff in H. destruct H as [H1 H2].
  rewrite (IH H2). destruct r; cbn; try reflexivity. discriminate.
Qed.
Lemma cinv_ended : forall inp s, cinv inp s -> ended (m_log s) = true -> failed (m_log s) = false ->
  exists xs, inp = map ROk xs /\ congr (N.of_nat (length (yielded (m_log s)))) (N.of_nat (length xs)).
Proof.
  intros inp s I EN FL. destruct I as [PA (k & CK & CG) SE CS RE RD LD NO KO]. destruct (NO EN) as [N1 N2]. destruct (RD N1) as [_ P0]. apply LD in N2.
  assert (RT : pa_ret (m_pa s) = Some PaOk).
  { destruct (pa_ret (m_pa s)) as [[| |]|] eqn:R; [reflexivity| | |]; exfalso.
    - rewrite (RE _ eq_refl) in FL; [discriminate|congruence].
    - rewrite (RE _ eq_refl) in FL; [discriminate|congruence].
    - now apply SE in N2. }
  destruct (pi_ok _ _ PA RT) as (Ar & En & Dr). pose proof (pi_end _ _ PA En) as Lt. assert (FU : pa_futs (m_pa s) = []) by (apply (pi_ret _ _ PA); congruence).
  exists (pa_pulled (m_pa s)). split.
  - rewrite (pi_split _ _ PA) at 1. rewrite RT, Ar, Lt. cbn. now rewrite app_nil_r.
  - rewrite P0, (acks_yielded _ FL) in CG. specialize (CK (or_intror RT)). rewrite FU in CK. change (cnt is_new []) with 0 in CK. replace (length (pa_pulled (m_pa s))) with k by lia. exact CG.
Qed.
End Count.
