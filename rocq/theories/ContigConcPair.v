(** What concurrent acquire calls do guarantee about adjacent values. *)
From Coq Require Import List Arith NArith Lia Permutation Bool.
From Verif Require Import Base BaseFacts ContiguousModel ContiguousSpec ContiguousProofs ContigConcModel ContigConcSpec ContigConcProofs.
Import ListNotations.
Open Scope N_scope.

Lemma flat_map_two : forall (B C : Type) (f : B -> list C) (g : C -> N) (l : list B) i j a b x y,
  NoDup (map g (flat_map f l)) -> nth_error l i = Some a -> nth_error l j = Some b -> i <> j ->
  In x (f a) -> In y (f b) -> g x <> g y.
Proof.
  intros B C f g l; induction l as [|z l IH]; intros i j a b x y ND Hi Hj NE Hx Hy E; [destruct i; discriminate|].
  cbn in ND. rewrite map_app in ND.
  assert (D : forall a b : list N, NoDup (a ++ b) -> forall x, In x a -> In x b -> False).
  { clear. induction a as [|y a IH]; intros b H x Ha Hb; [destruct Ha|]. inversion H as [|? ? H1 H2]; subst.
    destruct Ha as [->|Ha]; [apply H1, in_or_app; now right | eauto]. }
  destruct i as [|i], j as [|j]; cbn in Hi, Hj; try congruence.
  - injection Hi as ->. apply (D _ _ ND (g x)); [now apply in_map|]. rewrite E. apply in_map. apply in_flat_map. exists b.
    split; [eapply nth_error_In; eauto|exact Hy].
  - injection Hj as ->. apply (D _ _ ND (g y)); [now apply in_map|]. rewrite <- E. apply in_map. apply in_flat_map. exists a.
    split; [eapply nth_error_In; eauto|exact Hx].
  - apply (IH i j a b x y); auto. clear - ND. induction (map g (f z)) as [|u m IHm]; cbn in ND; [exact ND|]. inversion ND; auto.
Qed.

Section Pair.
  Variable A : Type.
  Notation T := (item A).
  Notation key := (@item_key A).
  Notation contig := (@is_contiguous A).
  Implicit Types s : cstate T.

  Record pair_inv s : Prop := {
    q_linked : linked_inv T key s;
    q_proper : Forall proper (inside s);
    q_disj : forall a b, In a (inside s) -> In b (inside s) -> key a <> key b -> disjoint a b;
    q_nodeq : forall i p, nth_error (c_thr s) i = Some p -> match p with PDeq _ | PDeqTake _ => False | _ => True end;
    q_stale : forall k n, smap_get k (c_map s) = Some n -> cell s n = None ->
              exists i v w r, nth_error (c_thr s) i = Some (PRem v w r k)
  }.

  Lemma in_hand : forall s i p w, nth_error (c_thr s) i = Some p -> In w (hand p) -> In w (inside s).
  Proof.
    intros s i p w N H. unfold inside, held_by_calls. apply in_or_app. left. apply in_flat_map. exists p.
    split; [eapply nth_error_In; eauto|exact H].
  Qed.
  Lemma in_cell : forall s n w, cell s n = Some w -> In w (inside s).
  Proof. intros s n w H. unfold inside. apply in_or_app. right. eapply in_cells_in; eauto. Qed.

  Lemma cells_unique : forall s n m a b, linked_inv T key s -> cell s n = Some a -> cell s m = Some b -> key a = key b -> n = m.
  Proof.
    intros s n m a b I Ha Hb E. destruct (Nat.eq_dec n m) as [->|NE]; [reflexivity|]. exfalso.
    pose proof (l_keys _ _ s I) as ND. unfold inside in ND. rewrite map_app in ND.
    assert (ND' : NoDup (map key (in_cells s))).
    { clear - ND. induction (map key (held_by_calls s)) as [|x l IHl]; cbn in ND; [exact ND|]. inversion ND; auto. }
    apply cell_some in Ha, Hb. apply (flat_map_two _ _ opt_list key (c_cells s) n m _ _ a b ND' Ha Hb NE); cbn; auto.
  Qed.

  Lemma hands_differ : forall s i j p q x y, linked_inv T key s -> nth_error (c_thr s) i = Some p -> nth_error (c_thr s) j = Some q ->
    i <> j -> In x (hand p) -> In y (hand q) -> key x <> key y.
  Proof.
    intros s i j p q x y I Hi Hj NE Hx Hy. pose proof (l_keys _ _ s I) as ND. unfold inside in ND. rewrite map_app in ND.
    assert (ND' : NoDup (map key (held_by_calls s))).
    { clear - ND. induction (map key (held_by_calls s)) as [|x l IHl]; cbn in ND; [constructor|]. inversion ND; subst. constructor; auto.
      intros H. apply H1. apply in_or_app. now left. }
    eapply (flat_map_two _ _ hand key (c_thr s) i j p q x y); eauto.
  Qed.

  Lemma pair_init : pair_inv c_init.
  Proof.
    constructor.
    - apply linked_init.
    - constructor.
    - intros a b [].
    - intros i p H. destruct i; discriminate.
    - intros k n H. discriminate.
  Qed.

  Lemma pair_call : forall s e s', (forall i, e <> CStep i) -> (forall k, e <> CDequeue k) -> pair_inv s ->
    Forall proper (submitted_by e) ->
    (forall v w, In v (submitted_by e) -> In w (inside s) -> disjoint v w) ->
    conc_step key contig s e = Some s' -> pair_inv s'.
  Proof.
    intros s e s' NS ND I PR F H.
    assert (F' : forall v w, In v (submitted_by e) -> In w (inside s) -> key v <> key w).
    { intros v w Hv Hw E. specialize (F v w Hv Hw). rewrite Forall_forall in PR. specialize (PR v Hv).
      pose proof (q_proper s I) as PW. rewrite Forall_forall in PW. specialize (PW w Hw).
      destruct PR, PW. unfold disjoint, item_key in *. lia. }
    assert (L : linked_inv T key s') by (eapply call_linked; eauto; apply (q_linked s I)).
    assert (X : exists q, s' = mkC (c_cells s) (c_map s) (c_thr s ++ [q]) /\ hand q = submitted_by e /\
                match q with PDeq _ | PDeqTake _ => False | _ => True end).
    { destruct e as [v|v|k|i]; cbn in H.
      - injection H as <-. eexists. split; [reflexivity|]. split; [reflexivity|exact Logic.I].
      - injection H as <-. eexists. split; [reflexivity|]. split; [reflexivity|exact Logic.I].
      - exfalso. now apply (ND k).
      - exfalso. now apply (NS i). }
    destruct X as (q & -> & HQ & NQ).
    assert (IN : forall a, In a (inside (mkC (c_cells s) (c_map s) (c_thr s ++ [q]))) -> In a (submitted_by e) \/ In a (inside s)).
    { intros a. unfold inside, held_by_calls, in_cells. cbn [c_thr c_cells]. rewrite flat_map_app. cbn. rewrite app_nil_r, HQ, !in_app_iff. tauto. }
    constructor.
    - exact L.
    - apply Forall_forall. intros a Ha. apply IN in Ha. pose proof (q_proper s I) as PW. rewrite Forall_forall in PR, PW. destruct Ha; auto.
    - intros a b Ha Hb NE. apply IN in Ha, Hb.
      assert (SY : forall a b : T, disjoint a b -> disjoint b a) by (unfold disjoint; tauto).
      destruct Ha as [Ha|Ha], Hb as [Hb|Hb].
      + exfalso. destruct e as [v|v|k|i]; cbn in Ha, Hb; try tauto; destruct Ha as [<-|[]], Hb as [<-|[]]; congruence.
      + auto.
      + apply SY. auto.
      + apply (q_disj s I); auto.
    - cbn [c_thr]. intros i p Hp. apply nth_app_new in Hp. destruct Hp as [[_ ->]|Hp]; [exact NQ|exact (q_nodeq s I i p Hp)].
    - cbn [c_map c_thr]. intros k n G C. change (cell s n = None) in C. destruct (q_stale s I k n G C) as (i & v & w & r & Hi).
      exists i, v, w, r. rewrite nth_error_app1; [exact Hi|]. apply nth_error_Some. congruence.
  Qed.

  Lemma pair_thread : forall s i p s', pair_inv s -> nth_error (c_thr s) i = Some p ->
    thread_step key contig s i p = Some s' -> pair_inv s'.
  Proof.
    intros s i p s' I N H.
    assert (L : linked_inv T key s') by (eapply thread_linked; eauto; apply (q_linked s I)).
    destruct (inside_step T key contig s i p s' N H) as (out & P).
    assert (IN : forall a, In a (inside s') -> In a (inside s)).
    { intros a Ha. eapply Permutation_in; [apply Permutation_sym, P|]. apply in_or_app. now right. }
    assert (R : (forall i p, nth_error (c_thr s') i = Some p -> match p with PDeq _ | PDeqTake _ => False | _ => True end) /\
                (forall k n, smap_get k (c_map s') = Some n -> cell s' n = None -> exists i v w r, nth_error (c_thr s') i = Some (PRem v w r k))).
    2: { constructor; try apply R; auto.
         - apply Forall_forall. intros a Ha. pose proof (q_proper s I) as PW. rewrite Forall_forall in PW. auto.
         - intros a b Ha Hb. apply (q_disj s I); auto. }
    pose proof (q_nodeq s I i p N) as NDQ.
    assert (UT : forall q, match q with PDeq _ | PDeqTake _ => False | _ => True end ->
      forall j p, nth_error (upd i q (c_thr s)) j = Some p -> match p with PDeq _ | PDeqTake _ => False | _ => True end).
    { intros q Hq j p0 Hj. apply upd_nth in Hj. destruct Hj as [[_ ->]|[_ Hj]]; [exact Hq|exact (q_nodeq s I j p0 Hj)]. }
    assert (K : forall q, (forall v w r k, p <> PRem v w r k) -> match q with PDeq _ | PDeqTake _ => False | _ => True end ->
      Some (set_thr s i q) = Some s' ->
      (forall i p, nth_error (c_thr s') i = Some p -> match p with PDeq _ | PDeqTake _ => False | _ => True end) /\
      (forall k n, smap_get k (c_map s') = Some n -> cell s' n = None -> exists i v w r, nth_error (c_thr s') i = Some (PRem v w r k))).
    { intros q NP NQ E. injection E as <-. cbn [c_thr c_map set_thr]. split; [apply UT; exact NQ|].
      intros k n G C. change (cell s n = None) in C. destruct (q_stale s I k n G C) as (j & v & w & r & Hj).
      exists j, v, w, r. rewrite upd_nth_other; [exact Hj|]. intros ->. rewrite Hj in N. injection N as <-. now apply (NP v w r k). }
    assert (KT : forall v w r k n, (p = PTakeR v k n \/ p = PTakeL v k n) -> cell s n = Some w ->
      Some (mkC (upd n None (c_cells s)) (c_map s) (upd i (PRem v w r k) (c_thr s))) = Some s' ->
      (forall i p, nth_error (c_thr s') i = Some p -> match p with PDeq _ | PDeqTake _ => False | _ => True end) /\
      (forall k n, smap_get k (c_map s') = Some n -> cell s' n = None -> exists i v w r, nth_error (c_thr s') i = Some (PRem v w r k))).
    { intros v w r k n HP C E. injection E as <-. cbn [c_thr c_map]. split; [apply UT; exact Logic.I|].
      assert (Lt : (i < length (c_thr s))%nat) by (apply nth_error_Some; congruence).
      intros k1 n1 G C1. destruct (cell s n1) as [w1|] eqn:C2.
      - assert (n1 = n).
        { destruct (Nat.eq_dec n1 n) as [->|NE]; [reflexivity|]. exfalso. unfold cell in C1, C2. cbn in C1.
          rewrite upd_nth_other in C1 by congruence. destruct (nth_error (c_cells s) n1); congruence. }
        subst n1. rewrite C in C2. injection C2 as <-.
        destruct (l_entry _ _ s (q_linked s I) k1 n G) as [_ L1].
        assert (KW : key w = k).
        { pose proof (phase_ok_inv _ _ s i p (q_linked s I) N) as OK. destruct HP as [-> | ->]; apply OK; exact C. }
        rewrite (L1 w C) in KW. subst k1. exists i, v, w, r. now apply upd_nth_same.
      - destruct (q_stale s I k1 n1 G C2) as (j & v1 & w1 & r1 & Hj).
        exists j, v1, w1, r1. rewrite upd_nth_other; [exact Hj|]. intros ->. rewrite Hj in N. injection N as <-. destruct HP; discriminate. }
    destruct p as [v|v k n|v k n|v|v k n|v k n|v w r k|v|k|n|r]; cbn [thread_step] in H; try (exfalso; exact NDQ).
    - eapply K; [discriminate| |exact H]. destruct (smap_first_ge _ _) as [[? ?]|]; exact Logic.I.
    - eapply K; [discriminate| |exact H]. destruct (cell s n); [destruct (contig v i0)|]; exact Logic.I.
    - destruct (cell s n) as [w|] eqn:C; [eapply KT; eauto|]. eapply K; [discriminate| |exact H]. exact Logic.I.
    - eapply K; [discriminate| |exact H]. destruct (smap_last_lt _ _) as [[? ?]|]; exact Logic.I.
    - eapply K; [discriminate| |exact H]. destruct (cell s n); [destruct (contig v i0)|]; exact Logic.I.
    - destruct (cell s n) as [w|] eqn:C; [eapply KT; eauto|]. eapply K; [discriminate| |exact H]. exact Logic.I.
    - injection H as <-. cbn [c_thr c_map]. split; [apply UT; exact Logic.I|].
      intros k1 n1 G C1. change (cell s n1 = None) in C1. rewrite smap_remove_get in G by exact (l_sorted _ _ s (q_linked s I)). unfold fset in G.
      destruct (N.eqb_spec k1 k) as [->|NE]; [discriminate|]. destruct (q_stale s I k1 n1 G C1) as (j & v1 & w1 & r1 & Hj).
      exists j, v1, w1, r1. rewrite upd_nth_other; [exact Hj|]. intros ->. rewrite Hj in N. injection N as -> -> -> ->. congruence.
    - injection H as <-. cbn [c_thr c_map]. split; [apply UT; exact Logic.I|].
      intros k1 n1 G C1. rewrite smap_insert_get in G. unfold fset in G.
      destruct (N.eqb_spec k1 (key v)) as [->|NE].
      + injection G as <-. unfold cell in C1. cbn in C1. rewrite nth_error_app2, Nat.sub_diag in C1 by lia. discriminate.
      + destruct (l_entry _ _ s (q_linked s I) k1 n1 G) as [L1 _].
        assert (C2 : cell s n1 = None) by (unfold cell in *; cbn in C1; rewrite nth_error_app1 in C1 by exact L1; exact C1).
        destruct (q_stale s I k1 n1 G C2) as (j & v1 & w1 & r1 & Hj).
        exists j, v1, w1, r1. rewrite upd_nth_other; [exact Hj|]. intros ->. rewrite Hj in N. discriminate.
    - discriminate.
  Qed.

  Definition plain (e : cevent T) : Prop := match e with CDequeue _ => False | _ => True end.

  Lemma pair_step : forall s e s', plain e -> pair_inv s -> Forall proper (submitted_by e) ->
    (forall v w, In v (submitted_by e) -> In w (inside s) -> disjoint v w) ->
    conc_step key contig s e = Some s' -> pair_inv s'.
  Proof.
    intros s e s' PL I PR F H. destruct e as [v|v|k|i].
    - eapply pair_call; eauto; discriminate.
    - eapply pair_call; eauto; discriminate.
    - destruct PL.
    - cbn in H. destruct (nth_error (c_thr s) i) as [p|] eqn:N; [|discriminate]. eapply pair_thread; eauto.
  Qed.

  (** The call [i] of [x] cannot overlook [y], stored in node [n]. *)
  Definition on_track (x y : T) (n : nat) (p : phase T) : Prop :=
    match p with
    | PRem v _ _ _ => v = x
    | PDone (RetPair _ _) => True
    | PFindR v => v = x
    | PReadR v k m | PTakeR v k m => v = x /\ (adjacent x y -> k = key y /\ m = n)
    | PFindL v => v = x /\ adjacent y x
    | PReadL v k m | PTakeL v k m => v = x /\ adjacent y x /\ k = key y /\ m = n
    | _ => False
    end.

  Lemma sees_right : forall s i x y n p, pair_inv s -> nth_error (c_thr s) i = Some p -> In x (hand p) ->
    (forall w, In w (hand p) -> w = x) ->
    cell s n = Some y -> adjacent x y -> smap_first_ge (key x) (c_map s) = Some (key y, n).
  Proof.
    intros s i x y n p I N HX ONE C AD.
    assert (LK : smap_get (key y) (c_map s) = Some n).
    { destruct (l_linked _ _ s (q_linked s I) n y C) as [L|(j & L)]; [exact L|]. apply (q_nodeq s I) in L. destruct L. }
    pose proof (q_proper s I) as PR. rewrite Forall_forall in PR.
    pose proof (PR x (in_hand s i p x N HX)) as [PX1 PX2].
    unfold adjacent in AD.
    pose proof (smap_first_ge_spec _ (c_map s) (key x) (l_sorted _ _ s (q_linked s I))) as SP.
    destruct (smap_first_ge (key x) (c_map s)) as [[k m]|].
    - destruct SP as (G & LE & MIN). 
      assert (KY : k = key y).
      { destruct (N.lt_trichotomy k (key y)) as [LT|[E|GT]]; [|exact E|].
        - exfalso. unfold item_key in *. destruct (cell s m) as [z|] eqn:CZ.
          + destruct (l_entry _ _ s (q_linked s I) k m G) as [_ KZ]. specialize (KZ z CZ). unfold item_key in KZ.
            assert (NE : key x <> key z) by (eapply hand_cell; eauto; apply (q_linked s I)).
            pose proof (PR z (in_cell s m z CZ)) as [PZ1 PZ2].
            pose proof (q_disj s I x z (in_hand s i p x N HX) (in_cell s m z CZ) NE) as D. unfold disjoint in D. lia.
          + destruct (q_stale s I k m G CZ) as (j & v & w & r & Hj).
            pose proof (l_rem _ _ s (q_linked s I) j v w r k Hj) as KW. unfold item_key in KW.
            assert (IW : In w (hand (PRem v w r k))) by (cbn; auto).
            assert (NJ : i <> j).
            { intros ->. rewrite Hj in N. injection N as <-. pose proof (ONE w IW). pose proof (ONE v (or_introl eq_refl)). subst v w.
              pose proof (l_keys _ _ s (q_linked s I)) as NDK. unfold inside in NDK. rewrite map_app in NDK.
              destruct (upd_split _ j _ _ Hj) as (a & b & EQ & _). unfold held_by_calls in NDK. rewrite EQ, flat_map_app, map_app in NDK. cbn in NDK.
              rewrite <- app_assoc in NDK. clear - NDK. induction (map item_key (flat_map hand a)) as [|u m IHm]; cbn in NDK.
              - inversion NDK; subst. apply H1. now left.
              - inversion NDK; auto. }
            assert (NE : key x <> key w) by (exact (hands_differ s i j p _ x w (q_linked s I) N Hj NJ HX IW)).
            pose proof (PR w (in_hand s j _ w Hj IW)) as [PW1 PW2].
            pose proof (q_disj s I x w (in_hand s i p x N HX) (in_hand s j _ w Hj IW) NE) as D. unfold disjoint in D. lia.
        - exfalso. rewrite (MIN (key y)) in LK; [discriminate| |exact GT]. unfold item_key. lia. }
      subst k. rewrite G in LK. injection LK as ->. reflexivity.
    - rewrite (SP (key y)) in LK; [discriminate|]. unfold item_key. lia.
  Qed.

  Lemma sees_left : forall s x y n, pair_inv s -> proper x ->
    cell s n = Some y -> adjacent y x -> smap_last_lt (key x) (c_map s) = Some (key y, n).
  Proof.
    intros s x y n I PX C AD.
    assert (LK : smap_get (key y) (c_map s) = Some n).
    { destruct (l_linked _ _ s (q_linked s I) n y C) as [L|(j & L)]; [exact L|]. apply (q_nodeq s I) in L. destruct L. }
    pose proof (q_proper s I) as PR. rewrite Forall_forall in PR.
    pose proof (PR y (in_cell s n y C)) as [PY1 PY2]. unfold adjacent in AD.
    pose proof (smap_last_lt_spec _ (c_map s) (key x) (l_sorted _ _ s (q_linked s I))) as SP.
    destruct (smap_last_lt (key x) (c_map s)) as [[k m]|].
    - destruct SP as (G & LE & MAX).
      assert (KY : k = key y).
      { destruct (N.lt_trichotomy k (key y)) as [LT|[E|GT]]; [|exact E|].
        - exfalso. rewrite (MAX (key y)) in LK; [discriminate|exact LT|]. unfold item_key. lia.
        - exfalso. unfold item_key in *. destruct (cell s m) as [z|] eqn:CZ.
          + destruct (l_entry _ _ s (q_linked s I) k m G) as [_ KZ]. specialize (KZ z CZ). unfold item_key in KZ.
            pose proof (PR z (in_cell s m z CZ)) as [PZ1 PZ2].
            assert (NE : key y <> key z) by (unfold item_key; lia).
            pose proof (q_disj s I y z (in_cell s n y C) (in_cell s m z CZ) NE) as D. unfold disjoint in D. lia.
          + destruct (q_stale s I k m G CZ) as (j & v & w & r & Hj).
            pose proof (l_rem _ _ s (q_linked s I) j v w r k Hj) as KW. unfold item_key in KW.
            assert (IW : In w (hand (PRem v w r k))) by (cbn; auto).
            pose proof (PR w (in_hand s j _ w Hj IW)) as [PW1 PW2].
            assert (NE : key y <> key w) by (unfold item_key; lia).
            pose proof (q_disj s I y w (in_cell s n y C) (in_hand s j _ w Hj IW) NE) as D. unfold disjoint in D. lia. }
      subst k. rewrite G in LK. injection LK as ->. reflexivity.
    - rewrite (SP (key y)) in LK; [discriminate|]. unfold item_key. lia.
  Qed.

  Lemma contig_adj : forall x y : T, proper x -> proper y -> adjacent x y \/ adjacent y x -> contig x y = true.
  Proof. intros x y Px Py H. apply is_contiguous_spec; assumption. Qed.

  (** One step of anybody, with [y] still stored afterwards. *)
  Lemma track_step : forall s e s' i x y n p, pair_inv s -> conc_step key contig s e = Some s' -> proper x ->
    adjacent x y \/ adjacent y x ->
    nth_error (c_thr s) i = Some p -> on_track x y n p -> cell s n = Some y ->
    exists p', nth_error (c_thr s') i = Some p' /\ on_track x y n p'.
  Proof.
    intros s e s' i x y n p I H PX ADJ N TR C.
    assert (PY : proper y).
    { pose proof (q_proper s I) as PR. rewrite Forall_forall in PR. apply PR. eapply in_cell; eauto. }
    assert (Lt : (i < length (c_thr s))%nat) by (apply nth_error_Some; congruence).
    destruct e as [v|v|k|j]; cbn in H; try (injection H as <-; cbn; exists p; split; [now rewrite nth_error_app1|exact TR]).
    destruct (nth_error (c_thr s) j) as [q|] eqn:NQ; [|discriminate].
    destruct (Nat.eq_dec j i) as [->|NE].
    2: { exists p. split; [|exact TR]. destruct (step_effect T key contig s j q s' NQ H) as (q' & TH & _). rewrite TH.
         now rewrite upd_nth_other. }
    rewrite N in NQ. injection NQ as <-.
    assert (U : forall q, nth_error (upd i q (c_thr s)) i = Some q) by (intros q; now apply upd_nth_same).
    destruct p as [v|v k m|v k m|v|v k m|v k m|v w r k|v|k|m|r]; cbn [on_track] in TR; try (exfalso; exact TR); cbn [thread_step] in H.
    - (* PFindR *) subst v. injection H as <-. cbn [c_thr set_thr]. eexists. split; [apply U|].
      destruct ADJ as [AD|AD].
      + rewrite (sees_right s i x y n (PFindR x) I N (or_introl eq_refl)) by (auto; intros w [<-|[]]; reflexivity).
        cbn. auto.
      + destruct (smap_first_ge (key x) (c_map s)) as [[k m]|] eqn:G; cbn; [|auto]. split; [reflexivity|]. intros AD2. exfalso.
        unfold adjacent in AD, AD2. destruct PX, PY. lia.
    - (* PReadR *) destruct TR as [-> TR]. injection H as <-. cbn [c_thr set_thr]. eexists. split; [apply U|].
      destruct ADJ as [AD|AD].
      + destruct (TR AD) as [-> ->]. rewrite C. rewrite contig_adj by auto. cbn. auto.
      + assert (NA : adjacent x y -> k = key y /\ m = n) by (intros AD2; exfalso; unfold adjacent in AD, AD2; destruct PX, PY; lia).
        destruct (cell s m) as [z|]; [destruct (contig x z)|]; cbn; auto.
    - (* PTakeR *) destruct TR as [-> TR]. destruct ADJ as [AD|AD].
      + destruct (TR AD) as [-> ->]. rewrite C in H. injection H as <-. cbn [c_thr]. eexists. split; [apply U|]. reflexivity.
      + destruct (cell s m) as [z|]; injection H as <-; cbn [c_thr set_thr]; eexists; (split; [apply U|]); cbn; auto.
    - (* PFindL *) destruct TR as [-> AD]. injection H as <-. cbn [c_thr set_thr]. eexists. split; [apply U|].
      rewrite (sees_left s x y n I PX C AD). cbn. auto.
    - (* PReadL *) destruct TR as (-> & AD & -> & ->). injection H as <-. cbn [c_thr set_thr]. eexists. split; [apply U|].
      rewrite C. rewrite contig_adj by auto. cbn. auto.
    - (* PTakeL *) destruct TR as (-> & AD & -> & ->). rewrite C in H. injection H as <-. cbn [c_thr]. eexists. split; [apply U|]. reflexivity.
    - injection H as <-. cbn [c_thr]. eexists. split; [apply U|]. destruct r; exact Logic.I.
    - destruct r; try (exfalso; exact TR). discriminate.
  Qed.

  (** A value that is stored before and after a step stays in its node. *)
  Lemma stays : forall s e s' n y, linked_inv T key s -> conc_step key contig s e = Some s' ->
    cell s n = Some y -> In y (in_cells s') -> (forall w, In w (held_by_calls s) -> key w <> key y) -> cell s' n = Some y.
  Proof.
    intros s e s' n y I H C IN HB.
    assert (K : forall m t, In y (in_cells (mkC (upd m None (c_cells s)) (c_map s) t)) -> cell (mkC (upd m None (c_cells s)) (c_map s) t) n = Some y).
    { intros m t Hy. unfold in_cells in Hy. apply in_flat_map in Hy. destruct Hy as ([w|] & Hy & E); [|destruct E]. destruct E as [->|[]].
      apply In_nth_error in Hy. destruct Hy as (m1 & Hm).
      assert (C1 : cell (mkC (upd m None (c_cells s)) (c_map s) t) m1 = Some y) by (unfold cell; now rewrite Hm).
      pose proof (cell_upd_none T s m t m1 y C1) as [_ C2].
      assert (m1 = n) by (eapply cells_unique; eauto). now subst. }
    assert (KA : forall v m t, cell (mkC (c_cells s ++ [Some v]) m t) n = Some y).
    { intros v m t. unfold cell. cbn. rewrite nth_error_app1 by (eapply cell_lt; eauto). exact C. }
    destruct e as [v|v|k|j]; cbn in H; try (injection H as <-; exact C).
    destruct (nth_error (c_thr s) j) as [q|] eqn:NQ; [|discriminate].
    destruct q as [v|v k m|v k m|v|v k m|v k m|v w r k|v|k|m|r]; cbn [thread_step] in H; try (injection H as <-; exact C).
    - destruct (cell s m) eqn:CM; injection H as <-; [apply K; exact IN|exact C].
    - destruct (cell s m) eqn:CM; injection H as <-; [apply K; exact IN|exact C].
    - injection H as <-. apply KA.
    - destruct (smap_get k (c_map s)); injection H as <-; exact C.
    - injection H as <-. apply K. exact IN.
    - discriminate.
  Qed.

  Lemma queued_in_cells : forall s y, In y (queued s) -> exists n, cell s n = Some y.
  Proof.
    intros s y H. unfold queued in H. apply in_flat_map in H. destruct H as ([k n] & _ & H). cbn in H. destruct (cell s n) eqn:C; [|destruct H].
    destruct H as [->|[]]. eauto.
  Qed.

  Lemma track_run : forall tr s s' i x y n p, pair_inv s -> Forall plain tr -> Forall proper (submitted tr) ->
    fresh_run key contig disjoint s tr -> proper x -> adjacent x y \/ adjacent y x ->
    nth_error (c_thr s) i = Some p -> on_track x y n p -> cell s n = Some y ->
    (forall t1 t2 m, tr = t1 ++ t2 -> run_from (conc_step key contig) s t1 = Some m -> In y (queued m)) ->
    run_from (conc_step key contig) s tr = Some s' ->
    exists p', nth_error (c_thr s') i = Some p' /\ on_track x y n p'.
  Proof.
    induction tr as [|e tr IH]; intros s s' i x y n p I PL PR FR PX AD N TR C ST H; cbn in H.
    - injection H as <-. eauto.
    - inversion PL as [|? ? PLe PL']; subst. inversion FR as [|? ? s1 ? F1 S F2]; subst. rewrite S in H.
      unfold submitted in PR. cbn in PR. apply Forall_app in PR. destruct PR as [PR1 PR2].
      destruct (track_step s e s1 i x y n p I S PX AD N TR C) as (p' & N' & TR').
      pose proof (pair_step s e s1 PLe I PR1 F1 S) as I1.
      apply (IH s1 s' i x y n p' I1 PL' PR2 F2 PX AD N' TR'); auto.
      + assert (Q : In y (queued s1)).
        { apply (ST [e] tr s1); [reflexivity|]. cbn. now rewrite S. }
        apply queued_in_cells in Q. destruct Q as (m & Cm).
        apply (stays s e s1 n y (q_linked s I) S C); [eapply in_cells_in; eauto|].
        intros w Hw. unfold held_by_calls in Hw. apply in_flat_map in Hw. destruct Hw as (q & Hq & Hw).
        apply In_nth_error in Hq. destruct Hq as (j & Hq). eapply hand_cell; eauto. apply (q_linked s I).
      + intros t1 t2 m E R. apply (ST (e :: t1) t2 m); [now rewrite E|]. cbn. now rewrite S.
  Qed.

  Lemma fresh_app : forall t1 t2 s, fresh_run key contig disjoint s (t1 ++ t2) ->
    fresh_run key contig disjoint s t1 /\ exists m, run_from (conc_step key contig) s t1 = Some m /\ fresh_run key contig disjoint m t2.
  Proof.
    induction t1 as [|e t1 IH]; intros t2 s H.
    - split; [constructor|]. exists s. auto.
    - cbn in H. inversion H as [|? ? s1 ? F1 S F2]; subst. destruct (IH t2 s1 F2) as (G1 & m & G2 & G3). split.
      + econstructor; eauto.
      + exists m. cbn. rewrite S. auto.
  Qed.

  Lemma fresh_pair : forall tr s0 s, pair_inv s0 -> Forall plain tr -> Forall proper (submitted tr) ->
    fresh_run key contig disjoint s0 tr -> run_from (conc_step key contig) s0 tr = Some s -> pair_inv s.
  Proof.
    induction tr as [|e tr IH]; intros s0 s I PL PR F H; cbn in H.
    - now injection H as <-.
    - inversion PL as [|? ? PLe PL']; subst. inversion F as [|? ? s1 ? F1 S F2]; subst. rewrite S in H.
      unfold submitted in PR. cbn in PR. apply Forall_app in PR. destruct PR as [PR1 PR2].
      apply (IH s1 s); auto. eapply pair_step; eauto.
  Qed.

  Lemma not_overlooked : forall t1 t2 s1 s x y,
    Forall plain (t1 ++ CAcquire x :: t2) -> Forall proper (submitted (t1 ++ CAcquire x :: t2)) ->
    fresh_run key contig disjoint c_init (t1 ++ CAcquire x :: t2) ->
    conc_run key contig (t1 ++ [CAcquire x]) = Some s1 ->
    conc_run key contig (t1 ++ CAcquire x :: t2) = Some s ->
    adjacent x y \/ adjacent y x ->
    (forall u1 u2 m, t2 = u1 ++ u2 -> run_from (conc_step key contig) s1 u1 = Some m -> In y (queued m)) ->
    nth_error (c_thr s) (length (c_thr s1) - 1) <> Some (PDone RetNone).
  Proof.
    intros t1 t2 s1 s x y PL PR FR R1 R2 AD ST.
    replace (t1 ++ CAcquire x :: t2) with ((t1 ++ [CAcquire x]) ++ t2) in * by (now rewrite <- app_assoc).
    apply Forall_app in PL. destruct PL as [PL1 PL2].
    unfold submitted in PR. rewrite flat_map_app in PR. apply Forall_app in PR. destruct PR as [PR1 PR2].
    assert (PX : proper x).
    { rewrite flat_map_app in PR1. apply Forall_app in PR1. destruct PR1 as [_ PR1]. cbn in PR1. now inversion PR1. }
    destruct (fresh_app _ _ _ FR) as (FR1 & m & M1 & FR2). unfold conc_run in *. rewrite R1 in M1. injection M1 as <-.
    apply run_from_app in R2. destruct R2 as (m & M1 & R2). rewrite R1 in M1. injection M1 as <-.
    pose proof (fresh_pair _ _ s1 pair_init PL1 PR1 FR1 R1) as I1.
    assert (TH : exists th, c_thr s1 = th ++ [PFindR x]).
    { apply run_from_app in R1. destruct R1 as (m & _ & R1). cbn in R1. injection R1 as <-. cbn. eauto. }
    destruct TH as (th & TH).
    assert (N : nth_error (c_thr s1) (length (c_thr s1) - 1) = Some (PFindR x)).
    { rewrite TH, app_length. cbn. replace (length th + 1 - 1)%nat with (length th + 0)%nat by lia.
      rewrite nth_error_app2 by lia. replace (length th + 0 - length th)%nat with 0%nat by lia. reflexivity. }
    assert (Q : In y (queued s1)) by (apply (ST [] t2 s1); reflexivity).
    apply queued_in_cells in Q. destruct Q as (n & C).
    destruct (track_run t2 s1 s _ x y n _ I1 PL2 PR2 FR2 PX AD N eq_refl C ST R2) as (p' & N' & TR).
    rewrite N'. intros E. injection E as ->. exact TR.
  Qed.
End Pair.

(** *** Calls that do not overlap *)
Section Sequential.
  Variable A : Type.

  Lemma cq_run_app : forall (T : Type) (key : T -> N) contig ops1 ops2 q,
    fst (cq_run key contig q (ops1 ++ ops2)) = fst (cq_run key contig (fst (cq_run key contig q ops1)) ops2).
  Proof.
    induction ops1 as [|op ops1 IH]; intros ops2 q; cbn; [reflexivity|].
    destruct (cq_step key contig q op) as [q' o]. specialize (IH ops2 q').
    destruct (cq_run key contig q' (ops1 ++ ops2)) as [q1 o1]. destruct (cq_run key contig q' ops1) as [q2 o2]. exact IH.
  Qed.

  Lemma fop_perm : forall (B : Type) (R : B -> B -> Prop), (forall a b, R a b -> R b a) ->
    forall l l', Permutation l l' -> ForallOrdPairs R l -> ForallOrdPairs R l'.
  Proof.
    intros B R SY l l' P. induction P as [|x l l' P IH|x y l|l1 l2 l3 P1 IH1 P2 IH2]; intros H.
    - constructor.
    - inversion H as [|? ? H1 H2]; subst. constructor; [|auto]. rewrite Forall_forall in *. intros z Hz. apply H1. eapply Permutation_in; [apply Permutation_sym, P|exact Hz].
    - inversion H as [|? ? H1 H2]; subst. inversion H2 as [|? ? H3 H4]; subst. inversion H1 as [|? ? H5 H6]; subst. constructor; [constructor; auto|]. constructor; auto.
    - auto.
  Qed.

  Lemma sequential_no_adjacent : forall (xs : list (item A)),
    let after l := fst (cq_run item_key is_contiguous (cq_new (item A)) (map OpAcquire l)) in
    Forall proper xs ->
    (forall l x r, xs = l ++ x :: r -> Forall (disjoint x) (map snd (after l))) ->
    forall x y, In x (map snd (after xs)) -> In y (map snd (after xs)) -> ~ adjacent x y.
  Proof.
    intros xs after PR D.
    assert (G : forall l r, xs = l ++ r -> Forall proper (map snd (after l)) /\ ForallOrdPairs disjoint (map snd (after l)) /\
      forall x y, In x (map snd (after l)) -> In y (map snd (after l)) -> ~ adjacent x y).
    { intros l. induction l as [|z l IH] using rev_ind; intros r E.
      - cbn. repeat split; try constructor. intros x y [].
      - rewrite <- app_assoc in E. cbn in E. destruct (IH (z :: r) E) as (P & DJ & NA). specialize (D l z r E).
        assert (PZ : proper z) by (rewrite Forall_forall in PR; apply PR; rewrite E; apply in_or_app; right; now left).
        assert (SS : smap_sorted (after l)) by (apply cq_run_sorted; constructor).
        assert (KK : keyed item_key (after l)) by (apply cq_run_keyed; intros ? ? []).
        pose proof (acquire_spec A (after l) z SS KK P PZ DJ D) as AS.
        assert (EQ : after (l ++ [z]) = snd (cq_acquire item_key is_contiguous (after l) z)).
        { unfold after. rewrite map_app, cq_run_app. cbn. destruct (cq_acquire _ _ _ z). reflexivity. }
        rewrite EQ. destruct (cq_acquire item_key is_contiguous (after l) z) as [[[a b]|] q']; cbn.
        + destruct AS as (_ & y & _ & PM). unfold contents in PM.
          assert (IN : forall x, In x (map snd q') -> In x (map snd (after l))).
          { intros x Hx. eapply Permutation_in; [apply Permutation_sym, PM|now right]. }
          repeat split.
          * apply Forall_forall. intros x Hx. rewrite Forall_forall in P. auto.
          * apply (fop_perm _ disjoint) in PM; [|unfold disjoint; tauto|exact DJ]. now inversion PM.
          * intros x y0 Hx Hy. apply NA; auto.
        + destruct AS as (NB & PM). unfold contents in NB, PM. repeat split.
          * eapply Permutation_Forall; [apply Permutation_sym, PM|]. constructor; auto.
          * eapply (fop_perm _ disjoint); [unfold disjoint; tauto|apply Permutation_sym, PM|]. constructor; auto.
          * intros x y Hx Hy. apply (Permutation_in _ PM) in Hx, Hy. cbn in Hx, Hy. destruct Hx as [<-|Hx], Hy as [<-|Hy].
            -- destruct PZ. unfold adjacent. lia.
            -- apply NB. exact Hy.
            -- apply (NB x Hx).
            -- now apply NA. }
    apply (G xs []). now rewrite app_nil_r.
  Qed.
End Sequential.
