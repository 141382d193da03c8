From Coq Require Import List Arith NArith Lia Permutation Bool.
From Verif Require Import Base BaseFacts ContiguousModel ContiguousSpec ContiguousProofs ContigConcModel ContigConcSpec.
Import ListNotations.
Open Scope N_scope.

Section Conc.
  Variable T : Type.
  Variable key : T -> N.
  Variable contig : T -> T -> bool.
  Implicit Types s : cstate T.

  Lemma flat_map_upd : forall (B C : Type) (f : B -> list C) i (l : list B) x y,
    nth_error l i = Some x -> Permutation (flat_map f (upd i y l) ++ f x) (flat_map f l ++ f y).
  Proof.
    intros B C f i l x y H. destruct (upd_split _ i l x H) as (a & b & -> & _ & U). rewrite U, !flat_map_app. cbn.
    rewrite <- !app_assoc. apply Permutation_app_head.
    rewrite (Permutation_app_comm (f y)), (Permutation_app_comm (f x)). rewrite <- !app_assoc.
    apply Permutation_app_head. apply Permutation_app_comm.
  Qed.

  Lemma cell_some : forall s n v, cell s n = Some v -> nth_error (c_cells s) n = Some (Some v).
  Proof. intros s n v H. unfold cell in H. destruct (nth_error (c_cells s) n); congruence. Qed.

  Lemma upd_same : forall (B : Type) i (l : list B) x, nth_error l i = Some x -> upd i x l = l.
  Proof. intros B i; induction i as [|i IH]; intros [|z l] x H; cbn in *; try congruence. now rewrite IH. Qed.

  Lemma upd_none : forall (B : Type) i (l : list B) x, nth_error l i = None -> upd i x l = l.
  Proof. intros B i; induction i as [|i IH]; intros [|z l] x H; cbn in *; try congruence. now rewrite IH. Qed.

  Lemma cell_none_upd : forall s n, cell s n = None -> upd n None (c_cells s) = c_cells s.
  Proof.
    intros s n H. unfold cell in H. destruct (nth_error (c_cells s) n) as [o|] eqn:E.
    - subst o. now apply upd_same.
    - now apply upd_none.
  Qed.

  Lemma sorted_nodup : forall (B : Type) (m : list (N * B)), smap_sorted m -> NoDup (map fst m).
  Proof.
    induction m as [|[k v] m IH]; intros H; cbn; [constructor|]. apply sorted_inv in H. destruct H as [H1 H2].
    constructor; [|auto]. intros IN. apply in_map_iff in IN. destruct IN as ([k' v'] & E & IN). cbn in E. subst k'.
    apply H2 in IN. lia.
  Qed.

  (** *** Conservation, for every history *)
  Definition total s := held_by_calls s ++ given_back s ++ in_cells s.

  (** The net effect of a thread step on hands, returns and cells. *)
  Lemma step_effect : forall s i p s', nth_error (c_thr s) i = Some p -> thread_step key contig s i p = Some s' ->
    exists q, c_thr s' = upd i q (c_thr s) /\
      Permutation (hand q ++ given q ++ in_cells s') (hand p ++ given p ++ in_cells s).
  Proof.
    intros s i p s' N H.
    assert (K : forall q, hand q = hand p -> given q = [] -> given p = [] -> Some (set_thr s i q) = Some s' ->
      exists q, c_thr s' = upd i q (c_thr s) /\ Permutation (hand q ++ given q ++ in_cells s') (hand p ++ given p ++ in_cells s)).
    { intros q Hh Hg Hg' E. injection E as <-. exists q. cbn. rewrite Hh, Hg, Hg'. auto. }
    destruct p as [v|v k n|v k n|v|v k n|v k n|v w r k|v|k|n|r]; cbn [thread_step] in H.
    - eapply K; [..|exact H]; destruct (smap_first_ge _ _) as [[? ?]|]; reflexivity.
    - eapply K; [..|exact H]; destruct (cell s n); try reflexivity; destruct (contig v t); reflexivity.
    - destruct (cell s n) as [w|] eqn:C; [|eapply K; [..|exact H]; reflexivity].
      injection H as <-. eexists. cbn [c_thr]. split; [reflexivity|]. cbn.
      apply cell_some in C. pose proof (flat_map_upd _ _ opt_list n _ _ None C) as P. cbn in P. rewrite app_nil_r in P.
      unfold in_cells. cbn. apply perm_skip. rewrite <- P. apply Permutation_cons_append.
    - eapply K; [..|exact H]; destruct (smap_last_lt _ _) as [[? ?]|]; reflexivity.
    - eapply K; [..|exact H]; destruct (cell s n); try reflexivity; destruct (contig v t); reflexivity.
    - destruct (cell s n) as [w|] eqn:C; [|eapply K; [..|exact H]; reflexivity].
      injection H as <-. eexists. cbn [c_thr]. split; [reflexivity|]. cbn.
      apply cell_some in C. pose proof (flat_map_upd _ _ opt_list n _ _ None C) as P. cbn in P. rewrite app_nil_r in P.
      unfold in_cells. cbn. apply perm_skip. rewrite <- P. apply Permutation_cons_append.
    - injection H as <-. eexists. cbn [c_thr]. split; [reflexivity|]. unfold in_cells. cbn. destruct r; [reflexivity|apply perm_swap].
    - injection H as <-. eexists. cbn [c_thr]. split; [reflexivity|]. unfold in_cells. cbn.
      rewrite flat_map_app. cbn. symmetry. apply Permutation_cons_append.
    - destruct (smap_get k (c_map s)) as [n|]; injection H as <-; eexists; cbn [c_thr set_thr]; (split; [reflexivity|]); reflexivity.
    - injection H as <-. eexists. cbn [c_thr]. split; [reflexivity|]. unfold in_cells. cbn.
      destruct (cell s n) as [w|] eqn:C.
      + apply cell_some in C. pose proof (flat_map_upd _ _ opt_list n _ _ None C) as P. cbn in P. rewrite app_nil_r in P.
        rewrite <- P. cbn. apply Permutation_cons_append.
      + rewrite cell_none_upd by exact C. reflexivity.
    - discriminate.
  Qed.

  Lemma total_step : forall s e s', conc_step key contig s e = Some s' ->
    Permutation (total s') (submitted_by e ++ total s).
  Proof.
    intros s e s' H. unfold total, held_by_calls, given_back. destruct e as [v|v|k|i]; cbn in H.
    - injection H as <-. cbn [c_thr]. unfold in_cells. cbn [c_cells]. rewrite !flat_map_app. cbn. rewrite app_nil_r, <- app_assoc. cbn.
      symmetry. apply Permutation_middle.
    - injection H as <-. cbn [c_thr]. unfold in_cells. cbn [c_cells]. rewrite !flat_map_app. cbn. rewrite app_nil_r, <- app_assoc. cbn.
      symmetry. apply Permutation_middle.
    - injection H as <-. cbn [c_thr]. unfold in_cells. cbn [c_cells]. rewrite !flat_map_app. cbn. rewrite !app_nil_r. reflexivity.
    - destruct (nth_error (c_thr s) i) as [p|] eqn:N; [|discriminate].
      destruct (step_effect s i p s' N H) as (q & TH & PE). rewrite TH. cbn [submitted_by app].
      destruct (upd_split _ i _ p N) as (a & b & E & _ & U). rewrite U, E, !flat_map_app. cbn [flat_map].
      set (ha := flat_map hand a). set (hb := flat_map hand b). set (ga := flat_map given a). set (gb := flat_map given b).
      assert (R : forall hp gp (m : list T), Permutation ((ha ++ hp ++ hb) ++ (ga ++ gp ++ gb) ++ m) ((ha ++ hb ++ ga ++ gb) ++ (hp ++ gp ++ m))).
      { intros hp gp m. perm. }
      rewrite (R (hand q)), (R (hand p)). apply Permutation_app_head. exact PE.
  Qed.

  Lemma conservation : forall tr s, conc_run key contig tr = Some s ->
    Permutation (submitted tr) (total s).
  Proof.
    intros tr s H. unfold conc_run in H.
    assert (G : forall tr s0 s, run_from (conc_step key contig) s0 tr = Some s -> Permutation (submitted tr ++ total s0) (total s)).
    { clear. induction tr as [|e tr IH]; intros s0 s H; cbn in H.
      - injection H as <-. reflexivity.
      - destruct (conc_step key contig s0 e) as [s1|] eqn:S; [|discriminate].
        rewrite <- (IH s1 s H). rewrite (total_step s0 e s1 S). unfold submitted. cbn [flat_map].
        perm. }
    rewrite <- (G tr _ s H). cbn. now rewrite app_nil_r.
  Qed.

  Lemma inside_step : forall s i p s', nth_error (c_thr s) i = Some p -> thread_step key contig s i p = Some s' ->
    exists out, Permutation (inside s) (out ++ inside s').
  Proof.
    intros s i p s' N H. destruct (step_effect s i p s' N H) as (q & TH & PE).
    assert (GP : given p = []) by (destruct p as [| | | | | | | | | |r]; try reflexivity; discriminate).
    rewrite GP in PE. cbn [app] in PE. exists (given q). unfold inside, held_by_calls. rewrite TH.
    destruct (upd_split _ i _ p N) as (a & b & E & _ & U). rewrite U, E, !flat_map_app. cbn [flat_map].
    set (ha := flat_map hand a). set (hb := flat_map hand b).
    assert (R : forall hp (m : list T), Permutation ((ha ++ hp ++ hb) ++ m) ((ha ++ hb) ++ (hp ++ m))).
    { intros hp m. perm. }
    rewrite (R (hand q)), (R (hand p)). rewrite <- PE. perm.
  Qed.

  (** *** No loss, when no key is submitted while a value with the same key is inside *)
  Record linked_inv s : Prop := {
    l_keys : NoDup (map key (inside s));
    l_sorted : smap_sorted (c_map s);
    l_entry : forall k n, smap_get k (c_map s) = Some n -> (n < length (c_cells s))%nat /\ forall w, cell s n = Some w -> key w = k;
    l_ref : forall i v k n, (nth_error (c_thr s) i = Some (PReadR v k n) \/ nth_error (c_thr s) i = Some (PTakeR v k n) \/
                             nth_error (c_thr s) i = Some (PReadL v k n) \/ nth_error (c_thr s) i = Some (PTakeL v k n)) ->
              (n < length (c_cells s))%nat /\ forall w, cell s n = Some w -> key w = k;
    l_rem : forall i v w r k, nth_error (c_thr s) i = Some (PRem v w r k) -> key w = k;
    l_deq : forall i n, nth_error (c_thr s) i = Some (PDeqTake n) -> (n < length (c_cells s))%nat;
    l_linked : forall n v, cell s n = Some v -> smap_get (key v) (c_map s) = Some n \/ exists i, nth_error (c_thr s) i = Some (PDeqTake n)
  }.

  Definition phase_ok s (q : phase T) : Prop :=
    match q with
    | PReadR _ k n | PTakeR _ k n | PReadL _ k n | PTakeL _ k n =>
        (n < length (c_cells s))%nat /\ forall w, cell s n = Some w -> key w = k
    | PRem _ w _ k => key w = k
    | PDeqTake n => (n < length (c_cells s))%nat
    | _ => True
    end.

  Lemma phase_ok_inv : forall s i q, linked_inv s -> nth_error (c_thr s) i = Some q -> phase_ok s q.
  Proof.
    intros s i q I H. destruct q; cbn; try exact Logic.I.
    - eapply (l_ref s I); eauto.
    - eapply (l_ref s I); eauto.
    - eapply (l_ref s I); eauto.
    - eapply (l_ref s I); eauto.
    - eapply (l_rem s I); eauto.
    - eapply (l_deq s I); eauto.
  Qed.

  Lemma of_phase_ok : forall s,
    NoDup (map key (inside s)) -> smap_sorted (c_map s) ->
    (forall k n, smap_get k (c_map s) = Some n -> (n < length (c_cells s))%nat /\ forall w, cell s n = Some w -> key w = k) ->
    (forall i q, nth_error (c_thr s) i = Some q -> phase_ok s q) ->
    (forall n v, cell s n = Some v -> smap_get (key v) (c_map s) = Some n \/ exists i, nth_error (c_thr s) i = Some (PDeqTake n)) ->
    linked_inv s.
  Proof.
    intros s H1 H2 H3 H4 H5. constructor; auto.
    - intros i v k n [H|[H|[H|H]]]; apply H4 in H; exact H.
    - intros i v w r k H. apply H4 in H. exact H.
    - intros i n H. apply H4 in H. exact H.
  Qed.

  Lemma phase_ok_mono : forall s s' q, phase_ok s q -> (length (c_cells s) <= length (c_cells s'))%nat ->
    (forall n w, cell s' n = Some w -> (n < length (c_cells s))%nat -> cell s n = Some w) -> phase_ok s' q.
  Proof.
    intros s s' q H L C. destruct q; cbn in *; auto; try lia; destruct H as [H1 H2]; (split; [lia|]); intros w Hw; apply H2; auto.
  Qed.

  Lemma cell_upd_none : forall s m t n w, cell (mkC (upd m None (c_cells s)) (c_map s) t) n = Some w -> n <> m /\ cell s n = Some w.
  Proof.
    intros s m t n w H. apply cell_some in H. cbn in H. apply upd_nth in H. destruct H as [[_ H]|[NE H]]; [discriminate|].
    split; [congruence|]. unfold cell. now rewrite H.
  Qed.

  Lemma cell_lt : forall s n w, cell s n = Some w -> (n < length (c_cells s))%nat.
  Proof. intros s n w H. apply cell_some in H. apply nth_error_Some. congruence. Qed.

  Lemma in_cells_in : forall s n w, cell s n = Some w -> In w (in_cells s).
  Proof.
    intros s n w H. apply cell_some in H. apply nth_error_In in H. unfold in_cells. apply in_flat_map. exists (Some w). split; [exact H|now left].
  Qed.

  (** A value in a hand and a value in a cell have different keys. *)
  Lemma hand_cell : forall s i p w n v, linked_inv s -> nth_error (c_thr s) i = Some p -> In w (hand p) -> cell s n = Some v -> key w <> key v.
  Proof.
    intros s i p w n v I N Hw Hc E. pose proof (l_keys s I) as ND. unfold inside in ND. rewrite map_app in ND.
    assert (D : forall a b : list BinNums.N, NoDup (a ++ b) -> forall x, In x a -> In x b -> False).
    { clear. induction a as [|y a IH]; intros b H x Ha Hb; [destruct Ha|]. inversion H as [|? ? H1 H2]; subst.
      destruct Ha as [->|Ha]; [apply H1, in_or_app; now right | eauto]. }
    apply (D _ _ ND (key w)).
    - apply in_map. unfold held_by_calls. apply in_flat_map. exists p. split; [eapply nth_error_In; eauto|exact Hw].
    - rewrite E. apply in_map. eapply in_cells_in; eauto.
  Qed.

  Lemma thread_linked : forall s i p s', linked_inv s -> nth_error (c_thr s) i = Some p ->
    thread_step key contig s i p = Some s' -> linked_inv s'.
  Proof.
    intros s i p s' I N H.
    assert (ND : NoDup (map key (inside s'))).
    { destruct (inside_step s i p s' N H) as (out & P). pose proof (l_keys s I) as K.
      apply (Permutation_map key) in P. rewrite map_app in P. eapply Permutation_NoDup in K; [|exact P].
      clear - K. induction (map key out) as [|x l IH]; cbn in K; [exact K|]. inversion K; auto. }
    pose proof (phase_ok_inv s i p I N) as OK.
    (* steps that only move the program counter *)
    assert (K : forall q, (forall n, p <> PDeqTake n) -> phase_ok s q -> Some (set_thr s i q) = Some s' -> linked_inv s').
    { intros q NP OQ E. injection E as <-. apply of_phase_ok.
      - exact ND.
      - exact (l_sorted s I).
      - exact (l_entry s I).
      - cbn. intros j q' Hj. apply upd_nth in Hj. destruct Hj as [[_ ->]|[_ Hj]]; [exact OQ|]. exact (phase_ok_inv s j q' I Hj).
      - cbn. intros n v Hc. destruct (l_linked s I n v Hc) as [L|(j & L)]; [now left|]. right. exists j.
        rewrite upd_nth_other; [exact L|]. intros ->. rewrite L in N. injection N as <-. now apply (NP n). }
    (* taking a value out of a cell *)
    assert (KT : forall v w r k n, (p = PTakeR v k n \/ p = PTakeL v k n) -> cell s n = Some w ->
      Some (mkC (upd n None (c_cells s)) (c_map s) (upd i (PRem v w r k) (c_thr s))) = Some s' -> linked_inv s').
    { intros v w r k n HP C E. injection E as <-.
      assert (OKp : (n < length (c_cells s))%nat /\ forall w, cell s n = Some w -> key w = k) by (destruct HP as [-> | ->]; exact OK).
      apply of_phase_ok.
      - exact ND.
      - exact (l_sorted s I).
      - intros k0 n0 G. destruct (l_entry s I k0 n0 G) as [L1 L2]. cbn [c_cells]. rewrite upd_length. split; [exact L1|].
        intros w0 Hw. apply cell_upd_none in Hw. now apply L2.
      - cbn [c_thr]. intros j q' Hj. apply upd_nth in Hj. destruct Hj as [[_ ->]|[_ Hj]]; [now apply OKp|].
        apply (phase_ok_mono s); [exact (phase_ok_inv s j q' I Hj)| |].
        + cbn. rewrite upd_length. lia.
        + intros n1 w1 Hw _. now apply cell_upd_none in Hw.
      - cbn [c_thr c_map]. intros n1 v1 Hc. apply cell_upd_none in Hc. destruct Hc as [_ Hc].
        destruct (l_linked s I n1 v1 Hc) as [L|(j & L)]; [now left|]. right. exists j.
        rewrite upd_nth_other; [exact L|]. intros ->. rewrite L in N. injection N as <-. destruct HP; discriminate. }
    destruct p as [v|v k n|v k n|v|v k n|v k n|v w r k|v|k|n|r]; cbn [thread_step] in H.
    - eapply K; [discriminate| |exact H]. destruct (smap_first_ge (key v) (c_map s)) as [[k n]|] eqn:G; [|exact Logic.I].
      cbn. apply (l_entry s I). pose proof (smap_first_ge_spec _ (c_map s) (key v) (l_sorted s I)) as SP. rewrite G in SP. apply SP.
    - eapply K; [discriminate| |exact H]. destruct (cell s n); [|exact Logic.I]. destruct (contig v t); [exact OK|exact Logic.I].
    - destruct (cell s n) as [w|] eqn:C; [eapply KT; eauto|]. eapply K; [discriminate| |exact H]. exact Logic.I.
    - eapply K; [discriminate| |exact H]. destruct (smap_last_lt (key v) (c_map s)) as [[k n]|] eqn:G; [|exact Logic.I].
      cbn. apply (l_entry s I). pose proof (smap_last_lt_spec _ (c_map s) (key v) (l_sorted s I)) as SP. rewrite G in SP. apply SP.
    - eapply K; [discriminate| |exact H]. destruct (cell s n); [|exact Logic.I]. destruct (contig v t); [exact OK|exact Logic.I].
    - destruct (cell s n) as [w|] eqn:C; [eapply KT; eauto|]. eapply K; [discriminate| |exact H]. exact Logic.I.
    - (* PRem *)
      injection H as <-. cbn in OK. apply of_phase_ok.
      + exact ND.
      + cbn. apply smap_remove_sorted. exact (l_sorted s I).
      + cbn [c_map]. intros k0 n0 G. rewrite smap_remove_get in G by exact (l_sorted s I). unfold fset in G.
        destruct (k0 =? k); [discriminate|]. exact (l_entry s I k0 n0 G).
      + cbn [c_thr]. intros j q' Hj. apply upd_nth in Hj. destruct Hj as [[_ ->]|[_ Hj]]; [destruct r; exact Logic.I|].
        exact (phase_ok_inv s j q' I Hj).
      + cbn [c_thr c_map]. intros n v1 Hc. change (cell s n = Some v1) in Hc.
        destruct (l_linked s I n v1 Hc) as [L|(j & L)].
        * left. rewrite smap_remove_get by exact (l_sorted s I). unfold fset.
          destruct (N.eqb_spec (key v1) k) as [E|NE]; [|exact L]. exfalso.
          apply (hand_cell s i _ w n v1 I N); [cbn; auto|exact Hc|congruence].
        * right. exists j. rewrite upd_nth_other; [exact L|]. intros ->. rewrite L in N. discriminate.
    - (* PQueue *)
      injection H as <-. apply of_phase_ok.
      + exact ND.
      + cbn. apply smap_insert_sorted. exact (l_sorted s I).
      + cbn [c_map c_cells]. intros k0 n0 G. rewrite smap_insert_get in G. unfold fset in G.
        rewrite app_length. cbn [length]. destruct (N.eqb_spec k0 (key v)) as [->|NE].
        * injection G as <-. split; [lia|]. intros w Hw. apply cell_some in Hw. cbn in Hw. apply nth_app_new in Hw.
          destruct Hw as [[_ Hw]|Hw]; [congruence|]. exfalso. assert (L : nth_error (c_cells s) (length (c_cells s)) <> None) by congruence. apply nth_error_Some in L. lia.
        * destruct (l_entry s I k0 n0 G) as [L1 L2]. split; [lia|]. intros w Hw. apply L2. apply cell_some in Hw. cbn in Hw.
          apply nth_app_new in Hw. destruct Hw as [[-> _]|Hw]; [lia|]. unfold cell. now rewrite Hw.
      + cbn [c_thr]. intros j q' Hj. apply upd_nth in Hj. destruct Hj as [[_ ->]|[_ Hj]]; [exact Logic.I|].
        apply (phase_ok_mono s); [exact (phase_ok_inv s j q' I Hj)| |].
        * cbn. rewrite app_length. cbn. lia.
        * intros n1 w1 Hw Hl. apply cell_some in Hw. cbn in Hw. apply nth_app_new in Hw. destruct Hw as [[-> _]|Hw]; [lia|].
          unfold cell. now rewrite Hw.
      + cbn [c_thr c_map]. intros n v1 Hc. apply cell_some in Hc. cbn in Hc. apply nth_app_new in Hc.
        rewrite smap_insert_get. unfold fset.
        destruct Hc as [[-> Hc]|Hc].
        * injection Hc as <-. left. now rewrite N.eqb_refl.
        * assert (Hc' : cell s n = Some v1) by (unfold cell; now rewrite Hc).
          destruct (l_linked s I n v1 Hc') as [L|(j & L)].
          -- left. destruct (N.eqb_spec (key v1) (key v)) as [E|NE]; [|exact L]. exfalso.
             apply (hand_cell s i _ v n v1 I N); [cbn; auto|exact Hc'|congruence].
          -- right. exists j. rewrite upd_nth_other; [exact L|]. intros ->. rewrite L in N. discriminate.
    - (* PDeq *)
      destruct (smap_get k (c_map s)) as [n|] eqn:G; [|eapply K; [discriminate| |exact H]; exact Logic.I].
      injection H as <-. apply of_phase_ok.
      + exact ND.
      + cbn. apply smap_remove_sorted. exact (l_sorted s I).
      + cbn [c_map]. intros k0 n0 G0. rewrite smap_remove_get in G0 by exact (l_sorted s I). unfold fset in G0.
        destruct (k0 =? k); [discriminate|]. exact (l_entry s I k0 n0 G0).
      + cbn [c_thr]. intros j q' Hj. apply upd_nth in Hj. destruct Hj as [[_ ->]|[_ Hj]].
        * cbn. apply (l_entry s I k n G).
        * exact (phase_ok_inv s j q' I Hj).
      + cbn [c_thr c_map]. intros n1 v1 Hc. change (cell s n1 = Some v1) in Hc.
        destruct (l_linked s I n1 v1 Hc) as [L|(j & L)].
        * rewrite smap_remove_get by exact (l_sorted s I). unfold fset.
          destruct (N.eqb_spec (key v1) k) as [E|NE]; [|now left]. right. exists i. rewrite E in L. rewrite L in G. injection G as ->.
          apply upd_nth_same. apply nth_error_Some. congruence.
        * right. exists j. rewrite upd_nth_other; [exact L|]. intros ->. rewrite L in N. discriminate.
    - (* PDeqTake *)
      injection H as <-. apply of_phase_ok.
      + exact ND.
      + exact (l_sorted s I).
      + cbn [c_map c_cells]. intros k0 n0 G. destruct (l_entry s I k0 n0 G) as [L1 L2]. rewrite upd_length. split; [exact L1|].
        intros w0 Hw. apply cell_upd_none in Hw. now apply L2.
      + cbn [c_thr]. intros j q' Hj. apply upd_nth in Hj. destruct Hj as [[_ ->]|[_ Hj]]; [exact Logic.I|].
        apply (phase_ok_mono s); [exact (phase_ok_inv s j q' I Hj)| |].
        * cbn. rewrite upd_length. lia.
        * intros n1 w1 Hw _. now apply cell_upd_none in Hw.
      + cbn [c_thr c_map]. intros n1 v1 Hc. apply cell_upd_none in Hc. destruct Hc as [NE Hc].
        destruct (l_linked s I n1 v1 Hc) as [L|(j & L)]; [now left|]. right. exists j.
        rewrite upd_nth_other; [exact L|]. intros ->. rewrite L in N. injection N as ->. congruence.
    - discriminate.
  Qed.

  Lemma linked_init : linked_inv c_init.
  Proof.
    constructor; cbn; try (intros; discriminate).
    - constructor.
    - constructor.
    - intros i v k n [H|[H|[H|H]]]; destruct i; discriminate.
    - intros i v w r k H; destruct i; discriminate.
    - intros i n H; destruct i; discriminate.
    - intros n v H. unfold cell in H. destruct n; discriminate.
  Qed.

  Lemma call_linked : forall s e s', (forall i, e <> CStep i) -> linked_inv s ->
    (forall v w, In v (submitted_by e) -> In w (inside s) -> key v <> key w) ->
    conc_step key contig s e = Some s' -> linked_inv s'.
  Proof.
    intros s e s' NS I F H.
    assert (K : forall q, hand q = submitted_by e -> phase_ok s q -> (forall n, q <> PDeqTake n) ->
      Some (mkC (c_cells s) (c_map s) (c_thr s ++ [q])) = Some s' -> linked_inv s').
    { intros q Hq OQ NQ E. injection E as <-. apply of_phase_ok.
      - unfold inside, held_by_calls. cbn [c_thr]. rewrite flat_map_app. cbn. rewrite app_nil_r, Hq.
        assert (P : Permutation (map key (submitted_by e ++ inside s)) (map key ((flat_map hand (c_thr s) ++ submitted_by e) ++ in_cells (mkC (c_cells s) (c_map s) (c_thr s ++ [q]))))).
        { apply Permutation_map. unfold inside, held_by_calls, in_cells. cbn [c_cells]. rewrite !app_assoc. apply Permutation_app_tail. apply Permutation_app_comm. }
        eapply Permutation_NoDup; [exact P|]. destruct e as [v|v|k|i]; cbn in F |- *; try (exact (l_keys s I)); constructor; try (exact (l_keys s I));
          intros IN; apply in_map_iff in IN; destruct IN as (w & E & IN); apply (F v w); auto.
      - exact (l_sorted s I).
      - exact (l_entry s I).
      - cbn [c_thr]. intros j q' Hj. apply nth_app_new in Hj. destruct Hj as [[_ ->]|Hj]; [exact OQ|]. exact (phase_ok_inv s j q' I Hj).
      - cbn [c_thr c_map]. intros n v Hc. destruct (l_linked s I n v Hc) as [L|(j & L)]; [now left|]. right. exists j.
        rewrite nth_error_app1; [exact L|]. apply nth_error_Some. congruence. }
    destruct e as [v|v|k|i]; cbn in H; [| | |exfalso; now apply (NS i)]; (eapply K; [..|exact H]; [reflexivity|exact Logic.I|discriminate]).
  Qed.

  Lemma fresh_linked : forall tr s0 s, linked_inv s0 -> fresh_run key contig (fun v w => key v <> key w) s0 tr ->
    run_from (conc_step key contig) s0 tr = Some s -> linked_inv s.
  Proof.
    induction tr as [|e tr IH]; intros s0 s I F H; cbn in H.
    - now injection H as <-.
    - inversion F as [|? ? s1 ? F1 S F2]; subst. rewrite S in H. apply (IH s1 s); auto.
      destruct e as [v|v|k|i]; [refine (call_linked s0 _ s1 _ I F1 S); discriminate ..|].
      cbn in S. destruct (nth_error (c_thr s0) i) as [p|] eqn:N; [|discriminate]. eapply thread_linked; eauto.
  Qed.

  (** When no call is in progress, every value in a cell is linked, exactly once. *)
  Lemma queued_perm : forall s, linked_inv s -> all_returned s -> Permutation (in_cells s) (queued s).
  Proof.
    intros s I AR.
    assert (LK : forall n v, cell s n = Some v -> In (key v, n) (c_map s)).
    { intros n v C. destruct (l_linked s I n v C) as [L|(i & L)].
      - apply smap_get_in; [exact (l_sorted s I)|exact L].
      - apply nth_error_In in L. destruct (AR _ L) as (r & E). discriminate. }
    assert (NDc : NoDup (in_cells s)).
    { pose proof (l_keys s I) as ND. apply NoDup_map_inv in ND. unfold inside in ND. 
      clear - ND. induction (held_by_calls s) as [|x l IHl]; cbn in ND; [exact ND|]. inversion ND; auto. }
    apply NoDup_Permutation; [exact NDc| |].
    - unfold queued. pose proof (l_entry s I) as LE.
      assert (LE' : forall k n w, In (k, n) (c_map s) -> cell s n = Some w -> key w = k).
      { intros k n w IN C. apply (LE k n); [apply smap_get_in; [exact (l_sorted s I)|exact IN]|exact C]. }
      pose proof (sorted_nodup _ _ (l_sorted s I)) as NDk. clear - LE' NDk.
      induction (c_map s) as [|[k n] m IHm]; cbn; [constructor|]. cbn in NDk. inversion NDk as [|? ? N1 N2]; subst.
      assert (IH : NoDup (flat_map (fun e : N * nat => opt_list (cell s (snd e))) m)).
      { apply IHm; [|exact N2]. intros k0 n0 w0 IN C. apply (LE' k0 n0); [now right|exact C]. }
      destruct (cell s n) as [w|] eqn:C; cbn; [|exact IH]. constructor; [|exact IH].
      intros IN. apply in_flat_map in IN. destruct IN as ([k1 n1] & IN & Hw). cbn in Hw. destruct (cell s n1) as [w1|] eqn:C1; [|destruct Hw].
      destruct Hw as [->|[]]. pose proof (LE' k n w (or_introl eq_refl) C). pose proof (LE' k1 n1 w (or_intror IN) C1).
      apply N1. apply in_map_iff. exists (k1, n1). cbn. split; [congruence|exact IN].
    - intros v. split; intros IN.
      + unfold in_cells in IN. apply in_flat_map in IN. destruct IN as ([w|] & IN & Hw); [|destruct Hw]. destruct Hw as [->|[]].
        apply In_nth_error in IN. destruct IN as (n & NE). assert (C : cell s n = Some v) by (unfold cell; now rewrite NE).
        unfold queued. apply in_flat_map. exists (key v, n). split; [now apply LK|]. cbn. rewrite C. now left.
      + unfold queued in IN. apply in_flat_map in IN. destruct IN as ([k n] & _ & Hw). cbn in Hw. destruct (cell s n) eqn:C; [|destruct Hw].
        destruct Hw as [->|[]]. eapply in_cells_in; eauto.
  Qed.

  Lemma no_loss : forall tr s, fresh_run key contig (fun v w => key v <> key w) c_init tr -> conc_run key contig tr = Some s ->
    all_returned s -> Permutation (submitted tr) (given_back s ++ queued s).
  Proof.
    intros tr s F H AR. rewrite (conservation tr s H). unfold total.
    assert (HB : held_by_calls s = []).
    { unfold held_by_calls. unfold all_returned in AR. induction (c_thr s) as [|p l IH]; [reflexivity|]. cbn.
      destruct (AR p (or_introl eq_refl)) as (r & ->). cbn. apply IH. intros q Hq. apply AR. now right. }
    rewrite HB. cbn. apply Permutation_app_head. apply queued_perm; [|exact AR].
    eapply fresh_linked; [apply linked_init|exact F|exact H].
  Qed.
End Conc.
