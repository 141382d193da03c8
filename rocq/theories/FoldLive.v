(** Fault-free runs of the fold: partition invariant, number of tasks, termination. *)
From Coq Require Import List Arith NArith Lia Permutation Bool.
From Verif Require Import Base BaseFacts ContiguousModel ContiguousSpec ContiguousProofs FoldModel FoldSpec FoldProofs.
Import ListNotations.
Open Scope N_scope.

(** ** Counting holders *)
Lemma holders_app : forall a b i, holders (a ++ b) i = (holders a i + holders b i)%nat.
Proof. induction a as [|r a IH]; intros b i; cbn; [reflexivity|]. rewrite IH. lia. Qed.

Lemma holders_perm : forall a b i, Permutation a b -> holders a i = holders b i.
Proof. intros a b i H. induction H; cbn; lia. Qed.

Lemma holders_in : forall a r i, In r a -> in_range r i = true -> (1 <= holders a i)%nat.
Proof.
  induction a as [|r0 a IH]; intros r i H Hr; [destruct H|]. cbn. destruct H as [->|H].
  - rewrite Hr. lia.
  - specialize (IH r i H Hr). lia.
Qed.

Lemma holders_pos : forall a i, (1 <= holders a i)%nat -> exists r, In r a /\ in_range r i = true.
Proof.
  induction a as [|r0 a IH]; intros i H; cbn in H; [lia|].
  destruct (in_range r0 i) eqn:E; [exists r0; split; [now left|exact E]|].
  destruct (IH i) as (r & H1 & H2); [lia|]. exists r. split; [now right|exact H2].
Qed.

Lemma in_range_iff : forall r i, in_range r i = true <-> fst r <= i <= snd r.
Proof. intros r i. unfold in_range. rewrite andb_true_iff, !N.leb_le. tauto. Qed.

Lemma in_range_b2n : forall lo hi i, (if in_range (lo, hi) i then 1%nat else 0%nat) =
  (if (lo <=? i) && (i <=? hi) then 1%nat else 0%nat).
Proof. reflexivity. Qed.

Section Live.
  Variables A E O : Type.
  Variable comb : O -> A -> A -> res E A.
  Variable empty : A.
  Variable base : N.
  Variable l : list A.
  Let n : N := N.of_nat (length l).
  Hypothesis bound : base + n <= usize_max.
  Lemma n_eq : n = N.of_nat (length l). Proof. reflexivity. Qed.
  Hypothesis total : forall o a b, exists c, comb o a b = ROk c.

  Definition pool (s : fstate A E) : list (N * N) :=
    flat_map inrng (f_inp s) ++ map irng (contents (f_asm s)) ++ map trng (f_chan s) ++
    map trng (f_tasks s) ++ flat_map rrng (f_results s) ++ frng (f_final s).

  Definition expected (i : N) : nat := if (base <=? i) && (i <? base + n) then 1%nat else 0%nat.

  Record pinv (s : fstate A E) : Prop := {
    p_v : vinv A E O comb empty base l s;
    p_ret : f_ret s = None;
    p_cov : forall i, holders (pool s) i = expected i;
    p_len : (length (pool s) + f_disp s = length l)%nat;
    p_noadj : forall y z, In y (contents (f_asm s)) -> In z (contents (f_asm s)) -> ~ adjacent y z;
    p_ok : Forall (fun r => exists it, r = ROk it) (f_results s);
    p_zero : f_count s = 0 -> f_asm s = [];
    p_small : f_count s < 2 -> f_chan s = [] /\ f_tasks s = [] /\ f_results s = [] /\ f_final s = None;
    p_ended : f_ended s = true -> 2 <= f_count s
  }.

  (** What a state may look like after a fault-free run has returned. *)
  Definition fin (s : fstate A E) : Prop :=
    (exists v, f_ret s = Some (RetOk v) /\ f_disp s = (length l - 1)%nat /\ f_chan s = [] /\ f_tasks s = []) \/
    (f_ret s = Some Panicked /\ length l = 1%nat /\ base <> 0 /\ f_disp s = 0%nat).

  Lemma vi : forall s it, vinv A E O comb empty base l s -> In it (contents (f_asm s)) -> vitem A E O comb base l it.
  Proof. intros s it I H. destruct I. rewrite Forall_forall in v_asm. auto. Qed.

  Lemma cov_disjoint : forall (L : list (item A)) (rest : list (N * N)),
    Forall proper L -> (forall i, (holders (map irng L ++ rest) i <= 1)%nat) -> ForallOrdPairs disjoint L.
  Proof.
    induction L as [|x L IH]; intros rest HP HC; [constructor|].
    inversion HP as [|? ? Px HPL]; subst. constructor.
    - apply Forall_forall. intros y Hy. rewrite Forall_forall in HPL. specialize (HPL y Hy).
      destruct Px as [Px _]. destruct HPL as [Py _]. unfold disjoint.
      destruct (N.lt_ge_cases (it_hi x) (it_lo y)) as [|H1]; [now left|].
      destruct (N.lt_ge_cases (it_hi y) (it_lo x)) as [|H2]; [now right|]. exfalso.
      specialize (HC (N.max (it_lo x) (it_lo y))). cbn in HC.
      assert (R1 : in_range (irng x) (N.max (it_lo x) (it_lo y)) = true) by (apply in_range_iff; cbn; lia).
      rewrite R1, holders_app in HC.
      assert (R2 : (1 <= holders (map irng L) (N.max (it_lo x) (it_lo y)))%nat).
      { apply holders_in with (irng y); [now apply in_map|]. apply in_range_iff; cbn; lia. }
      lia.
    - apply IH with rest; [exact HPL|]. intros i. specialize (HC i). cbn in HC. lia.
  Qed.

  Lemma expected_le : forall i, (expected i <= 1)%nat.
  Proof. intros i. unfold expected. destruct ((base <=? i) && (i <? base + n)); lia. Qed.

  (** A state plus one item in hand. *)
  Record hinv (s : fstate A E) (x : item A) : Prop := {
    h_v : vinv A E O comb empty base l s;
    h_x : vitem A E O comb base l x;
    h_ret : f_ret s = None;
    h_cov : forall i, ((if in_range (irng x) i then 1 else 0) + holders (pool s) i)%nat = expected i;
    h_len : (length (pool s) + f_disp s + 1 = length l)%nat;
    h_noadj : forall y z, In y (contents (f_asm s)) -> In z (contents (f_asm s)) -> ~ adjacent y z;
    h_ok : Forall (fun r => exists it, r = ROk it) (f_results s);
    h_two : 2 <= f_count s
  }.

  Definition weight (s : fstate A E) : nat :=
    (4 * length (f_inp s) + 3 * length (f_asm s) + 6 * length (f_chan s) + 5 * length (f_tasks s) +
     4 * length (f_results s) + (if f_ended s then 0 else 1) + (match f_final s with None => 0 | _ => 1 end) +
     (match f_ret s with None => 1 | _ => 0 end))%nat.

  Lemma acq : forall s x, hinv s x ->
    match cq_acquire item_key is_contiguous (f_asm s) x with
    | (Some (lv, rv), q') =>
        adjacent lv rv /\ lv <> rv /\
        exists y, ((lv = x /\ rv = y) \/ (lv = y /\ rv = x)) /\ Permutation (contents (f_asm s)) (y :: contents q')
    | (None, q') =>
        (forall y, In y (contents (f_asm s)) -> ~ adjacent x y /\ ~ adjacent y x) /\
        Permutation (contents q') (x :: contents (f_asm s))
    end.
  Proof.
    intros s x H. destruct H. pose proof (v_sorted _ _ _ _ _ _ _ _ h_v0) as HS. pose proof (v_keyed _ _ _ _ _ _ _ _ h_v0) as HK.
    pose proof (v_asm _ _ _ _ _ _ _ _ h_v0) as HA.
    assert (HP : Forall proper (contents (f_asm s))) by (eapply Forall_impl; [|exact HA]; intros; eapply vitem_proper; eauto).
    assert (Px : proper x) by (eapply vitem_proper; eauto).
    assert (D : ForallOrdPairs disjoint (x :: contents (f_asm s))).
    { apply cov_disjoint with (flat_map inrng (f_inp s) ++ map trng (f_chan s) ++
    map trng (f_tasks s) ++ flat_map rrng (f_results s) ++ frng (f_final s)); [now constructor|].
      intros i. specialize (h_cov0 i). pose proof (expected_le i). cbn [map app holders].
      unfold pool in h_cov0. rewrite !holders_app in *. lia. }
    inversion D as [|? ? D1 D2]; subst.
    pose proof (acquire_spec A (f_asm s) x HS HK HP Px D2 D1) as R.
    destruct (cq_acquire item_key is_contiguous (f_asm s) x) as [[[lv rv]|] q']; [|exact R].
    destruct R as (R1 & R2). split; [exact R1|]. split; [|exact R2].
    intros ->. unfold adjacent in R1.
    destruct R2 as (y & [[-> _]|[_ ->]] & _); destruct Px; lia.
  Qed.

  Lemma try_dispatch_pinv : forall s x, hinv s x ->
    pinv (try_dispatch s x) /\ (weight (try_dispatch s x) + 1 <= weight s + 4)%nat /\
    f_ended (try_dispatch s x) = f_ended s /\
    (forall y, In y (contents (f_asm (try_dispatch s x))) -> y = x \/ In y (contents (f_asm s))).
  Proof.
    intros s x H. pose proof (acq s x H) as R.
    pose proof (try_dispatch_vinv A E O comb empty base l bound s x (h_v _ _ H) (h_x _ _ H)) as HV.
    destruct H. unfold try_dispatch in *.
    destruct (cq_acquire item_key is_contiguous (f_asm s) x) as [[[lv rv]|] q'].
    - destruct R as (AD & _ & y & W & PQ).
      assert (COV : forall i, ((if in_range (it_lo lv, it_hi rv) i then 1 else 0) =
                (if in_range (irng x) i then 1 else 0) + (if in_range (irng y) i then 1 else 0))%nat).
      { intros i. assert (PX : it_lo x <= it_hi x) by (destruct h_x0 as (? & ? & ? & _); lia).
        assert (PY : it_lo y <= it_hi y).
        { assert (In y (contents (f_asm s))) as Hy by (eapply Permutation_in; [apply Permutation_sym; exact PQ | now left]).
          pose proof (vi s y h_v0 Hy) as V. destruct V as (? & ? & ? & _); lia. }
        unfold adjacent in AD. unfold in_range, irng; cbn.
        destruct W as [[-> ->]|[-> ->]];
        destruct (N.leb_spec (it_lo x) i), (N.leb_spec i (it_hi x)), (N.leb_spec (it_lo y) i), (N.leb_spec i (it_hi y)); cbn; lia. }
      assert (LQ : length (f_asm s) = S (length q')).
      { apply Permutation_length in PQ. unfold contents in PQ. cbn in PQ. rewrite !map_length in PQ. exact PQ. }
      split; [|split; [|split; [reflexivity|]]].
      + constructor; cbn; auto.
        * intros i. specialize (h_cov0 i). unfold pool in *. cbn.
          rewrite map_app. rewrite !holders_app in *. rewrite <- h_cov0.
          apply (Permutation_map irng) in PQ. rewrite (holders_perm _ _ i PQ). cbn.
          specialize (COV i). unfold trng; cbn. rewrite COV. unfold contents. lia.
        * revert h_len0. unfold pool, contents. cbn. rewrite !app_length, !map_length, !app_length. cbn. lia.
        * intros a b Ha Hb. apply h_noadj0; (eapply Permutation_in; [apply Permutation_sym; exact PQ | now right]).
        * intros Z. lia.
        * intros Z. lia.
      + unfold weight. cbn. rewrite app_length. cbn. lia.
      + intros z Hz. right. eapply Permutation_in; [apply Permutation_sym; exact PQ | now right].
    - destruct R as (NA & PQ).
      assert (LQ : length q' = S (length (f_asm s))).
      { apply Permutation_length in PQ. unfold contents in PQ. cbn in PQ. rewrite !map_length in PQ. exact PQ. }
      split; [|split; [|split; [reflexivity|]]].
      + constructor; cbn; auto.
        * intros i. specialize (h_cov0 i). unfold pool in *. cbn. rewrite !holders_app in *. rewrite <- h_cov0.
          apply (Permutation_map irng) in PQ. rewrite (holders_perm _ _ i PQ). cbn. lia.
        * revert h_len0. unfold pool, contents. cbn. rewrite !app_length, !map_length. lia.
        * intros a b Ha Hb.
          apply (Permutation_in _ PQ) in Ha. apply (Permutation_in _ PQ) in Hb.
          destruct Ha as [<-|Ha], Hb as [<-|Hb].
          -- unfold adjacent. destruct h_x0 as (? & ? & ? & _); lia.
          -- now apply NA.
          -- now apply NA.
          -- now apply h_noadj0.
        * intros Z. lia.
        * intros Z. lia.
      + unfold weight. cbn. lia.
      + intros z Hz. apply (Permutation_in _ PQ) in Hz. destruct Hz as [<-|Hz]; auto.
  Qed.

  (** If some held range is the full one, nothing else is held. *)
  Lemma full_alone : forall (a b : list (N * N)) r,
    (forall i, holders (a ++ r :: b) i = expected i) -> fst r = base -> snd r + 1 = base + n ->
    (forall r', In r' (a ++ b) -> base <= fst r' /\ fst r' <= snd r' /\ snd r' < base + n) -> a = [] /\ b = [].
  Proof.
    intros a b r HC F1 F2 HP.
    assert (Z : a ++ b = []).
    { destruct (a ++ b) as [|r' c] eqn:EQ; [reflexivity|]. exfalso.
      assert (Hr : In r' (a ++ b)) by (rewrite EQ; now left).
      assert (B : base <= fst r' /\ fst r' <= snd r' /\ snd r' < base + n) by (apply HP; now left).
      specialize (HC (fst r')). rewrite holders_app in HC. cbn in HC.
      assert (R1 : in_range r (fst r') = true) by (apply in_range_iff; lia). rewrite R1 in HC.
      assert (R2 : (1 <= holders (a ++ b) (fst r'))%nat).
      { apply holders_in with r'; [exact Hr|]. apply in_range_iff; lia. }
      rewrite holders_app in R2. pose proof (expected_le (fst r')). lia. }
    apply app_eq_nil in Z. exact Z.
  Qed.

  Lemma pool_bounds : forall s, vinv A E O comb empty base l s ->
    forall r, In r (pool s) -> base <= fst r /\ fst r <= snd r /\ snd r < base + n.
  Proof.
    intros s I r H. unfold pool in H. rewrite !in_app_iff in H. destruct I. pose proof n_eq.
    destruct H as [H|[H|[H|[H|[H|H]]]]].
    - apply in_flat_map in H. destruct H as (x & Hx & Hr). destruct v_inp as (arr & EA & HA). rewrite EA in Hx.
      apply in_map_iff in Hx. destruct Hx as ([i a] & <- & Hx). cbn in Hr. destruct Hr as [<-|[]].
      apply HA in Hx. apply (input_vitem A E O comb base l bound) in Hx. destruct Hx as (X1 & X2 & X3 & _). cbn in *. lia.
    - apply in_map_iff in H. destruct H as (it & <- & H). rewrite Forall_forall in v_asm.
      destruct (v_asm _ H) as (X1 & X2 & X3 & _). cbn in *. lia.
    - apply in_map_iff in H. destruct H as (t & <- & H). rewrite Forall_forall in v_chan.
      destruct (v_chan _ H) as (mid & X1 & X2 & X3 & X4 & _). cbn. lia.
    - apply in_map_iff in H. destruct H as (t & <- & H). rewrite Forall_forall in v_tasks.
      destruct (v_tasks _ H) as (mid & X1 & X2 & X3 & X4 & _). cbn. lia.
    - apply in_flat_map in H. destruct H as (x & Hx & Hr). rewrite Forall_forall in v_results. specialize (v_results _ Hx).
      destruct x as [it|e]; [|destruct Hr]. destruct Hr as [<-|[]]. destruct v_results as (X1 & X2 & X3 & _). cbn in *. lia.
    - destruct (f_final s) as [it|]; [|destruct H]. destruct H as [<-|[]].
      destruct (v_final it eq_refl) as [(X1 & X2 & X3 & _) _]. cbn in *. lia.
  Qed.

  Lemma pick_split : forall (B : Type) i (m : list B) x r, pick i m = Some (x, r) -> exists a b, m = a ++ x :: b /\ r = a ++ b.
  Proof.
    intros B i; induction i as [|i IH]; intros m x r H; destruct m as [|y m]; cbn in H; try discriminate.
    - injection H as <- <-. exists [], m. auto.
    - destruct (pick i m) as [[z r']|] eqn:P; [|discriminate]. injection H as <- <-.
      destruct (IH _ _ _ P) as (a & b & -> & ->). exists (y :: a), b. auto.
  Qed.

  Lemma flat_map_perm : forall (B C : Type) (f : B -> list C) a b, Permutation a b -> Permutation (flat_map f a) (flat_map f b).
  Proof. intros B C f a b H. now apply Permutation_flat_map. Qed.

  (** One fault-free step. *)
  Lemma live_step : forall s e s', pinv s -> nofault e = true -> fold_step comb empty s e = Some s' ->
    ((pinv s') \/ fin s') /\ (weight s' + 1 <= weight s)%nat.
  Proof.
    intros s e s' I NF H.
    pose proof (fold_step_vinv A E O comb empty base l bound s e s' (p_v s I) H) as V'.
    unfold fold_step in H. rewrite (p_ret s I) in H.
    destruct e as [| |i ok|i o|i ack|ok|i|i|i|i]; try discriminate NF.
    - (* input *)
      destruct (v_inp _ _ _ _ _ _ _ _ (p_v s I)) as (arr & EA & HA).
      destruct arr as [|[ix x] arr]; cbn in EA; rewrite EA in H; [discriminate|].
      injection H as <-.
      assert (HI : In (ix, x) (index_from base l)) by (apply HA; now left).
      assert (VI : vitem A E O comb base l (mkItem ix ix x)) by (now apply input_vitem).
      destruct I. unfold on_input in *. cbn [f_count set_inp fst snd] in *.
      destruct (N.ltb_spec (f_count s + 1) 2) as [C|C].
      + (* first item *)
        assert (C0 : f_count s = 0) by lia. specialize (p_zero0 C0).
        assert (C2 : f_count s < 2) by lia. destruct (p_small0 C2) as (S1 & S2 & S3 & S4).
        cbn [f_asm set_count set_inp] in *. rewrite p_zero0 in V' |- *. cbn [cq_queue smap_insert] in V' |- *.
        split.
        * left. constructor; cbn; auto.
          -- intros i. rewrite <- (p_cov0 i). unfold pool, contents. cbn. rewrite EA, p_zero0, S1, S2, S3, S4. cbn.
             rewrite !holders_app. cbn. rewrite ?holders_app. cbn. unfold irng; cbn. lia.
          -- revert p_len0. unfold pool, contents. cbn. rewrite EA, p_zero0, S1, S2, S3, S4. cbn. rewrite !app_length. cbn. lia.
          -- unfold contents; cbn; intros y z [<-|[]] [<-|[]]. unfold adjacent. cbn. lia.
          -- intros Z. lia.
          -- intros HE. exfalso. specialize (p_ended0 HE). lia.
        * unfold weight. cbn. rewrite EA, p_zero0. cbn. lia.
      + (* later items *)
        assert (HH : hinv (set_count (set_inp s (map ROk arr)) (f_count s + 1)) (mkItem ix ix x)).
        { constructor; cbn; auto.
          - destruct p_v0. constructor; cbn; auto.
            + exists arr. split; [reflexivity|]. intros; apply HA; now right.
            + rewrite EA in v_count. cbn in v_count. pose proof n_eq. lia.
            + intros HE. rewrite (v_ended HE) in EA. discriminate.
          - intros i. rewrite <- (p_cov0 i). unfold pool. cbn. rewrite EA. cbn. reflexivity.
          - revert p_len0. unfold pool. cbn. rewrite EA. cbn. lia. }
        destruct (try_dispatch_pinv _ _ HH) as (R1 & R2 & _). split; [now left|].
        revert R2. unfold weight at 2. cbn. unfold weight. rewrite EA. cbn. lia.
    - (* end of input *)
      destruct (f_inp s) eqn:EI; [|discriminate]. destruct (f_ended s) eqn:EE; [discriminate|].
      injection H as <-.
      pose proof (v_count _ _ _ _ _ _ _ _ (p_v s I)) as HC. rewrite EI in HC. cbn in HC. change (N.of_nat (length l)) with n in HC.
      unfold on_input_end in *. cbn [f_count set_ended f_asm] in *.
      destruct (N.eqb_spec (f_count s) 0) as [C0|C0].
      + split; [|unfold weight; cbn; rewrite EE, (p_ret s I); lia].
        right. left. exists empty. cbn. split; [reflexivity|].
        destruct (p_small s I ltac:(lia)) as (S1 & S2 & _).
        pose proof (p_len s I) as L. unfold n in HC. split; [lia|auto].
      + destruct (N.eqb_spec (f_count s) 1) as [C1|C1].
        * assert (LL : length l = 1%nat) by (unfold n in HC; lia).
          destruct I. destruct (p_small0 ltac:(lia)) as (S1 & S2 & S3 & S4).
          (* the assembler holds exactly the range of index base *)
          assert (HO : forall i, holders (map irng (contents (f_asm s))) i = expected i).
          { intros i. rewrite <- (p_cov0 i). unfold pool. rewrite EI, S1, S2, S3, S4. cbn. rewrite app_nil_r. reflexivity. }
          assert (LA : f_disp s = 0%nat /\ length (f_asm s) = 1%nat).
          { revert p_len0. unfold pool, contents. rewrite EI, S1, S2, S3, S4. cbn. rewrite app_nil_r, !map_length.
            destruct (f_asm s) eqn:EQ; cbn.
            - specialize (HO base). cbn in HO. unfold expected in HO.
              rewrite N.leb_refl in HO. destruct (N.ltb_spec base (base + n)); cbn in HO; [discriminate|]. unfold n in *. lia.
            - lia. }
          destruct LA as [LD LA].
          destruct (f_asm s) as [|[k it] [|? ?]] eqn:EQ; cbn in LA; try discriminate.
          assert (Ek : k = base).
          { assert (KE : item_key it = k).
            { pose proof (v_keyed _ _ _ _ _ _ _ _ p_v0) as KK. rewrite EQ in KK. apply KK. now left. }
            pose proof (vi s it p_v0) as VV. rewrite EQ in VV. specialize (VV (or_introl eq_refl)).
            destruct VV as (X1 & X2 & X3 & _). unfold item_key in KE. pose proof n_eq. lia. }
          unfold cq_dequeue. cbn [smap_get].
          destruct (N.eqb_spec 0 k) as [Z|Z].
          -- assert (RM : smap_remove 0 [(k, it)] = []) by (rewrite <- Z; reflexivity). rewrite RM.
             split; [|unfold weight; cbn; rewrite EE, EQ, p_ret0; cbn; lia].
             right. left. eexists. split; [reflexivity|]. cbn. split; [lia|auto].
          -- split; [|unfold weight; cbn; rewrite EE, p_ret0; cbn; lia].
             right. right. cbn. repeat split; [assumption|congruence|assumption].
        * split; [|unfold weight; cbn; rewrite EE; lia].
          left. destruct I. constructor; cbn; auto. intros _. lia.
    - (* publish *)
      destruct ok; [|discriminate].
      destruct (pick i (f_chan s)) as [[t c]|] eqn:P; [|discriminate]. injection H as <-.
      pose proof (pick_perm _ _ _ _ _ P) as PP. destruct I.
      assert (B2 : ~ f_count s < 2).
      { intros C2. destruct (p_small0 C2) as (S1 & _). rewrite S1 in P. destruct i; discriminate. }
      split.
      + left. constructor; cbn; auto.
        * intros j. rewrite <- (p_cov0 j). unfold pool. cbn. rewrite map_app, !holders_app. cbn.
          apply (Permutation_map trng) in PP. rewrite (holders_perm _ _ j PP). cbn. lia.
        * revert p_len0. unfold pool. cbn. rewrite !app_length, !map_length, app_length.
          apply Permutation_length in PP. cbn in *. lia.
        * intros C2. contradiction.
      + unfold weight. cbn. rewrite app_length. apply Permutation_length in PP. cbn in *. lia.
    - (* work *)
      destruct (pick i (f_tasks s)) as [[t ts]|] eqn:P; [|discriminate]. injection H as <-.
      destruct (total o (ft_l t) (ft_r t)) as (v & CE). rewrite CE in *.
      pose proof (pick_perm _ _ _ _ _ P) as PP. destruct I.
      assert (B2 : ~ f_count s < 2).
      { intros C2. destruct (p_small0 C2) as (_ & S1 & _). rewrite S1 in P. destruct i; discriminate. }
      split.
      + left. constructor; cbn; auto.
        * intros j. rewrite <- (p_cov0 j). unfold pool. cbn. rewrite flat_map_app, !holders_app. cbn.
          apply (Permutation_map trng) in PP. rewrite (holders_perm _ _ j PP). unfold irng, trng. cbn. lia.
        * revert p_len0. unfold pool. cbn. rewrite flat_map_app, !app_length, !map_length.
          apply Permutation_length in PP. cbn in *. lia.
        * apply Forall_app. split; [assumption|]. constructor; [eauto|constructor].
        * intros C2. contradiction.
      + unfold weight. cbn. rewrite app_length. apply Permutation_length in PP. cbn in *. lia.
    - (* result *)
      destruct ack; [|discriminate].
      destruct (N.leb_spec 2 (f_count s)) as [C2|C2]; [|discriminate].
      destruct (pick i (f_results s)) as [[r rs]|] eqn:P; [|discriminate]. injection H as <-.
      pose proof (pick_perm _ _ _ _ _ P) as PP.
      destruct (pick_Forall _ _ _ _ _ _ P (p_ok s I)) as [(it & ->) OKS].
      destruct (pick_Forall _ _ _ _ _ _ P (v_results _ _ _ _ _ _ _ _ (p_v s I))) as [VIT VRS].
      assert (HH : hinv (set_results s rs) it).
      { destruct I. constructor; cbn; auto.
        - destruct p_v0. constructor; cbn; auto.
        - intros j. rewrite <- (p_cov0 j). unfold pool. cbn. rewrite !holders_app.
          apply (flat_map_perm _ _ rrng) in PP. rewrite (holders_perm _ _ j PP). cbn. lia.
        - revert p_len0. unfold pool. cbn. rewrite !app_length.
          apply (flat_map_perm _ _ rrng), Permutation_length in PP. rewrite PP. cbn. lia. }
      unfold on_result in *. cbn [f_ended set_results f_count f_final] in *.
      destruct (f_ended s && is_final it (f_count s)) eqn:CF.
      + destruct (f_final s) eqn:F.
        * exfalso.
          destruct (v_final _ _ _ _ _ _ _ _ (p_v s I) i0 F) as [_ [F1 F2]].
          destruct HH. specialize (h_cov0 (it_lo it)). unfold pool in h_cov0. cbn in h_cov0. rewrite F in h_cov0. cbn in h_cov0.
          destruct VIT as (X1 & X2 & X3 & _). pose proof n_eq.
          assert (Q1 : in_range (irng it) (it_lo it) = true) by (apply in_range_iff; cbn; lia).
          assert (Q2 : in_range (irng i0) (it_lo it) = true) by (apply in_range_iff; cbn; lia).
          rewrite Q1, !holders_app in h_cov0. cbn in h_cov0. rewrite Q2 in h_cov0. pose proof (expected_le (it_lo it)). lia.
        * split.
          -- left. destruct HH. cbn in *. destruct I. constructor; cbn; auto.
             ++ intros j. rewrite <- (h_cov0 j). unfold pool. cbn. rewrite F. rewrite !holders_app. cbn. lia.
             ++ revert h_len0. unfold pool. cbn. rewrite F, !app_length. cbn. lia.
             ++ intros Z. lia.
          -- unfold weight. cbn. rewrite F. apply Permutation_length in PP. cbn in *. lia.
      + destruct (try_dispatch_pinv _ _ HH) as (R1 & R2 & _). split; [now left|].
        revert R2. unfold weight at 2. cbn. unfold weight. apply Permutation_length in PP. cbn in PP. lia.
    - (* final *)
      destruct ok; [|discriminate].
      destruct (f_final s) as [it|] eqn:F; [|discriminate]. injection H as <-.
      split; [|unfold weight; cbn; rewrite F, (p_ret s I); cbn; lia].
      right. left. eexists. split; [reflexivity|]. cbn.
      destruct (v_final _ _ _ _ _ _ _ _ (p_v s I) it F) as [_ [F1 F2]]. change (N.of_nat (length l)) with n in F2.
      pose proof (p_cov s I) as PC. pose proof (p_len s I) as PL.
      pose proof (pool_bounds s (p_v s I)) as PB.
      unfold pool in *. rewrite F in *. cbn [frng] in *.
      rewrite !app_assoc in PC, PL, PB.
      set (pre := ((((flat_map inrng (f_inp s) ++ map irng (contents (f_asm s))) ++ map trng (f_chan s)) ++
          map trng (f_tasks s)) ++ flat_map rrng (f_results s))) in *.
      destruct (full_alone pre [] (irng it) PC F1 F2) as [Z _].
      { intros r' Hr. apply PB. rewrite app_nil_r in Hr. apply in_app_iff. now left. }
      rewrite Z in PL. cbn in PL. split; [lia|]. unfold pre in Z.
      apply app_eq_nil in Z. destruct Z as [Z _]. apply app_eq_nil in Z. destruct Z as [Z Z1].
      apply app_eq_nil in Z. destruct Z as [_ Z2]. apply map_eq_nil in Z1, Z2. auto.
  Qed.

  Lemma pinv_init : forall arr, Permutation arr (index_from base l) -> pinv (fold_init (map ROk arr)).
  Proof.
    intros arr HP. constructor; cbn; auto.
    - now apply vinv_init.
    - intros i. unfold pool. cbn. rewrite app_nil_r.
      assert (F : flat_map (@inrng A E) (map ROk arr) = map (fun k => (k, k)) (map fst arr)).
      { clear HP. induction arr as [|[k x] arr IH]; cbn; [reflexivity | now rewrite IH]. }
      rewrite F. apply (Permutation_map fst), (Permutation_map (fun k => (k, k))) in HP.
      rewrite (holders_perm _ _ i HP). clear. unfold expected, n.
      revert base. induction l as [|x m IH]; intros b; cbn [index_from map holders length].
      + destruct (N.leb_spec b i), (N.ltb_spec i (b + N.of_nat 0)); cbn [andb]; lia.
      + rewrite IH. unfold in_range. cbn [fst snd].
        destruct (N.leb_spec b i), (N.leb_spec i b), (N.leb_spec (b + 1) i),
          (N.ltb_spec i (b + 1 + N.of_nat (length m))), (N.ltb_spec i (b + N.of_nat (S (length m)))); cbn; lia.
    - unfold pool. cbn. rewrite app_nil_r. apply Permutation_length in HP. rewrite index_from_length in HP.
      rewrite <- HP. clear. induction arr as [|[k x] arr IH]; cbn; lia.
    - discriminate.
  Qed.

  Definition linv (s : fstate A E) : Prop := pinv s \/ fin s.

  Lemma fin_stuck : forall s e, fin s -> fold_step comb empty s e = None.
  Proof. intros s e [(v & H & _)|(H & _)]; unfold fold_step; now rewrite H. Qed.

  Lemma live_run : forall tr s s', linv s -> Forall (fun e => nofault e = true) tr ->
    run_from (fold_step comb empty) s tr = Some s' -> linv s' /\ (length tr + weight s' <= weight s)%nat.
  Proof.
    induction tr as [|e tr IH]; intros s s' I F H; cbn in H.
    - injection H as <-. split; [exact I | cbn [length]; lia].
    - inversion F as [|? ? Fe F']; subst. destruct (fold_step comb empty s e) as [s1|] eqn:S; [|discriminate].
      destruct I as [I|I]; [|rewrite fin_stuck in S by exact I; discriminate].
      destruct (live_step s e s1 I Fe S) as [I1 W1].
      destruct (IH s1 s' I1 F' H) as [I2 W2]. split; [exact I2 | cbn [length]; lia].
  Qed.

  (** *** Maximal fault-free runs *)

  Lemma hold_in_some : forall s, pinv s -> forall i, base <= i -> i < base + n -> exists r, In r (pool s) /\ in_range r i = true.
  Proof.
    intros s I i H1 H2. apply holders_pos. rewrite (p_cov s I). unfold expected.
    destruct (N.leb_spec base i), (N.ltb_spec i (base + n)); cbn; lia.
  Qed.

  Lemma quiet_full : forall s, pinv s -> f_inp s = [] -> f_chan s = [] -> f_tasks s = [] -> f_results s = [] ->
    f_final s = None -> 0 < n -> exists k it, f_asm s = [(k, it)] /\ full A base l it.
  Proof.
    intros s I E1 E2 E3 E4 E5 Hn.
    assert (PE : pool s = map irng (contents (f_asm s))).
    { unfold pool. rewrite E1, E2, E3, E4, E5. cbn. now rewrite app_nil_r. }
    destruct (f_asm s) as [|[k it] q] eqn:EQ.
    - destruct (hold_in_some s I base) as (r & Hr & _); [lia|lia|]. rewrite PE in Hr. destruct Hr.
    - assert (INA : In it (contents (f_asm s))) by (rewrite EQ; now left).
      pose proof (vi s it (p_v s I) INA) as (X1 & X2 & X3 & _). change (N.of_nat (length l)) with n in X3.
      assert (DJ : ForallOrdPairs disjoint (contents (f_asm s))).
      { apply cov_disjoint with []; [apply Forall_forall; intros y Hy; eapply vitem_proper; eauto; eapply vi; eauto; apply (p_v s I)|].
        rewrite EQ. intros i. rewrite app_nil_r. change (contents ((k, it) :: q)) with (contents ((k,it)::q)) in *.
        rewrite <- PE, (p_cov s I). apply expected_le. }
      assert (FU : full A base l it).
      { split; change (N.of_nat (length l)) with n.
        - destruct (N.eq_dec (it_lo it) base) as [|NE]; [assumption|]. exfalso.
          destruct (hold_in_some s I (it_lo it - 1)) as (r & Hr & Hi); [lia|lia|].
          rewrite PE in Hr. rewrite <- EQ in Hr. apply in_map_iff in Hr. destruct Hr as (y & <- & Hy).
          apply in_range_iff in Hi. cbn in Hi.
          apply (p_noadj s I y it Hy INA). unfold adjacent.
          destruct (ForallOrdPairs_In DJ y it Hy INA) as [->|[D|D]]; [lia| |]; unfold disjoint in D; lia.
        - destruct (N.eq_dec (it_hi it + 1) (base + n)) as [|NE]; [assumption|]. exfalso.
          destruct (hold_in_some s I (it_hi it + 1)) as (r & Hr & Hi); [lia|lia|].
          rewrite PE in Hr. rewrite <- EQ in Hr. apply in_map_iff in Hr. destruct Hr as (y & <- & Hy).
          apply in_range_iff in Hi. cbn in Hi.
          apply (p_noadj s I it y INA Hy). unfold adjacent.
          destruct (ForallOrdPairs_In DJ it y INA Hy) as [->|[D|D]]; [lia| |]; unfold disjoint in D; lia. }
      destruct FU as [F1 F2]. change (N.of_nat (length l)) with n in F2.
      pose proof (p_cov s I) as PC. rewrite PE in PC. cbn in PC.
      destruct (full_alone [] (map irng (contents q)) (irng it) PC F1 F2) as [_ Z].
      + intros r' Hr. apply (pool_bounds s (p_v s I)). rewrite PE. cbn in *. now right.
      + exists k, it. split; [|split; assumption]. unfold contents in Z.
        destruct q; [reflexivity | discriminate].
  Qed.

  Definition stuck (s : fstate A E) : Prop := forall e, fold_step comb empty s e = None.

  Hypothesis orc : O.

  (** A fault-free run that cannot be continued by any fault-free event has returned, or has parked
      the complete result in the assembler, where nothing will ever look at it again. *)
  Lemma maximal_cases : forall s, linv s -> (forall e, nofault e = true -> fold_step comb empty s e = None) ->
    fin s \/ (pinv s /\ f_ended s = true /\ 2 <= f_count s /\
              (exists k it, f_asm s = [(k, it)] /\ full A base l it) /\ stuck s).
  Proof.
    intros s [I|I] MX; [|now left]. right. unfold stuck.
    pose proof (p_ret s I) as R.
    assert (E1 : f_inp s = []).
    { destruct (v_inp _ _ _ _ _ _ _ _ (p_v s I)) as (arr & EA & _). destruct arr as [|[i x] arr]; [exact EA|].
      specialize (MX EvInput eq_refl). unfold fold_step in MX. rewrite R, EA in MX. discriminate. }
    assert (EN : f_ended s = true).
    { destruct (f_ended s) eqn:EE; [reflexivity|]. specialize (MX EvInputEnd eq_refl).
      unfold fold_step in MX. rewrite R, E1, EE in MX. discriminate. }
    pose proof (p_ended s I EN) as C2.
    assert (E2 : f_chan s = []).
    { specialize (MX (EvPublish 0%nat true) eq_refl). unfold fold_step in MX. rewrite R in MX.
      destruct (f_chan s); [reflexivity|discriminate]. }
    assert (E3 : f_tasks s = []).
    { specialize (MX (EvWork 0%nat orc) eq_refl). unfold fold_step in MX. rewrite R in MX.
      destruct (f_tasks s); [reflexivity|discriminate]. }
    assert (E4 : f_results s = []).
    { specialize (MX (EvResult 0%nat true) eq_refl). unfold fold_step in MX. rewrite R in MX.
      destruct (N.leb_spec 2 (f_count s)); [|lia]. destruct (f_results s); [reflexivity|discriminate]. }
    assert (E5 : f_final s = None).
    { specialize (MX (EvFinal true) eq_refl). unfold fold_step in MX. rewrite R in MX.
      destruct (f_final s); [discriminate|reflexivity]. }
    assert (Hn : 0 < n).
    { pose proof (v_count _ _ _ _ _ _ _ _ (p_v s I)) as HC. change (N.of_nat (length l)) with n in HC. lia. }
    split; [exact I|]. split; [exact EN|]. split; [exact C2|]. split; [now apply quiet_full|].
    intros e. unfold fold_step. rewrite R, E1, E2, E3, E4, E5, EN.
    destruct e as [| |[|i] ok|[|i] o|[|i] ack|ok|[|i]|[|i]|[|i]|[|i]]; try reflexivity; cbn; destruct (2 <=? f_count s); reflexivity.
  Qed.

  (** After the end of input the assembler never receives the full range. *)
  Definition jinv (s : fstate A E) : Prop :=
    pinv s /\ f_ended s = true /\ forall it, In it (contents (f_asm s)) -> ~ full A base l it.

  Lemma is_final_full : forall s it, vinv A E O comb empty base l s -> f_ended s = true -> full A base l it ->
    vitem A E O comb base l it -> is_final it (f_count s) = true.
  Proof.
    intros s it V EN [F1 F2] (X1 & X2 & X3 & _). pose proof n_eq. pose proof (v_count _ _ _ _ _ _ _ _ V) as HC.
    rewrite (v_ended _ _ _ _ _ _ _ _ V EN) in HC. cbn in HC. change (N.of_nat (length l)) with n in HC.
    unfold is_final. rewrite wsucc_small by lia. apply N.eqb_eq. lia.
  Qed.

  Lemma jinv_step : forall s e s', jinv s -> nofault e = true -> fold_step comb empty s e = Some s' -> jinv s' \/ fin s'.
  Proof.
    intros s e s' (I & EN & J) NF H.
    destruct (live_step s e s' I NF H) as [[I'|I'] _]; [|now right]. left. split; [exact I'|].
    unfold fold_step in H. rewrite (p_ret s I) in H.
    destruct e as [| |i ok|i o|i ack|ok|i|i|i|i]; try discriminate NF.
    - rewrite (v_ended _ _ _ _ _ _ _ _ (p_v s I) EN) in H. discriminate.
    - rewrite EN in H. destruct (f_inp s); discriminate.
    - destruct (pick i (f_chan s)) as [[t c]|]; [|discriminate]. destruct ok; [|discriminate]. injection H as <-. auto.
    - destruct (pick i (f_tasks s)) as [[t c]|]; [|discriminate]. injection H as <-. auto.
    - destruct ack; [|discriminate]. destruct (2 <=? f_count s); [|discriminate].
      destruct (pick i (f_results s)) as [[r rs]|] eqn:P; [|discriminate]. injection H as <-.
      destruct (pick_Forall _ _ _ _ _ _ P (p_ok s I)) as [(it & ->) OKS].
      destruct (pick_Forall _ _ _ _ _ _ P (v_results _ _ _ _ _ _ _ _ (p_v s I))) as [VIT VRS].
      unfold on_result in *. cbn [f_ended set_results f_count f_final] in *. rewrite EN in *. cbn [andb] in *.
      destruct (is_final it (f_count s)) eqn:CF.
      + destruct (f_final s); cbn; auto.
      + destruct (try_dispatch_fields A E (set_results s rs) it) as (_ & F2 & _). rewrite F2. split; [exact EN|].
        intros y Hy.
        assert (Y : y = it \/ In y (contents (f_asm s))).
        { unfold try_dispatch in Hy.
          pose proof (acquire_safe A (f_asm s) it (v_sorted _ _ _ _ _ _ _ _ (p_v s I)) (v_keyed _ _ _ _ _ _ _ _ (p_v s I))
            (asm_proper A E O comb base l bound _ (v_asm _ _ _ _ _ _ _ _ (p_v s I))) (vitem_proper A E O comb base l bound _ VIT)) as AS.
          cbn [f_asm set_results] in Hy.
          destruct (cq_acquire item_key is_contiguous (f_asm s) it) as [[[a b]|] q']; cbn in Hy.
          - right. apply AS. exact Hy.
          - now apply AS. }
        destruct Y as [->|Y]; [|now apply J]. intros FU.
        rewrite (is_final_full s it (p_v s I) EN FU VIT) in CF. discriminate.
    - destruct (f_final s); [|discriminate]. injection H as <-. pose proof (p_ret _ I') as RR. discriminate RR.
  Qed.

  Lemma jinv_run : forall tr s s', jinv s \/ fin s -> Forall (fun e => nofault e = true) tr ->
    run_from (fold_step comb empty) s tr = Some s' -> jinv s' \/ fin s'.
  Proof.
    induction tr as [|e tr IH]; intros s s' I F H; cbn in H; [now injection H as <-|].
    inversion F as [|? ? Fe F']; subst. destruct (fold_step comb empty s e) as [s1|] eqn:S; [|discriminate].
    destruct I as [I|I]; [|rewrite fin_stuck in S by exact I; discriminate].
    apply (IH s1 s'); auto. eapply jinv_step; eauto.
  Qed.

  (** A parked full result means that nothing can happen any more. *)
  Lemma parked_stuck : forall s it, pinv s -> f_ended s = true -> In it (contents (f_asm s)) -> full A base l it -> stuck s.
  Proof.
    intros s it I EN IN [F1 F2]. change (N.of_nat (length l)) with n in F2. apply in_split in IN. destruct IN as (a & b & EQ).
    pose proof (p_cov s I) as PC. pose proof (pool_bounds s (p_v s I)) as PB. unfold pool in PC, PB.
    rewrite EQ, map_app in PC, PB. cbn [map] in PC, PB. 
    set (rest := map trng (f_chan s) ++ map trng (f_tasks s) ++ flat_map rrng (f_results s) ++ frng (f_final s)) in *.
    assert (PC' : forall i, holders ((flat_map inrng (f_inp s) ++ map irng a) ++ irng it :: (map irng b ++ rest)) i = expected i).
    { intros i. rewrite <- (PC i). f_equal. rewrite <- !app_assoc. reflexivity. }
    destruct (full_alone _ _ _ PC' F1 F2) as [Z1 Z2].
    { intros r' Hr. apply PB. rewrite !in_app_iff in *. cbn. rewrite ?in_app_iff. tauto. }
    apply app_eq_nil in Z1. destruct Z1 as [Z1 _]. apply app_eq_nil in Z2. destruct Z2 as [_ Z2].
    unfold rest in Z2. apply app_eq_nil in Z2. destruct Z2 as [Z2 Z3]. apply app_eq_nil in Z3. destruct Z3 as [Z3 Z4].
    apply app_eq_nil in Z4. destruct Z4 as [Z4 Z5]. apply map_eq_nil in Z2, Z3.
    assert (Z4' : f_results s = []).
    { pose proof (p_ok s I) as OK. destruct (f_results s) as [|r rs]; [reflexivity|].
      inversion OK as [|? ? (x & ->) _]; subst. discriminate. }
    assert (Z5' : f_final s = None) by (destruct (f_final s); [discriminate|reflexivity]).
    assert (Z1' : f_inp s = []) by (apply (v_ended _ _ _ _ _ _ _ _ (p_v s I) EN)).
    intros e. unfold fold_step. rewrite (p_ret s I), Z1', Z2, Z3, Z4', Z5', EN.
    destruct e as [| |[|i] ok|[|i] o|[|i] ack|ok|[|i]|[|i]|[|i]|[|i]]; try reflexivity; cbn; destruct (2 <=? f_count s); reflexivity.
  Qed.

  Lemma returns_if_result_after_end : forall arr t1 t2 s, Permutation arr (index_from base l) ->
    Forall (fun e => nofault e = true) (t1 ++ EvInputEnd :: t2) ->
    fold_run comb empty (map ROk arr) (t1 ++ EvInputEnd :: t2) = Some s ->
    existsb is_result t2 = true ->
    (forall e, nofault e = true -> fold_step comb empty s e = None) -> fin s.
  Proof.
    intros arr t1 t2 s HP NF HR EX MX. unfold fold_run in HR.
    apply run_from_app in HR. destruct HR as (m & H1 & H2). cbn in H2.
    apply Forall_app in NF. destruct NF as [NF1 NF2]. inversion NF2 as [|? ? _ NF3]; subst.
    destruct (fold_step comb empty m EvInputEnd) as [m'|] eqn:S; [|discriminate].
    destruct (live_run t1 _ m (or_introl (pinv_init arr HP)) NF1 H1) as [[Im|Im] _];
      [|rewrite fin_stuck in S by exact Im; discriminate].
    destruct (live_step m EvInputEnd m' Im eq_refl S) as [[I'|I'] _].
    - assert (EN : f_ended m' = true).
      { unfold fold_step in S. rewrite (p_ret m Im) in S. destruct (f_inp m); [|discriminate].
        destruct (f_ended m); [discriminate|]. injection S as <-. unfold on_input_end. cbn.
        destruct (f_count m =? 0); [reflexivity|]. destruct (f_count m =? 1); [|reflexivity].
        destruct (cq_dequeue (f_asm m) 0) as [[?|] ?]; reflexivity. }
      destruct (existsb (fun it => (it_lo it =? base) && (it_hi it + 1 =? base + n)) (contents (f_asm m'))) eqn:PK.
      + apply existsb_exists in PK. destruct PK as (it & IN & FB). apply andb_true_iff in FB. destruct FB as [B1 B2].
        apply N.eqb_eq in B1, B2.
        pose proof (parked_stuck m' it I' EN IN (conj B1 B2)) as ST.
        destruct t2 as [|e t2]; [discriminate|]. cbn in H2. rewrite ST in H2. discriminate.
      + assert (JI : jinv m').
        { split; [exact I'|]. split; [exact EN|]. intros it IN [F1 F2]. change (N.of_nat (length l)) with n in F2.
          assert (existsb (fun it => (it_lo it =? base) && (it_hi it + 1 =? base + n)) (contents (f_asm m')) = true).
          { apply existsb_exists. exists it. split; [exact IN|]. rewrite F1, F2, !N.eqb_refl. reflexivity. }
          congruence. }
        destruct (jinv_run t2 m' s (or_introl JI) NF3 H2) as [(Is & ENs & Js)|Fs]; [|exact Fs].
        destruct (maximal_cases s (or_introl Is) MX) as [Fs|(_ & _ & _ & (k & it & EQ & FU) & _)]; [exact Fs|].
        exfalso. apply (Js it); [rewrite EQ; now left | exact FU].
    - destruct t2 as [|e t2]; [discriminate|]. cbn in H2. rewrite fin_stuck in H2 by exact I'. discriminate.
  Qed.

  (** Conversely, if no result is handled after the end of input (and there were at least two inputs), the
      fold has not returned and never will. *)
  Lemma result_needed : forall tr s s', pinv s -> f_ended s = true -> f_final s = None ->
    Forall (fun e => nofault e = true) tr -> existsb is_result tr = false ->
    run_from (fold_step comb empty) s tr = Some s' -> f_ret s' = None.
  Proof.
    induction tr as [|e tr IH]; intros s s' I EN FN NF EX H; cbn in H.
    - injection H as <-. apply (p_ret s I).
    - inversion NF as [|? ? Fe NF']; subst. cbn in EX. apply orb_false_iff in EX. destruct EX as [EX1 EX2].
      destruct (fold_step comb empty s e) as [s1|] eqn:S; [|discriminate].
      destruct (live_step s e s1 I Fe S) as [I1 _].
      assert (X : f_ret s1 = None /\ f_ended s1 = true /\ f_final s1 = None).
      { unfold fold_step in S. rewrite (p_ret s I) in S. pose proof (p_ret s I) as R.
        destruct e as [| |i ok|i o|i ack|ok|i|i|i|i]; try discriminate Fe; try discriminate EX1.
        - rewrite (v_ended _ _ _ _ _ _ _ _ (p_v s I) EN) in S. discriminate.
        - rewrite EN in S. destruct (f_inp s); discriminate.
        - destruct (pick i (f_chan s)) as [[t c]|]; [|discriminate]. destruct ok; [|discriminate]. injection S as <-. auto.
        - destruct (pick i (f_tasks s)) as [[t c]|]; [|discriminate]. injection S as <-. auto.
        - rewrite FN in S. discriminate. }
      destruct X as (X1 & X2 & X3).
      destruct I1 as [I1|[(v & I1 & _)|(I1 & _)]]; [|congruence|congruence].
      eapply IH; eauto.
  Qed.
End Live.

(** ** Executions of combine in fault-free runs *)
Section Executions.
  Variables A E O : Type.
  Variable comb : O -> A -> A -> res E A.
  Variable empty : A.

  Lemma executions_cons : forall (e : fevent O) tr, executions (e :: tr) = ((if is_work e then 1 else 0) + executions tr)%nat.
  Proof. intros e tr. unfold executions. cbn. now destruct (is_work e). Qed.

  Definition backlog (s : fstate A E) : nat := (length (f_chan s) + length (f_tasks s))%nat.

  Lemma try_dispatch_backlog : forall (s : fstate A E) it,
    (f_disp (try_dispatch s it) + backlog s = f_disp s + backlog (try_dispatch s it))%nat.
  Proof.
    intros s it. unfold try_dispatch, backlog.
    destruct (cq_acquire item_key is_contiguous (f_asm s) it) as [[[a b]|] q]; cbn; rewrite ?app_length; cbn; lia.
  Qed.

  Lemma backlog_step : forall s e s', nofault e = true -> fold_step comb empty s e = Some s' ->
    (f_disp s' + backlog s = f_disp s + backlog s' + (if is_work e then 1 else 0))%nat.
  Proof.
    intros s e s' NF H. unfold fold_step in H. destruct (f_ret s); [discriminate|].
    destruct e as [| |i ok|i o|i ack|ok|i|i|i|i]; try discriminate NF; cbn [is_work].
    - destruct (f_inp s) as [|[[ix y]|er] rest]; [discriminate| |]; injection H as <-.
      + unfold on_input. cbn [f_count set_inp fst snd]. destruct (f_count s + 1 <? 2); [cbn; unfold backlog; cbn; lia|].
        pose proof (try_dispatch_backlog (set_count (set_inp s rest) (f_count s + 1)) (mkItem ix ix y)) as T.
        revert T. unfold backlog. cbn. lia.
      + unfold backlog. cbn. lia.
    - destruct (f_inp s); [|discriminate]. destruct (f_ended s); [discriminate|]. injection H as <-.
      unfold on_input_end. cbn [f_count set_ended f_asm]. destruct (f_count s =? 0); [unfold backlog; cbn; lia|].
      destruct (f_count s =? 1); [|unfold backlog; cbn; lia].
      destruct (cq_dequeue _ 0) as [[it|] q]; unfold backlog; cbn; lia.
    - destruct ok; [|discriminate]. destruct (pick i (f_chan s)) as [[t c]|] eqn:P; [|discriminate]. injection H as <-.
      apply pick_length in P. unfold backlog. cbn. rewrite app_length. cbn. lia.
    - destruct (pick i (f_tasks s)) as [[t c]|] eqn:P; [|discriminate]. injection H as <-.
      apply pick_length in P. unfold backlog. cbn. lia.
    - destruct ack; [|discriminate]. destruct (2 <=? f_count s); [|discriminate].
      destruct (pick i (f_results s)) as [[r rs]|]; [|discriminate]. injection H as <-.
      unfold on_result. destruct r as [it|er]; [|unfold backlog; cbn; lia].
      cbn [f_ended f_count f_final set_results]. destruct (f_ended s && is_final it (f_count s)).
      + destruct (f_final s); unfold backlog; cbn; lia.
      + pose proof (try_dispatch_backlog (set_results s rs) it) as T. revert T. unfold backlog. cbn. lia.
    - destruct (f_final s); [|discriminate]. injection H as <-. unfold backlog. cbn. lia.
  Qed.

  Lemma backlog_run : forall tr s s', fault_free tr -> run_from (fold_step comb empty) s tr = Some s' ->
    (f_disp s' + backlog s = f_disp s + backlog s' + executions tr)%nat.
  Proof.
    induction tr as [|e tr IH]; intros s s' F H; cbn in H.
    - injection H as <-. unfold executions. cbn. lia.
    - inversion F as [|? ? Fe F']; subst. destruct (fold_step comb empty s e) as [s1|] eqn:S; [|discriminate].
      apply (backlog_step s e s1 Fe) in S. apply (IH s1 s' F') in H. rewrite executions_cons. lia.
  Qed.
End Executions.

(** ** Statements used by the property file *)
Section Statements.
  Variables A E O : Type.
  Variable comb : O -> A -> A -> res E A.
  Variable empty : A.
  Variable base : N.
  Variable l : list A.
  Variable arr : list (N * A).
  Variable tr : list (fevent O).
  Variable s : fstate A E.
  Hypothesis bound : base + N.of_nat (length l) <= usize_max.
  Hypothesis perm : Permutation arr (index_from base l).
  Hypothesis runs : fold_run comb empty (map ROk arr) tr = Some s.

  Lemma reach_vinv : vinv A E O comb empty base l s.
  Proof.
    apply (run_from_inv _ _ _ _ (fold_step_vinv A E O comb empty base l bound) tr (fold_init (map ROk arr)) s); [|exact runs].
    now apply vinv_init.
  Qed.

  Hypothesis ff : fault_free tr.
  Hypothesis total : forall o a b, exists c, comb o a b = ROk c.

  Lemma reach_linv : linv A E O comb empty base l s /\ (length tr + weight A E s <= 4 * length l + 2)%nat.
  Proof.
    destruct (live_run A E O comb empty base l bound total tr (fold_init (map ROk arr)) s) as [H1 H2].
    - left. now apply pinv_init.
    - exact ff.
    - exact runs.
    - split; [exact H1|].
      assert (W : weight A E (fold_init (map ROk arr)) = (4 * length l + 2)%nat); [|lia].
      unfold weight. cbn [f_inp f_asm f_chan f_tasks f_results f_ended f_final f_ret fold_init length].
      rewrite map_length. apply Permutation_length in perm. rewrite index_from_length in perm. lia.
  Qed.

  Lemma partition_lemma : f_ret s = None -> partition_of (held s) base (N.of_nat (length l)).
  Proof.
    intros R. destruct (proj1 reach_linv) as [I|[(v & I & _)|(I & _)]]; [|congruence|congruence].
    split.
    - intros r Hr. apply (pool_bounds A E O comb empty base l bound s (p_v _ _ _ _ _ _ _ _ I) r Hr).
    - apply (p_cov _ _ _ _ _ _ _ _ I).
  Qed.

  Lemma executions_lemma : forall v, f_ret s = Some (RetOk v) -> executions tr = (length l - 1)%nat.
  Proof.
    intros v R. destruct (proj1 reach_linv) as [I|[(v' & I & D & C & T)|(I & _)]]; [|clear R|congruence].
    - rewrite (p_ret _ _ _ _ _ _ _ _ I) in R. discriminate.
    - pose proof (backlog_run A E O comb empty tr _ s ff runs) as B. unfold backlog in B. rewrite C, T in B. cbn in B. lia.
  Qed.

  Lemma dispatch_bound : (f_disp s <= length l - 1)%nat.
  Proof.
    destruct (proj1 reach_linv) as [I|[(v' & I & D & C & T)|(I & L & _ & D)]].
    - pose proof (p_len _ _ _ _ _ _ _ _ I) as PL. destruct (Nat.eq_dec (length l) 0) as [L|L]; [lia|].
      destruct (hold_in_some A E O comb empty base l bound s I base) as (r & Hr & _); [lia|lia|].
      destruct (pool A E s); [destruct Hr|cbn in PL; lia].
    - lia.
    - lia.
  Qed.
End Statements.
