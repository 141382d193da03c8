(** C68: pairs given out by concurrent calls of ContiguousQueue are adjacent and in order. *)
From Coq Require Import List Arith NArith Lia Permutation Bool.
From Verif Require Import Base BaseFacts ContiguousModel ContiguousSpec ContiguousProofs ContigConcModel ContigConcSpec ContigConcProofs ContigConcProps.
Import ListNotations.
Open Scope N_scope.

Lemma first_ge_in : forall (V : Type) (m : cqueue V) k k' n, smap_first_ge k m = Some (k', n) -> In (k', n) m /\ k <= k'.
Proof.
  intros V m k k' n. induction m as [|[k0 n0] r IH]; cbn; [discriminate|]. destruct (N.leb_spec k k0); intros Q.
  - injection Q as <- <-. auto.
  - destruct (IH Q). auto.
Qed.
Lemma last_lt_in : forall (V : Type) (m : cqueue V) k k' n, smap_last_lt k m = Some (k', n) -> In (k', n) m /\ k' < k.
Proof.
  intros V m k k' n. induction m as [|[k0 n0] r IH]; cbn; [discriminate|]. destruct (N.ltb_spec k0 k); [|discriminate].
  destruct (smap_last_lt k r) as [[k1 n1]|]; intros Q; [destruct (IH Q); auto | injection Q as <- <-; auto].
Qed.

Section Adj.
  Variable T : Type.
  Variable key : T -> N.
  Variable contig : T -> T -> bool.

  (** What is known of a call at each place, if the node it has found still holds a value. *)
  Definition fits (c : list (option T)) (p : phase T) : Prop :=
    match p with
    | PReadR v k n => (n < length c)%nat /\ key v <= k /\ forall w, nth_error c n = Some (Some w) -> key w = k
    | PTakeR v k n => (n < length c)%nat /\ key v <= k /\ forall w, nth_error c n = Some (Some w) -> key w = k /\ contig v w = true
    | PReadL v k n => (n < length c)%nat /\ k < key v /\ forall w, nth_error c n = Some (Some w) -> key w = k
    | PTakeL v k n => (n < length c)%nat /\ k < key v /\ forall w, nth_error c n = Some (Some w) -> key w = k /\ contig v w = true
    | PRem v w rgt k => contig v w = true /\ if rgt then key v <= key w else key w < key v
    | PDone (RetPair l r) => (contig l r = true /\ key l <= key r) \/ (contig r l = true /\ key l < key r)
    | _ => True
    end.
  Definition adj_inv (s : cstate T) : Prop :=
    (forall k n, In (k, n) (c_map s) -> (n < length (c_cells s))%nat /\ forall w, nth_error (c_cells s) n = Some (Some w) -> key w = k) /\
    (forall p, In p (c_thr s) -> fits (c_cells s) p).

  Lemma fits_grow : forall c x p, fits c p -> fits (c ++ [x]) p.
  Proof.
    intros c x p H. assert (G : forall n w, (n < length c)%nat -> nth_error (c ++ [x]) n = Some (Some w) -> nth_error c n = Some (Some w)) by (intros n w L Q; now rewrite nth_error_app1 in Q).
    destruct p as [v|v k n|v k n|v|v k n|v k n|v w rgt k|v|k|n|r]; try exact H; destruct H as (A & B & C); (split; [rewrite app_length; cbn; lia|]; split; [exact B|]; intros w Q; apply C; now apply G).
  Qed.
  Lemma fits_empty : forall c n p, fits c p -> fits (upd n None c) p.
  Proof.
    intros c n p H. assert (G : forall m w, nth_error (upd n None c) m = Some (Some w) -> nth_error c m = Some (Some w)).
    { intros m w Q. destruct (Nat.eq_dec n m) as [<-|NE]; [|now rewrite upd_nth_other in Q]. destruct (Nat.lt_ge_cases n (length c)) as [L|L]; [rewrite upd_nth_same in Q by exact L; discriminate|].
      assert (nth_error (upd n None c) n = None) by (apply nth_error_None; now rewrite upd_length). congruence. }
    destruct p as [v|v k m|v k m|v|v k m|v k m|v w rgt k|v|k|m|r]; try exact H; destruct H as (A & B & C); (split; [now rewrite upd_length|]; split; [exact B|]; intros w Q; apply C; now apply G).
  Qed.
  Lemma cell_some : forall (s : cstate T) n w, cell s n = Some w -> nth_error (c_cells s) n = Some (Some w).
  Proof. intros s n w H. unfold cell in H. destruct (nth_error (c_cells s) n); congruence. Qed.

  Lemma adj_step : forall s e s', adj_inv s -> conc_step key contig s e = Some s' -> adj_inv s'.
  Proof.
    intros s e s' (M & F) H. destruct e as [v|v|k|i]; cbn in H; try (injection H as <-; split; [exact M|]; cbn; intros p I; apply in_app_or in I; destruct I as [I|[<-|[]]]; [auto|exact Logic.I]).
    destruct (nth_error (c_thr s) i) as [p|] eqn:P; [|discriminate]. pose proof (F _ (nth_error_In _ _ P)) as FP.
    assert (SET : forall p', fits (c_cells s) p' -> adj_inv (set_thr s i p')). { intros p' Q. split; [exact M|]. cbn. intros q I. apply nth_In_upd in I. destruct I as [->|I]; auto. }
    assert (TAKE : forall n p', fits (upd n None (c_cells s)) p' -> adj_inv (mkC (upd n None (c_cells s)) (c_map s) (upd i p' (c_thr s)))).
    { intros n p' Q. split; cbn.
      - intros k m I. destruct (M k m I) as [A B]. split; [now rewrite upd_length|]. intros w X. apply B. destruct (Nat.eq_dec n m) as [<-|NE]; [rewrite upd_nth_same in X by exact A; discriminate | now rewrite upd_nth_other in X].
      - intros q I. apply nth_In_upd in I. destruct I as [->|I]; [exact Q | apply fits_empty; auto]. }
    destruct p as [v|v k n|v k n|v|v k n|v k n|v w rgt k|v|k|n|r]; cbn in H; try discriminate.
    - injection H as <-. apply SET. destruct (smap_first_ge (key v) (c_map s)) as [[k n]|] eqn:Q; [|exact Logic.I]. apply first_ge_in in Q. destruct Q as [I L]. destruct (M _ _ I). repeat split; auto.
    - injection H as <-. apply SET. destruct FP as (A & B & C). destruct (cell s n) as [w|] eqn:Q; [|exact Logic.I]. destruct (contig v w) eqn:K; [|exact Logic.I]. apply cell_some in Q.
      split; [exact A|]. split; [exact B|]. intros w' Q'. rewrite Q in Q'. injection Q' as <-. auto.
    - destruct FP as (A & B & C). destruct (cell s n) as [w|] eqn:Q; injection H as <-; [|apply SET; exact Logic.I]. apply cell_some in Q. destruct (C w Q) as [<- K]. apply TAKE. now split.
    - injection H as <-. apply SET. destruct (smap_last_lt (key v) (c_map s)) as [[k n]|] eqn:Q; [|exact Logic.I]. apply last_lt_in in Q. destruct Q as [I L]. destruct (M _ _ I). repeat split; auto.
    - injection H as <-. apply SET. destruct FP as (A & B & C). destruct (cell s n) as [w|] eqn:Q; [|exact Logic.I]. destruct (contig v w) eqn:K; [|exact Logic.I]. apply cell_some in Q.
      split; [exact A|]. split; [exact B|]. intros w' Q'. rewrite Q in Q'. injection Q' as <-. auto.
    - destruct FP as (A & B & C). destruct (cell s n) as [w|] eqn:Q; injection H as <-; [|apply SET; exact Logic.I]. apply cell_some in Q. destruct (C w Q) as [<- K]. apply TAKE. now split.
    - injection H as <-. destruct FP as (K & O). split; cbn.
      + intros k' n I. apply smap_remove_in in I. auto.
      + intros q I. apply nth_In_upd in I. destruct I as [->|I]; [|auto]. destruct rgt; cbn; auto.
    - injection H as <-. split; cbn.
      + intros k n I. apply smap_insert_in in I. destruct I as [I|I].
        * injection I as -> ->. split; [rewrite app_length; cbn; lia|]. intros w Q. rewrite nth_error_app2, Nat.sub_diag in Q by lia. cbn in Q. congruence.
        * destruct (M k n I) as [A B]. split; [rewrite app_length; cbn; lia|]. intros w Q. rewrite nth_error_app1 in Q by exact A. auto.
      + intros q I. apply nth_In_upd in I. destruct I as [->|I]; [exact Logic.I | apply fits_grow; auto].
    - destruct (smap_get k (c_map s)) as [n|]; injection H as <-; [|apply SET; exact Logic.I]. split; cbn.
      + intros k' n' I. apply smap_remove_in in I. auto.
      + intros q I. apply nth_In_upd in I. destruct I as [->|I]; [exact Logic.I | auto].
    - injection H as <-. apply TAKE. destruct (cell s n); exact Logic.I.
  Qed.
  Lemma adj_run : forall tr s, conc_run key contig tr = Some s -> adj_inv s.
  Proof. intros tr s H. refine (run_from_inv _ _ (conc_step key contig) adj_inv adj_step tr c_init s _ H). split; [intros k n [] | intros p []]. Qed.
  (** The values of a pair were submitted. *)
  Lemma pair_submitted : forall tr s l r, conc_run key contig tr = Some s -> In (PDone (RetPair l r)) (c_thr s) -> In l (submitted tr) /\ In r (submitted tr).
  Proof.
    intros tr s l r H I. pose proof (C10_no_duplication T key contig tr s H) as C.
    assert (G : forall x, x = l \/ x = r -> In x (submitted tr)).
    { intros x Q. apply (Permutation_in _ (Permutation_sym C)). apply in_or_app. right. apply in_or_app. left. apply in_flat_map. exists (PDone (RetPair l r)). split; [exact I|]. cbn. destruct Q as [->| ->]; auto. }
    auto.
  Qed.
End Adj.

(** ** C68: whatever the threads do, also with values that overlap or have equal keys. *)
Theorem C68_pairs_adjacent : forall (A : Type) tr (s : cstate (item A)) l r, conc_run item_key is_contiguous tr = Some s -> Forall proper (submitted tr) -> In (PDone (RetPair l r)) (c_thr s) ->
  adjacent l r /\ In l (submitted tr) /\ In r (submitted tr).
Proof.
  intros A tr s l r H P I. destruct (adj_run _ _ _ _ _ H) as (_ & F). specialize (F _ I). destruct (pair_submitted _ _ _ _ _ _ _ H I) as [SL SR].
  rewrite Forall_forall in P. pose proof (P _ SL) as PL. pose proof (P _ SR) as PR. split; [|auto]. cbn in F. unfold item_key in F. unfold proper in PL, PR. unfold adjacent.
  destruct F as [(C & L)|(C & L)]; apply is_contiguous_spec in C; auto; unfold adjacent in C; lia.
Qed.
(** Values at the end of the range of usize need the condition: the successor wraps around, and "adjacent" means nothing there (C51). *)
Theorem C68_needs_proper : exists tr (s : cstate (item N)) l r, conc_run item_key is_contiguous tr = Some s /\ In (PDone (RetPair l r)) (c_thr s) /\ ~ adjacent l r /\ it_lo l <= it_hi l /\ it_lo r <= it_hi r.
Proof.
  exists [CQueue (mkItem 5 usize_max 1); CStep 0; CAcquire (mkItem 0 0 2); CStep 1; CStep 1; CStep 1; CStep 1]. eexists. exists (mkItem 0 0 2), (mkItem 5 usize_max 1).
  split; [vm_compute; reflexivity|]. split; [cbn; auto|]. split; [unfold adjacent; cbn; lia|]. split; cbn; vm_compute; discriminate.
Qed.
(** Two calls that see the same partner: one gets it, the other does not. *)
Example C68_example : let tr := [CAcquire (mkItem 1 1 11); CStep 0; CStep 0; CStep 0; CAcquire (mkItem 0 0 10); CAcquire (mkItem 2 2 12); CStep 1; CStep 2; CStep 1; CStep 2; CStep 2; CStep 2; CStep 1; CStep 2; CStep 1; CStep 1] in
  exists s, conc_run item_key is_contiguous tr = Some s /\ Forall proper (submitted tr) /\ c_thr s = [PDone RetNone; PDone RetNone; PDone (RetPair (mkItem 1 1 11) (mkItem 2 2 12))].
Proof. cbv zeta. eexists. split; [vm_compute; reflexivity|]. split; [repeat constructor; vm_compute; congruence | reflexivity]. Qed.
Print Assumptions C68_pairs_adjacent.
Print Assumptions C68_needs_proper.
