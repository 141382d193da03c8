(** Theorems about the suspension points and the limits of the fold directive: C87. *)
From Coq Require Import List Arith NArith Bool Lia Permutation.
From Verif Require Import Base BaseFacts ContiguousModel FoldModel FoldSpec FoldProofs FoldLive FoldProps FoldFineModel FoldFineProofs FoldFineLive.
Import ListNotations.
Open Scope nat_scope.

Section Bounds.
  Variables A E O : Type.
  Variable comb : O -> A -> A -> res E A.
  Variable empty : A.
  Variables lim cap : nat.

  Record bnd (g : fine A E) : Prop := mkB {
    b_init : length (g_got g) + length (g_init g) <= lim;
    b_hands : length (g_taken g) + length (g_hands g) <= lim;
    b_pubs : length (g_pubs g) <= lim;
    b_nodup : NoDup (g_parked g);
    b_incl : incl (g_parked g) (g_init g ++ map (fun h : handler A => hd_id h) (g_hands g));
    b_next : forall id, In id (g_parked g) -> id < g_next g
  }.

  Lemma park_cases : forall (s s' : fstate A E) id p, park cap s s' id p = p \/ park cap s s' id p = p ++ [id].
  Proof. intros. unfold park. destruct (_ && _); auto. Qed.
  Lemma nodup_new : forall (p : list nat) n, NoDup p -> (forall id, In id p -> id < n) -> NoDup (p ++ [n]).
  Proof.
    intros p n ND B. apply (Permutation_NoDup (l := n :: p)); [apply Permutation_cons_append|]. constructor; [|exact ND]. intros H. specialize (B n H). lia.
  Qed.
  Lemma waits_in : forall id p, waits id p = true <-> In id p.
  Proof.
    intros id p. unfold waits. rewrite existsb_exists. split; [intros (x & H & X); apply Nat.eqb_eq in X; now subst|intros H; exists id; now rewrite Nat.eqb_refl].
  Qed.
  Lemma waits_not : forall id p, waits id p = false -> ~ In id p.
  Proof. intros id p H I. apply waits_in in I. congruence. Qed.
  Lemma pick_length' : forall (B : Type) i (l : list B) x r, pick i l = Some (x, r) -> length r <= length l.
  Proof. intros B i l x r H. rewrite (pick_length _ _ _ _ _ H). lia. Qed.

  Lemma bnd_step : forall g e g', bnd g -> g_step comb empty lim cap g e = Some g' -> bnd g'.
  Proof.
    intros g e g' [BI BH BP ND IC NX] ST. unfold g_step in ST. destruct (f_ret (g_s g)) eqn:RN; [discriminate|].
    destruct e as [| |i| | |i|i ok|i o|i| |i ok|i|ok|e].
    - destruct (Nat.ltb_spec (length (g_got g) + length (g_init g)) lim); [|discriminate].
      destruct (f_inp (g_s g)) as [|[it|x] r]; [discriminate| |]; injection ST as <-; constructor; cbn; auto. rewrite app_length. cbn. lia.
    - destruct (g_got g) as [|it r]; [discriminate|]. injection ST as <-. cbn [length] in BI.
      set (s' := on_input (g_s g) it). destruct (park_cases (g_s g) s' (g_next g) (g_parked g)) as [PC|PC]; rewrite PC.
      + destruct (waits (g_next g) (g_parked g)) eqn:W; [apply waits_in in W; specialize (NX _ W); lia|]. constructor; cbn; auto; [lia|]. intros id H. specialize (NX id H). lia.
      + rewrite (proj2 (waits_in _ _)) by (apply in_or_app; right; now left). constructor; cbn; auto.
        * rewrite app_length. cbn. lia.
        * now apply nodup_new.
        * intros id H. apply in_app_or in H. rewrite <- app_assoc. apply in_or_app. destruct H as [H|[<-|[]]]; [|right; now left].
          specialize (IC id H). apply in_app_or in IC. destruct IC as [H1|H1]; [now left|right; right; exact H1].
        * intros id H. apply in_app_or in H. destruct H as [H|[<-|[]]]; [specialize (NX id H)|]; lia.
    - destruct (pick i (g_init g)) as [[id r]|] eqn:PK; [|discriminate]. destruct (waits id (g_parked g)) eqn:W; [discriminate|]. injection ST as <-. constructor; cbn; auto.
      + pose proof (pick_length' _ _ _ _ _ PK). lia.
      + intros x H. pose proof (IC x H) as H1. apply in_app_or in H1. apply in_or_app. destruct H1 as [H1|H1]; [|now right]. left.
        pose proof (Permutation_in x (pick_perm _ _ _ _ _ PK) H1) as [<-|H2]; [|exact H2]. apply waits_not in W. contradiction.
    - destruct (f_inp (g_s g)); [|discriminate]. destruct (g_got g) eqn:G; [|discriminate]. destruct (g_init g) eqn:GI; [|discriminate].
      destruct (f_ended (g_s g)); [discriminate|]. injection ST as <-. constructor; cbn; rewrite ?G, ?GI; auto.
    - destruct (Nat.ltb_spec (length (g_pubs g)) lim); [|discriminate]. destruct (f_chan (g_s g)) as [|t c]; [discriminate|]. injection ST as <-. constructor; cbn; auto.
      + rewrite app_length. cbn. lia.
      + destruct (g_parked g); cbn; [constructor|now inversion ND].
      + intros x HX. apply IC. destruct (g_parked g); [destruct HX|now right].
      + intros x HX. apply NX. destruct (g_parked g); [destruct HX|now right].
    - destruct (nth_error (g_pubs g) i) as [[t [|]]|]; try discriminate. injection ST as <-. constructor; cbn; auto. now rewrite upd_length.
    - destruct (pick i (g_pubs g)) as [[[t a] r]|] eqn:PK; [|discriminate]. pose proof (pick_length' _ _ _ _ _ PK).
      destruct ok; [destruct a; [|discriminate]|]; injection ST as <-; constructor; cbn; auto. lia.
    - destruct (fold_step comb empty (g_s g) (EvWork i o)); [|discriminate]. injection ST as <-. constructor; cbn; auto.
    - destruct (2 <=? f_count (g_s g))%N; [|discriminate]. destruct (Nat.ltb_spec (length (g_taken g) + length (g_hands g)) lim); [|discriminate]. cbn in ST.
      destruct (pick i (f_results (g_s g))) as [[x rs]|]; [|discriminate]. injection ST as <-. constructor; cbn; auto. rewrite app_length. cbn. lia.
    - destruct (g_taken g) as [|[it|x] r] eqn:T; [discriminate| |]; cbn [length] in BH.
      + destruct (f_ended (g_s g) && is_final it (f_count (g_s g))); injection ST as <-.
        * constructor; cbn; auto.
          -- rewrite app_length. cbn. lia.
          -- intros x H. rewrite map_app. rewrite app_assoc. apply in_or_app. left. now apply IC.
          -- intros x H. specialize (NX x H). lia.
        * set (s' := try_dispatch (g_s g) it). destruct (park_cases (g_s g) s' (g_next g) (g_parked g)) as [PC|PC]; rewrite PC; constructor; cbn; auto.
          -- rewrite app_length. cbn. lia.
          -- intros x H. rewrite map_app. rewrite app_assoc. apply in_or_app. left. now apply IC.
          -- intros x H. specialize (NX x H). lia.
          -- rewrite app_length. cbn. lia.
          -- now apply nodup_new.
          -- intros x H. rewrite map_app. rewrite app_assoc. apply in_or_app. apply in_app_or in H. destruct H as [H|[<-|[]]]; [left; now apply IC|right; now left].
          -- intros id H. apply in_app_or in H. destruct H as [H|[<-|[]]]; [specialize (NX id H)|]; lia.
      + injection ST as <-. constructor; cbn; auto. rewrite T. cbn. lia.
    - destruct (nth_error (g_hands g) i) as [[id it fin [|]]|] eqn:HN; try discriminate.
      assert (ID : map (fun h : handler A => hd_id h) (upd i (mkHd id it fin true) (g_hands g)) = map (fun h : handler A => hd_id h) (g_hands g)).
      { destruct (upd_split _ i (g_hands g) _ HN) as (a & b & EQ & _ & U). rewrite U, EQ, !map_app. reflexivity. }
      destruct ok; [destruct fin; [destruct (f_final (g_s g))|]|]; injection ST as <-; constructor; cbn; rewrite ?upd_length, ?ID; auto.
    - destruct (pick i (g_hands g)) as [[[id it fin [|]] r]|] eqn:PK; try discriminate. destruct (waits id (g_parked g)) eqn:W; [discriminate|]. injection ST as <-.
      constructor; cbn; auto.
      + pose proof (pick_length' _ _ _ _ _ PK). lia.
      + intros x H. pose proof (IC x H) as H1. apply in_app_or in H1. apply in_or_app. destruct H1 as [H1|H1]; [now left|]. right.
        apply in_map_iff in H1. destruct H1 as (h & <- & H1).
        pose proof (Permutation_in h (pick_perm _ _ _ _ _ PK) H1) as [<-|H2]; [apply waits_not in W; contradiction|]. now apply (in_map (fun h : handler A => hd_id h)).
    - destruct (fold_step comb empty (g_s g) (EvFinal ok)); [|discriminate]. injection ST as <-. constructor; cbn; auto.
    - destruct e; try discriminate; match goal with H : option_map _ ?x = Some _ |- _ => destruct x; [|discriminate] end; injection ST as <-; constructor; cbn; auto.
  Qed.
End Bounds.

(** *** C87 *)
(** Whatever the limits (at least one) and the capacity of the channel: what the fold can return with acknowledgements and publications that take their time, in any interleaving
    of its suspended futures, is exactly what it can return in FoldModel, where each of them is one step. So the theorems about the outcomes of FoldModel hold of it. *)
Theorem C87_same_outcomes : forall (A E O : Type) (comb : O -> A -> A -> res E A) (empty : A) lim cap inp r, 1 <= lim ->
  (exists tr g, g_run comb empty lim cap inp tr = Some g /\ f_ret (g_s g) = Some r) <-> (exists tr s, fold_run comb empty inp tr = Some s /\ f_ret s = Some r).
Proof.
  intros A E O comb empty lim cap inp r L. split.
  - exact (fine_to_coarse A E O comb empty lim cap inp r).
  - exact (coarse_to_fine A E O comb empty lim cap L inp r).
Qed.
Print Assumptions C87_same_outcomes.

(** The main theorem of C01 for it: an Ok is the input combined in order, with nothing left out or repeated. *)
Theorem C87_in_order : forall (A E O : Type) (comb : O -> A -> A -> res E A) (empty : A) lim cap base l arr tr g v, 
  (base + N.of_nat (length l) <= usize_max)%N -> Permutation arr (index_from base l) ->
  g_run comb empty lim cap (map ROk arr) tr = Some g -> f_ret (g_s g) = Some (RetOk v) ->
  (l = [] /\ v = empty) \/ in_order comb l v.
Proof.
  intros A E O comb empty lim cap base l arr tr g v B P R H.
  destruct (fine_to_coarse A E O comb empty lim cap (map ROk arr) (RetOk v)) as (tr' & s & R' & H'); [now exists tr, g|].
  exact (C01_fold_in_order A E O comb empty base l arr tr' s v B P R' H').
Qed.
Print Assumptions C87_in_order.

(** An error of the input is never lost, even if it comes while other items and results are under way. *)
Theorem C87_input_error_not_ok : forall (A E O : Type) (comb : O -> A -> A -> res E A) (empty : A) lim cap inp tr g x v,
  In (RErr x) inp -> g_run comb empty lim cap inp tr = Some g -> f_ret (g_s g) <> Some (RetOk v).
Proof.
  intros A E O comb empty lim cap inp tr g x v I R H.
  destruct (fine_to_coarse A E O comb empty lim cap inp (RetOk v)) as (tr' & s & R' & H'); [now exists tr, g|].
  destruct (C05_input_error_not_ok A E O comb empty inp tr' s x I R') as [N|(e & N)]; congruence.
Qed.
Print Assumptions C87_input_error_not_ok.

(** All index ranges held anywhere while the fold runs: as [held] of FoldSpec, and with the futures. *)
Definition held_fine {A E : Type} (g : fine A E) : list (N * N) :=
  held (g_s g) ++ map (fun p => (fst p, fst p)) (g_got g) ++
  map trng (map fst (filter (fun p => negb (snd p)) (g_pubs g))) ++ flat_map rrng (g_taken g) ++
  map (fun h => irng (hd_item h)) (filter (fun h => hd_final h && negb (hd_acked h)) (g_hands g)).
Definition no_env {O : Type} (e : g_event O) : Prop := match e with GEnv _ => False | _ => True end.

Lemma sim_held : forall (A E : Type) (g : fine A E) s, sim A E g s -> Permutation (held s) (held_fine g).
Proof.
  intros A E g s M. unfold held_fine, held. destruct M.
  rewrite m_inp, m_asm, m_final. rewrite flat_map_app. rewrite (Permutation_map trng m_chan), (Permutation_map trng m_tasks).
  rewrite (flat_map_perm _ _ rrng _ _ m_results). rewrite !flat_map_app, map_app.
  assert (X1 : flat_map (inrng (E := E)) (map (fun it : N * A => ROk it) (g_got g)) = map (fun p => (fst p, fst p)) (g_got g)).
  { clear. induction (g_got g) as [|[i x] l IH]; cbn; [reflexivity|]. now rewrite IH. }
  assert (X2 : flat_map rrng (finals A E (g_hands g)) = map (fun h => irng (hd_item h)) (filter (fun h => hd_final h && negb (hd_acked h)) (g_hands g))).
  { unfold finals, pend. clear. induction (filter _ (g_hands g)) as [|h l IH]; cbn; [reflexivity|]. now rewrite IH. }
  rewrite X1, X2. unfold unacc.
  set (a := flat_map inrng (f_inp (g_s g))). set (b := map irng (map snd (f_asm (g_s g)))). set (c := map trng (f_chan (g_s g))). set (d := map trng (f_tasks (g_s g))).
  set (e := flat_map rrng (f_results (g_s g))). set (f := frng (f_final (g_s g))).
  set (u := map (fun p : N * A => (fst p, fst p)) (g_got g)). set (v := map trng (map fst (filter _ (g_pubs g)))).
  set (w := flat_map rrng (g_taken g)). set (x := map (fun h : handler A => irng (hd_item h)) _). clearbody a b c d e f u v w x. clear.
  assert (DEC : forall p q : N * N, {p = q} + {p <> q}) by (decide equality; apply N.eq_dec).
  apply (Permutation_count_occ DEC). intros y. rewrite !count_occ_app. lia.
Qed.

(** As long as the fold runs and the broker neither loses nor repeats messages, each index of the input is in exactly one place: unread, in a future, in the assembler, in the
    channel, in a publication the broker has not accepted, at a worker, in a result, in a future that waits for its ack or in the oneshot channel. *)
Theorem C87_partition : forall (A E O : Type) (comb : O -> A -> A -> res E A) (empty : A) lim cap base l arr tr g,
  (base + N.of_nat (length l) <= usize_max)%N -> Permutation arr (index_from base l) -> (forall o a b, exists c, comb o a b = ROk c) ->
  g_run comb empty lim cap (map ROk arr) tr = Some g -> Forall no_env tr -> f_ret (g_s g) = None ->
  partition_of (held_fine g) base (N.of_nat (length l)) /\ f_disp (g_s g) <= length l - 1.
Proof.
  intros A E O comb empty lim cap base l arr tr g B P T R F N.
  assert (HJ : J A E O comb empty (map ROk arr) false g).
  { apply (J_run A E O comb empty lim cap (map ROk arr) false tr g); [|exact R]. revert F. apply Forall_impl. intros e H. now right. }
  unfold J in HJ. rewrite N in HJ. destruct HJ as ((s & (tr' & R' & F') & M) & _).
  assert (FF : fault_free tr') by (revert F'; apply Forall_impl; intros e [H|H]; [discriminate|exact H]).
  destruct (C03_fold_partition A E O comb empty base l arr tr' s B P T R' FF) as (H1 & H2 & _).
  split; [|rewrite <- (m_disp _ _ _ _ M); exact H2].
  specialize (H1 (m_ret _ _ _ _ M)). pose proof (sim_held A E g s M) as PM. destruct H1 as [H3 H4]. split.
  - intros r I. apply H3. eapply Permutation_in; [apply Permutation_sym; exact PM|exact I].
  - intros i. rewrite <- (holders_perm _ _ i PM). apply H4.
Qed.
Print Assumptions C87_partition.

(** So the only way such a fold can come to rest without returning, when every combination succeeds and nothing is left at the workers, is the one of C04: the result over the whole input lies in the
    assembler, since it was handled before the end of the input was seen. No limit and no slow call can cause another. *)
Theorem C87_rests_only_as_C04 : forall (A E O : Type) (comb : O -> A -> A -> res E A) (empty : A) lim cap base l arr tr g, 1 <= lim ->
  (base + N.of_nat (length l) <= usize_max)%N -> Permutation arr (index_from base l) -> (forall o a b, exists c, comb o a b = ROk c) ->
  g_run comb empty lim cap (map ROk arr) tr = Some g -> Forall no_env tr -> f_ret (g_s g) = None ->
  (forall e, own O e -> g_step comb empty lim cap g e = None) -> f_tasks (g_s g) = [] ->
  2 <= length l /\ exists k it, f_asm (g_s g) = [(k, it)] /\ it_lo it = base /\ (it_hi it + 1 = base + N.of_nat (length l))%N.
Proof.
  intros A E O comb empty lim cap base l arr tr g L B P T R F N ST TK.
  destruct (stuck_waits A E O comb empty lim cap L g (stall_reach A E O comb empty lim cap (map ROk arr) tr g R) N ST) as (E1 & E2 & E3 & E4 & E5 & E6 & E7 & E8 & E9 & E10).
  assert (HJ : J A E O comb empty (map ROk arr) false g).
  { apply (J_run A E O comb empty lim cap (map ROk arr) false tr g); [|exact R]. revert F. apply Forall_impl. intros e H. now right. }
  unfold J in HJ. rewrite N in HJ. destruct HJ as ((s & (tr' & R' & F') & M) & _).
  assert (FF : fault_free tr') by (revert F'; apply Forall_impl; intros e [H|H]; [discriminate|exact H]).
  destruct (reach_linv A E O comb empty base l arr tr' s B P R' FF T) as [[I|[(v & V & _)|(V & _)]] _]; [|rewrite (m_ret _ _ _ _ M) in V; discriminate|rewrite (m_ret _ _ _ _ M) in V; discriminate].
  destruct M. rewrite E1, E2 in m_inp. cbn in m_inp. rewrite E5, E6 in m_chan. cbn in m_chan. apply Permutation_sym, Permutation_nil in m_chan. rewrite TK in m_tasks.
  apply Permutation_sym, Permutation_nil in m_tasks. rewrite E7, E8, E9 in m_results. cbn in m_results. apply Permutation_sym, Permutation_nil in m_results.
  assert (C2 : (2 <= f_count s)%N) by (apply (p_ended _ _ _ _ _ _ _ _ I); congruence).
  pose proof (v_count _ _ _ _ _ _ _ _ (p_v _ _ _ _ _ _ _ _ I)) as HC. rewrite m_inp in HC. cbn in HC.
  destruct (quiet_full A E O comb empty base l B s I m_inp m_chan m_tasks m_results) as (k & it & H1 & H2 & H3); [congruence|lia|].
  split; [lia|]. exists k, it. rewrite <- m_asm. auto.
Qed.
Print Assumptions C87_rests_only_as_C04.

(** The size of the input is fixed only when the stream has ended and no future of [init] is left, and then it is the number of items. *)
Section EndSeen.
  Variables A E O : Type.
  Variable comb : O -> A -> A -> res E A.
  Variable empty : A.
  Variables lim cap : nat.
  Variable inp : list (res E (N * A)).
  Definition seen_inv (g : fine A E) : Prop :=
    (f_ret (g_s g) = None -> N.to_nat (f_count (g_s g)) + length (g_got g) + length (f_inp (g_s g)) = length inp) /\
    (f_ended (g_s g) = true -> f_inp (g_s g) = [] /\ g_got g = [] /\ g_init g = []).
  Lemma seen_step : forall g e g', seen_inv g -> g_step comb empty lim cap g e = Some g' -> seen_inv g'.
  Proof.
    intros g e g' [C D] ST. unfold g_step in ST. destruct (f_ret (g_s g)) eqn:RN; [discriminate|]. specialize (C eq_refl). unfold seen_inv.
    destruct e as [| |i| | |i|i ok|i o|i| |i ok|i|ok|e].
    - destruct (length (g_got g) + length (g_init g) <? lim); [|discriminate].
      destruct (f_inp (g_s g)) as [|[it|x] r]; [discriminate| |]; injection ST as <-; cbn -[Nat.add]; rewrite ?RN, ?app_length; cbn [length] in *.
      + split; [intros _; lia|]. intros H. destruct (D H) as (X & _). discriminate X.
      + split; [discriminate|]. intros H. destruct (D H) as (X & _). discriminate X.
    - destruct (g_got g) as [|it r]; [discriminate|]. injection ST as <-. rewrite on_input_put. cbn -[Nat.add N.add]. cbn [length] in C. split; [intros _; rewrite N2Nat.inj_add; cbn; lia|].
      intros H. destruct (D H) as (_ & X & _). discriminate X.
    - destruct (pick i (g_init g)) as [[id r]|] eqn:PK; [|discriminate]. destruct (waits id (g_parked g)); [discriminate|]. injection ST as <-. cbn -[Nat.add].
      split; [auto|]. intros H. destruct (D H) as (_ & _ & X). rewrite X in PK. destruct i; discriminate PK.
    - destruct (f_inp (g_s g)) eqn:I1; [|discriminate]. destruct (g_got g) eqn:I2; [|discriminate]. destruct (g_init g) eqn:I3; [|discriminate].
      destruct (f_ended (g_s g)); [discriminate|]. injection ST as <-. unfold on_input_end. cbn -[Nat.add cq_dequeue]. rewrite I2, I3.
      destruct (f_count (g_s g) =? 0)%N; [cbn -[Nat.add]; rewrite I1; now split|]. destruct (f_count (g_s g) =? 1)%N; [|cbn -[Nat.add]; rewrite I1; now split].
      destruct (cq_dequeue (f_asm (g_s g)) 0%N) as [[it|] q']; cbn -[Nat.add]; rewrite I1; now split.
    - destruct (length (g_pubs g) <? lim); [|discriminate]. destruct (f_chan (g_s g)) as [|t c]; [discriminate|]. injection ST as <-. cbn -[Nat.add]. auto.
    - destruct (nth_error (g_pubs g) i) as [[t [|]]|]; try discriminate. injection ST as <-. cbn -[Nat.add]. auto.
    - destruct (pick i (g_pubs g)) as [[[t a] r]|]; [|discriminate]. destruct ok; [destruct a; [|discriminate]|]; injection ST as <-; cbn -[Nat.add]; auto.
    - unfold fold_step in ST; rewrite RN in ST; cbn -[Nat.add] in ST. destruct (pick i (f_tasks (g_s g))) as [[t ts]|]; [|discriminate]. injection ST as <-. cbn -[Nat.add]. auto.
    - destruct ((2 <=? f_count (g_s g))%N && _); [|discriminate]. destruct (pick i (f_results (g_s g))) as [[x rs]|]; [|discriminate]. injection ST as <-. cbn -[Nat.add]. auto.
    - destruct (g_taken g) as [|[it|x] r]; [discriminate| |].
      + destruct (f_ended (g_s g) && is_final it (f_count (g_s g))); injection ST as <-; [cbn -[Nat.add]; auto|]. rewrite try_dispatch_put. cbn -[Nat.add]. auto.
      + injection ST as <-. cbn -[Nat.add]. auto.
    - destruct (nth_error (g_hands g) i) as [[id it fin [|]]|]; try discriminate.
      destruct ok; [destruct fin; [destruct (f_final (g_s g))|]|]; injection ST as <-; cbn -[Nat.add]; auto.
    - destruct (pick i (g_hands g)) as [[[id it fin [|]] r]|]; try discriminate. destruct (waits id (g_parked g)); [discriminate|]. injection ST as <-. cbn -[Nat.add]. auto.
    - unfold fold_step in ST; rewrite RN in ST; cbn -[Nat.add] in ST. destruct (f_final (g_s g)); [|discriminate]. injection ST as <-. cbn -[Nat.add]. auto.
    - destruct e as [| |i ok|i o|i ack|ok|i|i|i|i]; try discriminate; unfold fold_step in ST; rewrite RN in ST; cbn -[Nat.add] in ST.
      + destruct (pick i (f_tasks (g_s g))) as [[t ts]|]; [|discriminate]. injection ST as <-. cbn -[Nat.add]. auto.
      + destruct (pick i (f_results (g_s g))) as [[x xs]|]; [|discriminate]. injection ST as <-. cbn -[Nat.add]. auto.
      + destruct (nth_error (f_tasks (g_s g)) i) as [t|]; [|discriminate]. injection ST as <-. cbn -[Nat.add]. auto.
      + destruct (nth_error (f_results (g_s g)) i) as [x|]; [|discriminate]. injection ST as <-. cbn -[Nat.add]. auto.
  Qed.
End EndSeen.
Theorem C87_end_seen : forall (A E O : Type) (comb : O -> A -> A -> res E A) (empty : A) lim cap inp tr g,
  g_run comb empty lim cap inp tr = Some g -> f_ended (g_s g) = true ->
  f_inp (g_s g) = [] /\ g_got g = [] /\ g_init g = [] /\ (f_ret (g_s g) = None -> N.to_nat (f_count (g_s g)) = length inp).
Proof.
  intros A E O comb empty lim cap inp tr g R H.
  assert (I : seen_inv A E inp g) by (apply (run_from_inv _ _ _ _ (seen_step A E O comb empty lim cap inp) tr (g_start inp) g); [split; [reflexivity|discriminate]|exact R]).
  destruct I as [C D]. destruct (D H) as (D1 & D2 & D3). repeat split; auto. intros N. specialize (C N). rewrite D1, D2 in C. cbn in C. lia.
Qed.
Print Assumptions C87_end_seen.

(** The limits never stall the fold: when neither its process nor the broker can do anything more, then the input has been read to its end, all futures have ended, the channel is empty,
    every task has been accepted by the broker and every result was handled: the fold waits for nothing but the workers. *)
Theorem C87_waits_only_for_workers : forall (A E O : Type) (comb : O -> A -> A -> res E A) (empty : A) lim cap inp tr g, 1 <= lim ->
  g_run comb empty lim cap inp tr = Some g -> f_ret (g_s g) = None -> (forall e, own O e -> g_step comb empty lim cap g e = None) ->
  f_inp (g_s g) = [] /\ g_got g = [] /\ f_ended (g_s g) = true /\ g_init g = [] /\ f_chan (g_s g) = [] /\ g_pubs g = [] /\
  f_results (g_s g) = [] /\ g_taken g = [] /\ g_hands g = [] /\ f_final (g_s g) = None.
Proof.
  intros A E O comb empty lim cap inp tr g L R N ST. apply (stuck_waits A E O comb empty lim cap L g); [|exact N|exact ST].
  exact (stall_reach A E O comb empty lim cap inp tr g R).
Qed.
Print Assumptions C87_waits_only_for_workers.

(** The fold and the broker do only a bounded number of steps unless the broker repeats messages. *)
Theorem C87_finite : forall (A E O : Type) (comb : O -> A -> A -> res E A) (empty : A) lim cap inp tr g,
  g_run comb empty lim cap inp tr = Some g -> Forall (no_dup O) tr -> length tr <= 11 * length inp + 2.
Proof.
  intros A E O comb empty lim cap inp tr g R F. pose proof (weight_run A E O comb empty lim cap tr _ _ F R) as W. unfold weight at 2 in W. cbn -[Nat.mul] in W. lia.
Qed.
Print Assumptions C87_finite.

(** What the fold keeps besides the assembler is bounded: at most [lim] items, [lim] results and [lim] publications under way, and [cap] + 2 [lim] tasks in the channel. *)
Theorem C87_bounded : forall (A E O : Type) (comb : O -> A -> A -> res E A) (empty : A) lim cap inp tr g,
  g_run comb empty lim cap inp tr = Some g ->
  length (g_got g) + length (g_init g) <= lim /\ length (g_taken g) + length (g_hands g) <= lim /\ length (g_pubs g) <= lim /\
  length (f_chan (g_s g)) <= cap + 2 * lim.
Proof.
  intros A E O comb empty lim cap inp tr g R.
  assert (B : bnd A E lim g).
  { apply (run_from_inv _ _ _ _ (bnd_step A E O comb empty lim cap) tr (g_start inp) g); [|exact R].
    constructor; cbn; try lia; try (intros x []); try constructor. }
  pose proof (si_parked _ _ _ _ (stall_reach A E O comb empty lim cap inp tr g R)) as P.
  destruct B as [BI BH BP ND IC _]. pose proof (NoDup_incl_length ND IC) as LN. rewrite app_length, map_length in LN. repeat split; auto. lia.
Qed.
Print Assumptions C87_bounded.

Definition cat (_ : unit) (a b : list nat) : res nat (list nat) := ROk (a ++ b).
Definition outcome (lim cap : nat) (inp : list (res nat (N * list nat))) (tr : list (g_event unit)) : option (option (foutcome (list nat) nat)) :=
  option_map (fun g => f_ret (g_s g)) (g_run cat [] lim cap inp tr).
Definition three : list (res nat (N * list nat)) := [ROk (0%N, [1]); ROk (1%N, [2]); ROk (2%N, [3])].
(** Acknowledgements, publications and a full channel that overlap: a result is combined further while its own ack is pending. *)
Example C87_example_overlap :
  outcome 10 0 three [GPull; GPull; GPull; GInput; GInput; GInput; GPublish; GAccept 0; GWork 0 tt; GTake 0; GResult; GPublish; GInitDone 0; GInputEnd; GAccept 1; GWork 0 tt;
                      GTake 0; GResult; GReply 0 true; GAck 0 true; GReply 0 true; GHandled 0; GAck 0 true; GFinal true] = Some (Some (RetOk [1; 2; 3])).
Proof. vm_compute. reflexivity. Qed.
(** A future that is suspended on a full channel keeps the stream from being ended and, with a limit of one, from being read. *)
Example C87_example_backpressure :
  outcome 1 0 three [GPull; GInput; GPull; GInput; GPull] = None /\ outcome 1 0 three [GPull; GInput; GPull; GInput; GPublish; GInitDone 0; GPull] = Some None.
Proof. split; vm_compute; reflexivity. Qed.
(** The broker has taken a task and its publication fails later. *)
Example C87_example_late_error :
  outcome 10 10 three [GPull; GInput; GPull; GInput; GPublish; GAccept 0; GWork 0 tt; GReply 0 false] = Some (Some (RetErr ErrPublish)).
Proof. vm_compute. reflexivity. Qed.
(** With a limit of none nothing is ever read, so the hypothesis of C87_waits_only_for_workers is needed. *)
Example C87_example_no_limit : exists g, g_run cat [] 0 10 three [] = Some g /\ f_ret (g_s g) = None /\ (forall e, own unit e -> g_step cat [] 0 10 g e = None) /\ f_inp (g_s g) <> [].
Proof.
  eexists. split; [reflexivity|]. split; [reflexivity|]. split; [|discriminate]. intros e HE.
  destruct e as [| |[|i]| | |[|i]|[|i] ok|[|i] o|[|i]| |[|i] ok|[|i]|ok|e]; try reflexivity; contradiction.
Qed.
(** A state of the kind of C87_waits_only_for_workers: one task at the workers. *)
Example C87_example_waiting : exists g, g_run cat [] 10 10 [ROk (0%N, [1]); ROk (1%N, [2])] [GPull; GPull; GInput; GInput; GInputEnd; GPublish; GAccept 0; GReply 0 true] = Some g /\
  f_ret (g_s g) = None /\ (forall e, own unit e -> g_step cat [] 10 10 g e = None) /\ length (f_tasks (g_s g)) = 1.
Proof.
  eexists. split; [vm_compute; reflexivity|]. split; [reflexivity|]. split; [|reflexivity]. intros e HE.
  destruct e as [| |[|i]| | |[|i]|[|i] ok|[|i] o|[|i]| |[|i] ok|[|i]|ok|e]; try reflexivity; contradiction.
Qed.
(** The rest of C87_rests_only_as_C04: the only result is handled before the end of the input is seen. *)
Example C87_example_rest : exists g, g_run cat [] 10 10 (map ROk (index_from 0 [[1]; [2]]))
    [GPull; GPull; GInput; GInput; GPublish; GAccept 0; GReply 0 true; GWork 0 tt; GTake 0; GResult; GAck 0 true; GHandled 0; GInputEnd] = Some g /\
  f_ret (g_s g) = None /\ (forall e, own unit e -> g_step cat [] 10 10 g e = None) /\ f_tasks (g_s g) = [] /\ held_fine g = [(0%N, 1%N)].
Proof.
  eexists. split; [vm_compute; reflexivity|]. split; [reflexivity|]. split; [|split; reflexivity]. intros e HE.
  destruct e as [| |[|i]| | |[|i]|[|i] ok|[|i] o|[|i]| |[|i] ok|[|i]|ok|e]; try reflexivity; contradiction.
Qed.
