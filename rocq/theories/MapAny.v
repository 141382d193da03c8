(** C74: maps and chains of directives when tasks and results are lost and delivered repeatedly. *)
From Coq Require Import List Arith NArith Bool Lia Permutation.
From Verif Require Import Base BaseFacts CoordModel FoldModel FoldSpec FoldProofs FoldProps FoldAny PublishModel PublishSpec PublishProofs MapModel MapSpec MapProofs MapProps MapCount StreamModel StreamProps.
Import ListNotations.
Open Scope nat_scope.
Local Opaque usize_max usize_mod wsucc wpred.

Section Own.
Context {A B E O : Type}.
Variable exec : O -> A -> res E B.
Variable f : A -> B.
Hypothesis exec_ok : forall o x y, exec o x = ROk y -> y = f x.
Variable inp : list (res E (N * A)).
Notation st := (mstate A B E).
Notation step := (m_step exec).

Definition own_result (r : @result A B E) : Prop := In (ROk (fst r)) inp /\ forall y, snd r = ROk y -> y = f (snd (fst r)).
Record owns (s : st) : Prop := {
  ow_count : cinv inp s;
  ow_tasks : forall t, In t (m_tasks s) -> In (ROk t) inp;
  ow_results : forall r, In r (m_results s) -> own_result r;
  ow_then : forall r a, m_then s = Some (r, a) -> own_result r;
  ow_items : forall i y, In (i, y) (yielded (m_log s)) -> exists a, In (ROk (i, a)) inp /\ y = f a
}.
Lemma yielded_quiet : forall (s : st) sd k r, (forall i y, r <> SItem (MItem i y)) -> yielded (m_log (side_done s sd k r)) = yielded (m_log s).
Proof. intros s sd k [[i y|e| |]| |] H; cbn; try reflexivity; [now destruct (H i y)| |]; destruct k as [|[|]|]; reflexivity. Qed.
Lemma done_keeps : forall (s : st) sd k r, m_tasks (side_done s sd k r) = m_tasks s /\ m_results (side_done s sd k r) = m_results s /\ m_then (side_done s sd k r) = m_then s.
Proof. intros s sd k [r| |]; cbn; auto; destruct k as [|[|]|]; cbn; auto. Qed.
Lemma left_keeps : forall (s : st) k p, m_tasks (left_done s k p) = m_tasks s /\ m_results (left_done s k p) = m_results s /\ m_then (left_done s k p) = m_then s /\
  yielded (m_log (left_done s k p)) = yielded (m_log s).
Proof.
  intros s k p. unfold left_done. destruct (pa_ret p) as [[| |]|]; [| | |cbn; auto].
  - destruct (done_keeps (sender_done s p) L k SNone) as (-> & -> & ->). rewrite yielded_quiet by (intros; discriminate). auto.
  - cbn. auto.
  - cbn. auto.
Qed.
Lemma accepted : forall (s : st) t, cinv inp s -> In t (map snd (pa_acc (m_pa s))) -> In (ROk t) inp.
Proof.
  intros s t I H. pose proof (ci_pa _ _ I) as PA. destruct (pi_count _ _ PA) as (rest & CT & _). rewrite (pi_split _ _ PA). apply in_or_app. left. apply in_map.
  rewrite <- (numbered_snd _ (pa_pulled (m_pa s))). apply in_map_iff in H. destruct H as (x & <- & H). apply in_map. eapply Permutation_in; [symmetry; exact CT|]. apply in_or_app. now left.
Qed.
Lemma owns_step : forall s e s', owns s -> step s e = Some s' -> owns s'.
Proof.
  intros s e s' I H. pose proof I as [CI OT OR OH OI]. pose proof (cinv_step exec inp s e s' CI H) as CI'.
  assert (SAME : m_tasks s' = m_tasks s -> m_results s' = m_results s -> (m_then s' = None \/ exists r a a', m_then s = Some (r, a) /\ m_then s' = Some (r, a') \/ m_then s' = m_then s) ->
    yielded (m_log s') = yielded (m_log s) -> owns s').
  { intros Q1 Q2 Q3 Q4. constructor; rewrite ?Q1, ?Q2, ?Q4; auto. intros r a Q. destruct Q3 as [Q3|(r' & a1 & a2 & [[Q3 Q5]|Q3])]; [congruence| |].
    - rewrite Q5 in Q. injection Q as <- <-. eauto.
    - apply (OH r a). congruence. }
  assert (DONE : forall s0 sd k r, s' = side_done s0 sd k r -> (forall i y, r <> SItem (MItem i y)) -> m_tasks s0 = m_tasks s -> m_results s0 = m_results s ->
    (m_then s0 = None \/ m_then s0 = m_then s \/ exists r a a', m_then s = Some (r, a) /\ m_then s0 = Some (r, a')) -> m_log s0 = m_log s -> owns s').
  { intros s0 sd k r -> N Q1 Q2 Q3 Q4. destruct (done_keeps s0 sd k r) as (K1 & K2 & K3). apply SAME; rewrite ?K1, ?K2, ?K3, ?(yielded_quiet _ _ _ _ N), ?Q4; auto.
    destruct Q3 as [Q3|[Q3|(r0 & a & a' & Q3 & Q5)]]; [auto| |right; exists r0, a, a'; auto].
    destruct (m_then s) as [[r0 a]|] eqn:TN; [|auto]. right. exists r0, a, a. auto. }
  assert (TS : m_then s = None \/ exists r a, m_then s = Some (r, a)) by (destruct (m_then s) as [[r a]|]; eauto).
  assert (KEEP : m_tasks s' = m_tasks s -> m_results s' = m_results s -> m_then s' = m_then s -> yielded (m_log s') = yielded (m_log s) -> owns s').
  { intros Q1 Q2 Q3 Q4. apply SAME; auto. destruct TS as [T|(r & a & T)]; [left; congruence|]. right. exists r, a, a. now right. }
  destruct e as [| e | | | | | | | | e | ok | i o | i | i | i | i]; cbn [m_step] in H.
  - destruct (m_poll s) eqn:P; [|discriminate]. cbn in H. destruct (m_ldone s), (m_rdone s); injection H as <-; apply KEEP; reflexivity.
  - destruct (m_poll s) as [|[|] k0] eqn:P; try discriminate. destruct (m_sent s || negb (poll_event e)); [discriminate|].
    assert (LD : forall p, Some (left_done s k0 p) = Some s' -> owns s'). { intros p Q. injection Q as <-. destruct (left_keeps s k0 p) as (K1 & K2 & K3 & K4). now apply KEEP. }
    destruct e as [|i|i|i|i| | | |i|i ok|i]; try (destruct (pa_step (m_pa s) _) as [p|] eqn:S; [eauto|discriminate]).
    + destruct (pa_inreg (m_pa s)); [discriminate|]. destruct (pa_step (m_pa s) _) as [p|] eqn:S; [eauto|discriminate].
    + destruct (m_closed s); [discriminate|]. destruct (pa_step (m_pa s) _) as [p|] eqn:S; [|discriminate]. injection H as <-. apply KEEP; reflexivity.
    + destruct (m_closed s); [|discriminate]. destruct (pa_step (m_pa s) _) as [p|] eqn:S; [|discriminate]. injection H as <-. apply KEEP; reflexivity.
  - destruct (m_poll s) as [|[|] k0] eqn:P; try discriminate. destruct (negb (m_sent s) && pa_idle (m_pa s)); [|discriminate]. injection H as <-.
    apply (DONE s L k0 SPend); auto; intros; discriminate.
  - destruct (m_poll s) as [|[|] k0] eqn:P; try discriminate. destruct (m_sent s); [|discriminate]. injection H as <-. apply (DONE s L k0 SNone); auto; intros; discriminate.
  - destruct (m_poll s) as [|[|] k0] eqn:P; try discriminate. destruct (m_then s) eqn:Tn; [discriminate|]. destruct (m_results s) as [|r rs] eqn:Rs; [discriminate|]. injection H as <-.
    constructor; cbn; auto; [intros r0 H; apply OR; now right|]. intros r0 a Q. injection Q as <- <-. apply OR. now left.
  - destruct (m_poll s) as [|[|] k0] eqn:P; try discriminate. destruct (m_then s) eqn:Tn; [discriminate|]. destruct (m_results s) as [|r rs] eqn:Rs; [|discriminate].
    apply (f_equal (fun o => match o with Some x => x | None => s end)) in H. eapply DONE; [symmetry; exact H|..]; auto.
    intros i y. cbn [m_closed m_pending]. destruct (m_closed s && (m_pending s =? 0)%N); discriminate.
  - destruct (m_poll s) as [|[|] k0] eqn:P; try discriminate. destruct (m_then s) as [[r [|b|b]]|] eqn:Tn; try discriminate. injection H as <-.
    apply SAME; try reflexivity. right. exists r, ANew, (AWait false). auto.
  - destruct (m_poll s) as [|[|] k0] eqn:P; try discriminate. destruct (m_then s) as [[r [|b|b]]|] eqn:Tn; try discriminate. injection H as <-.
    apply (DONE (set_then s (Some (r, AWait true))) R k0 SPend); auto; [intros; discriminate|]. right. right. exists r, (AWait b), (AWait true). auto.
  - destruct (m_poll s) as [|[|] k0] eqn:P; try discriminate. destruct (m_then s) as [[r [|b|[|]]]|] eqn:Tn; try discriminate; injection H as <-.
    + destruct (OH r _ eq_refl) as [R1 R2]. destruct (snd r) as [y|x] eqn:Sr.
      * constructor; auto; [intros r0 a; discriminate|]. cbn [side_done m_return m_log yielded]. intros i y' [Q|Q]; [|auto]. injection Q as <- <-. exists (snd (fst r)).
        split; [now rewrite <- surjective_pairing|auto].
      * constructor; auto; intros r0 a; discriminate.
    + constructor; auto; intros r0 a; discriminate.
  - destruct (poll_event e) eqn:PV; [discriminate|]. destruct (pa_step (m_pa s) e) as [p|] eqn:S; [|discriminate]. injection H as <-.
    constructor; auto. cbn [m_tasks set_queues set_pa]. intros t T. apply in_app_or in T. destruct T as [T|T]; [auto|]. apply (accepted _ t CI'). cbn.
    apply in_map_iff in T. destruct T as (x & <- & T). apply in_map. rewrite <- (firstn_skipn (length (pa_acc (m_pa s))) (pa_acc p)). apply in_or_app. now right.
  - destruct (m_then s) as [[r [|b|b]]|] eqn:Tn; try discriminate. injection H as <-. apply SAME; try reflexivity. right. exists r, (AWait b), (AReady ok). auto.
  - destruct (pick i (m_tasks s)) as [[t ts]|] eqn:Pk; [|discriminate]. injection H as <-. pose proof (pick_perm _ _ _ _ _ Pk) as PP.
    assert (T : In (ROk t) inp) by (apply OT; eapply Permutation_in; [symmetry; exact PP|now left]).
    constructor; auto; cbn.
    + intros t' H. apply OT. eapply Permutation_in; [symmetry; exact PP|now right].
    + intros r H. apply in_app_or in H. destruct H as [H|[<-|[]]]; [auto|]. split; [exact T|]. cbn. intros y. apply exec_ok.
  - destruct (pick i (m_tasks s)) as [[t ts]|] eqn:Pk; [|discriminate]. injection H as <-. pose proof (pick_perm _ _ _ _ _ Pk) as PP.
    constructor; auto; cbn. intros t' H. apply OT. eapply Permutation_in; [symmetry; exact PP|now right].
  - destruct (pick i (m_results s)) as [[r rs]|] eqn:Pk; [|discriminate]. injection H as <-. pose proof (pick_perm _ _ _ _ _ Pk) as PP.
    constructor; auto; cbn. intros t' H. apply OR. eapply Permutation_in; [symmetry; exact PP|now right].
  - destruct (nth_error (m_tasks s) i) as [t|] eqn:Q; [|discriminate]. injection H as <-. apply nth_error_In in Q. constructor; auto; cbn.
    intros t' H. apply in_app_or in H. destruct H as [H|[<-|[]]]; auto.
  - destruct (nth_error (m_results s) i) as [t|] eqn:Q; [|discriminate]. injection H as <-. apply nth_error_In in Q. constructor; auto; cbn.
    intros t' H. apply in_app_or in H. destruct H as [H|[<-|[]]]; auto.
Qed.
End Own.

(** What a mapped stream returns whatever is lost and comes back: only images of its own inputs, and if it ends without an error, as many as there are inputs,
    up to the size of the counter. *)
Theorem C74_items : forall (A B E O : Type) (exec : O -> A -> res E B) (f : A -> B) arr late en tr s, (forall o x y, exec o x = ROk y -> y = f x) ->
  run_from (m_step exec) (m_init arr late en) tr = Some s ->
  (forall i y, In (i, y) (yielded (m_log s)) -> exists a, In (ROk (i, a)) (arr ++ late) /\ y = f a) /\
  (ended (m_log s) = true -> failed (m_log s) = false ->
   exists xs, arr ++ late = map ROk xs /\ (N.of_nat (length (yielded (m_log s))) mod usize_mod = N.of_nat (length xs) mod usize_mod)%N).
Proof.
  intros A B E O exec f arr late en tr s EX R.
  assert (I : owns f (arr ++ late) s).
  { refine (run_from_inv _ _ (m_step exec) (owns f (arr ++ late)) (owns_step exec f EX (arr ++ late)) tr (m_init arr late en) s _ R).
    constructor; cbn; try contradiction; try discriminate. apply cinv_init. }
  split; [exact (ow_items _ _ _ I)|]. intros EN FL. exact (cinv_ended _ _ (ow_count _ _ _ I) EN FL).
Qed.

(** [mapped] and [chained] of StreamModel without the restriction on duplicates (directive/mod.rs:309-311). *)
Definition mapped_any {A B E O : Type} (inj : merr E -> E) (exec : O -> A -> res E B) (inp : list (res E (N * A))) (out : list (res E (N * B))) : Prop :=
  exists arr late en tr s, arr ++ late = inp /\ run_from (m_step exec) (m_init arr late en) tr = Some s /\ ended (m_log s) = true /\ out = stream_items inj (rev (m_log s)).
Inductive chained_any {E : Type} (inj : merr E -> E) : forall (A B : Type) (h : A -> B) (inp : list (res E (N * A))) (out : list (res E (N * B))), Prop :=
| CaNone (A : Type) (inp : list (res E (N * A))) : chained_any inj A A (fun x => x) inp inp
| CaMap (A B C O : Type) (h : A -> B) (g : B -> C) (exec : O -> B -> res E C) inp mid out :
    chained_any inj A B h inp mid -> (forall o x y, exec o x = ROk y -> y = g x) -> mapped_any inj exec mid out -> chained_any inj A C (fun x => g (h x)) inp out.

Section Chain.
Context {E : Type}.
Variable inj : merr E -> E.
Lemma mapped_items : forall (A B O : Type) (exec : O -> A -> res E B) (g : A -> B) inp ys, (forall o x y, exec o x = ROk y -> y = g x) -> mapped_any inj exec inp (map ROk ys) ->
  exists xs, inp = map ROk xs /\ incl ys (map (image g) xs) /\ congr (N.of_nat (length ys)) (N.of_nat (length xs)).
Proof.
  intros A B O exec g inp ys EX (arr & late & en & tr & s & <- & R & EN & Q).
  assert (C : collect (rev (m_log s)) = Some (ROk ys)) by (apply (items_ok inj); [now symmetry|now rewrite ended_rev]).
  destruct (collect_ok _ _ C) as (a & b & QA & F & Y). apply (f_equal (@rev _)) in QA. rewrite rev_involutive, rev_app_distr in QA. cbn in QA. rewrite <- app_assoc in QA. cbn in QA.
  destruct (log_prefix exec _ _ _ R eq_refl _ _ QA) as (t1 & t2 & s1 & -> & U1 & U2).
  destruct (C74_items A B E O exec g arr late en t1 s1 EX U1) as (IT & CN).
  destruct CN as (xs & X & CN); [rewrite U2; reflexivity|rewrite U2; change (failed (rev a) = false); now rewrite failed_rev|].
  pose proof (yielded_rev a) as PY. rewrite U2 in IT, CN. cbn [yielded] in IT, CN. rewrite Y in PY. exists xs. split; [exact X|]. split.
  - intros [i y] I. destruct (IT i y) as (z & I1 & ->); [eapply Permutation_in; [symmetry; exact PY|exact I]|]. rewrite X in I1. apply in_map_iff in I1. destruct I1 as (p & Q1 & I1).
    injection Q1 as ->. apply in_map_iff. exists (i, z). auto.
  - unfold congr. now rewrite <- (Permutation_length PY).
Qed.
Lemma chain_items : forall (A B : Type) (h : A -> B) inp ys, chained_any inj A B h inp (map ROk ys) ->
  exists xs, inp = map ROk xs /\ incl ys (map (image h) xs) /\ congr (N.of_nat (length ys)) (N.of_nat (length xs)).
Proof.
  intros A B h inp ys CH. remember (map ROk ys) as out eqn:OU. revert ys OU.
  induction CH as [A inp|A B C O h g exec inp mid out CH IH EX M]; intros ys ->.
  - exists ys. split; [reflexivity|]. split; [|reflexivity]. erewrite map_ext; [rewrite map_id; apply incl_refl|]. now intros [].
  - destruct (mapped_items _ _ _ exec g mid ys EX M) as (zs & -> & P1 & C1). destruct (IH zs eq_refl) as (xs & -> & P2 & C2).
    exists xs. split; [reflexivity|]. split; [|unfold congr in *; congruence].
    intros p I. apply P1, in_map_iff in I. destruct I as (q & <- & I). apply P2, in_map_iff in I. destruct I as (r & <- & I). apply in_map_iff. exists r. split; [now destruct r|exact I].
Qed.

(** C74. A fold over any number of maps: if it returns a value, then it is the in-order combination of the composed operations on the inputs, whatever was lost, came
    back or was executed several times on the way. *)
Theorem C74_maps_then_fold : forall (A B O : Type) (h : A -> B) (xs : list A) out (comb : O -> B -> B -> res E B) empty tr s v,
  chained_any inj A B h (from_into_iterator xs) out -> (N.of_nat (length xs) < usize_max)%N -> fold_run comb empty out tr = Some s -> f_ret s = Some (RetOk v) ->
  (xs = [] /\ v = empty) \/ in_order comb (map h xs) v.
Proof.
  intros A B O h xs out comb empty tr s v CH SH R RE. destruct (all_ok_or_error _ out) as [(ys & ->)|(e & I)].
  2: { destruct (C05_input_error_not_ok _ _ _ comb empty out tr s e I R) as [Q|(e' & Q)]; congruence. }
  destruct (chain_items _ _ _ _ _ CH) as (zs & Z & SUB & CN). unfold from_into_iterator in Z.
  assert (zs = enumerate_from 0 xs) as ->.
  { symmetry. revert Z. generalize (enumerate_from 0 xs) as l. clear. intros l. revert zs.
    induction l as [|x l IH]; intros [|y zs] Z; cbn in Z; try discriminate; [reflexivity|]. injection Z as -> Z. f_equal. auto. }
  rewrite enumerate_length in CN. rewrite enumerate_index_from, image_index_from in SUB.
  assert (SM : forall i x, In (i, x) ys -> (i <= usize_max)%N).
  { intros i x I. apply SUB, index_from_in in I. destruct I as [_ I]. assert (Q : nth_error (map h xs) (N.to_nat (i - 0)) <> None) by congruence. apply nth_error_Some in Q. rewrite map_length in Q. lia. }
  assert (ND : NoDup ys).
  { destruct (fold_sound B E O comb empty ys SM tr s v R RE) as [[-> _]|(b & l & P & _)]; [constructor|]. symmetry in P. apply (Permutation_NoDup P). apply index_from_nodup. }
  assert (LE : length ys <= length xs).
  { pose proof (NoDup_incl_length ND SUB) as LE. now rewrite index_from_length, map_length in LE. }
  assert (EQ : length ys = length xs).
  { assert (MX : usize_max = (usize_mod - 1)%N) by reflexivity. pose proof mod_nz. unfold congr in CN. rewrite !N.mod_small in CN by lia. lia. }
  destruct (C01_fold_in_order _ _ _ comb empty 0 (map h xs) ys tr s v) as [[Q1 Q2]|Q]; auto.
  - rewrite map_length. lia.
  - apply NoDup_Permutation_bis; [exact ND| |exact SUB]. rewrite index_from_length, map_length. lia.
  - left. split; [|exact Q2]. now destruct xs.
Qed.
Theorem C74_maps_then_assoc_fold : forall (A B O : Type) (h : A -> B) (f : B -> B -> B) (xs : list A) out (comb : O -> B -> B -> res E B) empty tr s v,
  (forall o a b c, comb o a b = ROk c -> c = f a b) -> (forall a b c, f a (f b c) = f (f a b) c) -> (forall a, f empty a = a) ->
  chained_any inj A B h (from_into_iterator xs) out -> (N.of_nat (length xs) < usize_max)%N ->
  fold_run comb empty out tr = Some s -> f_ret s = Some (RetOk v) -> v = fold_left f (map h xs) empty.
Proof.
  intros A B O h f xs out comb empty tr s v CO AS NE CH SH R RE.
  destruct (C74_maps_then_fold A B O h xs out comb empty tr s v CH SH R RE) as [[-> ->]|IO]; [reflexivity|].
  destruct (in_order_assoc B E O comb f CO AS _ v IO) as (x & r & Q & ->). rewrite Q. cbn. now rewrite NE.
Qed.
End Chain.

(** The first task is delivered twice and one of the copies is lost; the result of the second task comes twice, the second time after the stream has ended. *)
Definition again_trace : list (m_event unit) :=
  [MPoll; MLeft PaPull; MLeft PaPull; MLeft PaPull; MLeft (PaStart 0); MEnv (PaAccept 0); MLeft (PaStart 1); MEnv (PaAccept 1);
   MEnv (PaReply 0 true); MEnv (PaReply 1 true); MLeft (PaFinish 1); MLeft (PaFinish 0); MLeft PaReturn; MEmpty;
   MDupTask 0; MDupTask 1; MWork 1 tt; MWork 0 tt; MLose 0;
   MPoll; MTake; MAckStart; MAckReply true; MAckFinish;
   MPoll; MTake; MAckStart; MAckCheck; MAckReply true; MPoll; MAckFinish;
   MPoll; MEmpty; MWork 0 tt].
Example C74_example : exists out s, chained_any inj0 N N (fun x => 2 * x)%N (from_into_iterator [5; 7]%N) out /\
  fold_run add1 0%N out [EvInput; EvInput; EvPublish 0 true; EvDupTask 0; EvWork 0 tt; EvInputEnd; EvDupResult 0; EvResult 0 true; EvFinal true] = Some s /\
  f_ret s = Some (RetOk 24%N).
Proof.
  exists [ROk (1, 14); ROk (0, 10)]%N. eexists. split; [|split; [vm_compute; reflexivity|reflexivity]].
  eapply (CaMap inj0 N N N unit (fun x => x) (fun x => 2 * x)%N dbl _ _); [apply CaNone|exact dbl_ok|].
  exists two_inputs, [], true, again_trace. eexists. split; [reflexivity|]. split; [vm_compute; reflexivity|]. split; reflexivity.
Qed.
(** With duplicates the number of items may be right and the items wrong ([C12_needs_no_duplicates]); the fold then returns no value. *)
Example C74_example_displaced : exists out, mapped_any inj0 dbl (from_into_iterator [5; 7]%N) out /\ out = [ROk (0, 10); ROk (0, 10)]%N /\
  forall tr s v, fold_run add1 0%N out tr = Some s -> f_ret s <> Some (RetOk v).
Proof.
  exists [ROk (0, 10); ROk (0, 10)]%N. split; [|split; [reflexivity|]].
  - exists two_inputs, [], true, dup_trace. eexists. split; [reflexivity|]. split; [vm_compute; reflexivity|]. split; reflexivity.
  - intros tr s v. apply (C73_bad_indices_never_ok N nat unit add1 0%N [(0, 10); (0, 10)]%N).
    + intros i x [Q|[Q|[]]]; injection Q as <- _; intros X; vm_compute in X; discriminate X.
    + left. intros ND. inversion ND as [|? ? X _]. apply X. now left.
Qed.
Print Assumptions C74_items.
Print Assumptions C74_maps_then_fold.
Print Assumptions C74_maps_then_assoc_fold.
