(** C12, C14 and C15: what a mapped stream yields, when it ends, and which errors it forwards. *)
From Coq Require Import List Arith NArith Bool Lia Permutation.
From Verif Require Import Base BaseFacts CoordModel PublishModel PublishSpec PublishProofs MapModel MapSpec MapProofs MapLive MapMeasure.
Import ListNotations.
Open Scope nat_scope.

Section MapProps.
Context {A B E O : Type}.
(** What a worker answers may depend on anything ([O]), but a success is always the operation applied to the input. *)
Variable exec : O -> A -> res E B.
Variable f : A -> B.
Hypothesis exec_ok : forall o x y, exec o x = ROk y -> y = f x.
Notation step := (m_step exec).
Notation st := (mstate A B E).

Lemma numbered_snd : forall (T : Type) (l : list T), map snd (numbered l) = l.
Proof.
  intros T l. unfold numbered. generalize 0. induction l as [|x l IH]; intros n; cbn; [reflexivity|]. f_equal. apply IH.
Qed.
Lemma before_error_app : forall (l : list (N * A)) (r : list (res E (N * A))), before_error (map ROk l ++ r) = l ++ before_error r.
Proof. induction l as [|x l IH]; intros r; cbn; [reflexivity|]. f_equal. apply IH. Qed.

Lemma all_yielded : forall inp (s : st), minv f inp s -> ended (m_log s) = true -> failed (m_log s) = false ->
  exists xs, inp = map ROk xs /\ Permutation (yielded (m_log s)) (map (image f) xs).
Proof.
  intros inp s M EN NF. destruct M as [PA (errs & FL & FE) VA (lk & PE & LE) BO SE CS RE RD LD NO KO].
  destruct (NO EN) as [R1 L1]. destruct (RD R1) as [C1 P1]. specialize (LD L1).
  assert (NB : broken (m_log s) = false).
  { destruct (broken (m_log s)) eqn:Bk; [|reflexivity]. apply broken_failed in Bk. congruence. }
  assert (errs = []) as -> by (destruct errs; [reflexivity|]; rewrite FE in NF; [discriminate|congruence]).
  rewrite P1 in PE.
  assert (T : m_tasks s = [] /\ m_results s = [] /\ then_list s = [] /\ m_lost s = []).
  { destruct (m_tasks s), (m_results s), (then_list s), (m_lost s); cbn in PE; try lia. auto. }
  destruct T as (T1 & T2 & T3 & T4). rewrite T1, T2, T3, T4 in FL. cbn [map app] in FL. rewrite !app_nil_r in FL.
  assert (RT : pa_ret (m_pa s) = Some PaOk).
  { destruct (pa_ret (m_pa s)) as [[| |]|] eqn:R; [reflexivity| | |]; exfalso.
    - rewrite (RE _ eq_refl) in NB; [discriminate|congruence].
    - rewrite (RE _ eq_refl) in NB; [discriminate|congruence].
    - now apply SE in LD. }
  destruct (pi_ok _ _ PA RT) as (Ar & En & Dr). pose proof (pi_end _ _ PA En) as Lt.
  assert (FU : pa_futs (m_pa s) = []) by (apply (pi_ret _ _ PA); congruence).
  exists (pa_pulled (m_pa s)). split.
  - rewrite (pi_split _ _ PA) at 1. rewrite RT, Ar, Lt. cbn. now rewrite app_nil_r.
  - destruct (pi_count _ _ PA) as (rest & CT & RS).
    assert (rest = []) as ->.
    { destruct rest as [|x rest]; [reflexivity|]. destruct RS as [X|(r & X & Y)]; [discriminate| |]; [rewrite FU in X; discriminate|congruence]. }
    rewrite Dr, FU in CT. change (unacc []) with (@nil (nat * (N * A))) in CT. cbn [app] in CT. rewrite app_nil_r in CT.
    symmetry. eapply Permutation_trans; [|exact FL].
    rewrite <- (numbered_snd _ (pa_pulled (m_pa s))) at 1. rewrite map_map. now apply Permutation_map.
Qed.

(** C12. If the stream ends without an error item, its items are the images of all the inputs, each exactly once under its own
    index, and the input had no error. *)
Theorem C12_exactly_once : forall arr late en tr s,
  (N.of_nat (length (arr ++ late)) < usize_max)%N -> no_dup tr ->
  run_from step (m_init arr late en) tr = Some s ->
  ended (m_log s) = true -> failed (m_log s) = false ->
  exists xs, arr ++ late = map ROk xs /\ Permutation (yielded (m_log s)) (map (image f) xs).
Proof.
  intros arr late en tr s SH ND H. apply all_yielded. exact (minv_run exec f exec_ok arr late en tr s SH ND H).
Qed.

(** At every moment what was yielded is part of that. *)
Theorem C12_never_more : forall arr late en tr s,
  (N.of_nat (length (arr ++ late)) < usize_max)%N -> no_dup tr ->
  run_from step (m_init arr late en) tr = Some s ->
  exists rest, Permutation (map (image f) (before_error (arr ++ late))) (yielded (m_log s) ++ rest).
Proof.
  intros arr late en tr s SH ND H. pose proof (minv_run exec f exec_ok arr late en tr s SH ND H) as M.
  destruct M as [PA (errs & FL & FE) VA PE BO SE CS RE RD LD NO KO].
  rewrite (pi_split _ _ PA), before_error_app, map_app. destruct (pi_count _ _ PA) as (rest & CT & RS).
  apply (Permutation_map (fun m : nat * (N * A) => image f (snd m))) in CT. rewrite map_app in CT.
  rewrite <- (map_map snd (image f)), numbered_snd in CT.
  set (r1 := map (fun m : nat * (N * A) => image f (snd m)) (unacc (pa_futs (m_pa s)) ++ pa_dropped (m_pa s) ++ rest)) in *.
  set (r2 := map (image f) (before_error (err_part (pa_ret (m_pa s)) ++ pa_arr (m_pa s) ++ pa_late (m_pa s)))) in *.
  set (a := map (image f) (m_tasks s)) in *. set (b := map (img_r f) (m_results s)) in *. set (c := map (img_r f) (then_list s)) in *.
  set (l := map (image f) (m_lost s)) in *. set (y := yielded (m_log s)) in *.
  exists (l ++ errs ++ r1 ++ r2 ++ a ++ b ++ c).
  eapply Permutation_trans; [apply Permutation_app_tail; exact CT|].
  eapply Permutation_trans; [apply Permutation_app_tail, Permutation_app_tail; exact FL|].
  rewrite <- !app_assoc. rewrite (app_assoc b c), (app_assoc a (b ++ c)).
  eapply Permutation_trans; [apply Permutation_app_comm|]. rewrite <- !app_assoc. reflexivity.
Qed.

(** C15. The consumer's view of [try_collect], which [into_values_sorted] starts with (indexed_stream/mod.rs:138-139). *)
Fixpoint collect (l : list (mret B E)) : option (res (merr E) (list (N * B))) :=
  match l with
  | [] => None
  | MItem i y :: r => match collect r with Some (ROk v) => Some (ROk ((i, y) :: v)) | o => o end
  | MErr e :: _ => Some (RErr e)
  | MPending :: r => collect r
  | MNone :: _ => Some (ROk [])
  end.

Lemma some_eq : forall (T : Type) (x y : T), Some x = Some y -> x = y.
Proof. congruence. Qed.
Lemma log_step : forall s e s', step s e = Some s' -> m_log s' = m_log s \/ exists r, m_log s' = r :: m_log s.
Proof.
  intros s e s' H.
  assert (SD : forall (t : st) sd k r, m_log (side_done t sd k r) = m_log t \/ exists x, m_log (side_done t sd k r) = x :: m_log t).
  { intros t sd k [x| |]; cbn; [right; eauto| |]; destruct k as [|[|]|]; cbn; eauto. }
  assert (LD : forall k p, m_log (left_done s k p) = m_log s \/ exists x, m_log (left_done s k p) = x :: m_log s).
  { intros k p. unfold left_done. destruct (pa_ret p) as [[| |]|]; try apply (SD (sender_done s p)). now left. }
  destruct e as [| e | | | | | | | | e | ok | i o | i | i | i | i]; cbn [m_step] in H;
    repeat match type of H with match ?x with _ => _ end = Some _ => destruct x eqn:?; try discriminate H end;
    apply some_eq in H; subst s'; try (left; reflexivity); try (right; eexists; reflexivity); try apply LD;
    match goal with |- m_log (side_done ?t ?a ?b ?c) = _ \/ _ => exact (SD t a b c) end.
Qed.

Lemma log_prefix : forall tr s0 s, run_from step s0 tr = Some s -> m_log s0 = [] ->
  forall a b, m_log s = a ++ b -> exists t1 t2 s1, tr = t1 ++ t2 /\ run_from step s0 t1 = Some s1 /\ m_log s1 = b.
Proof.
  intros tr s0. induction tr as [|e tr IH] using rev_ind; intros s H Z a b Q.
  - cbn in H. injection H as <-. exists [], [], s0. rewrite Z in Q. symmetry in Q. apply app_eq_nil in Q as [-> ->]. auto.
  - destruct a as [|r a].
    + exists (tr ++ [e]), [], s. rewrite app_nil_r. auto.
    + pose proof H as H'. apply run_from_app in H as (s1 & H1 & H2). cbn in H2. destruct (step s1 e) as [s2|] eqn:S; [|discriminate]. injection H2 as ->.
      destruct (log_step _ _ _ S) as [X|(x & X)].
      * destruct (IH s1 H1 Z (r :: a) b) as (t1 & t2 & u & -> & U1 & U2); [congruence|]. exists t1, (t2 ++ [e]), u. rewrite <- app_assoc. auto.
      * destruct (IH s1 H1 Z a b) as (t1 & t2 & u & -> & U1 & U2); [cbn in Q; congruence|]. exists t1, (t2 ++ [e]), u. rewrite <- app_assoc. auto.
Qed.

Lemma collect_ok : forall l v, collect l = Some (ROk v) -> exists a b, l = a ++ MNone :: b /\ failed a = false /\ yielded a = v.
Proof.
  induction l as [|[i y|e| |] l IH]; intros v H; cbn in H; try discriminate.
  - destruct (collect l) as [[w|]|]; try discriminate. injection H as <-. destruct (IH w eq_refl) as (a & b & -> & F & Y).
    exists (MItem i y :: a), b. cbn. rewrite Y. auto.
  - destruct (IH v H) as (a & b & -> & F & Y). exists (MPending :: a), b. auto.
  - injection H as <-. exists [], l. auto.
Qed.
Lemma failed_rev : forall l : list (mret B E), failed (rev l) = failed l.
Proof.
  induction l as [|x l IH]; [reflexivity|]. unfold failed in *. cbn. rewrite existsb_app, IH. cbn. rewrite orb_false_r. apply orb_comm.
Qed.
Lemma yielded_app : forall a b : list (mret B E), yielded (a ++ b) = yielded a ++ yielded b.
Proof. induction a as [|[]]; intros b; cbn; auto. now rewrite IHa. Qed.
Lemma yielded_rev : forall l : list (mret B E), Permutation (yielded (rev l)) (yielded l).
Proof.
  induction l as [|x l IH]; [constructor|]. cbn [rev]. rewrite yielded_app.
  eapply Permutation_trans; [apply Permutation_app_comm|]. destruct x; cbn; auto.
Qed.

(** If collecting the mapped stream succeeds then no input was an error and nothing is missing. *)
Theorem C15_collect : forall arr late en tr s v,
  (N.of_nat (length (arr ++ late)) < usize_max)%N -> no_dup tr ->
  run_from step (m_init arr late en) tr = Some s ->
  collect (rev (m_log s)) = Some (ROk v) ->
  exists xs, arr ++ late = map ROk xs /\ Permutation v (map (image f) xs).
Proof.
  intros arr late en tr s v SH ND H C. destruct (collect_ok _ _ C) as (a & b & Q & F & Y).
  apply (f_equal (@rev _)) in Q. rewrite rev_involutive, rev_app_distr in Q. cbn in Q. rewrite <- app_assoc in Q. cbn in Q.
  destruct (log_prefix _ _ _ H eq_refl _ _ Q) as (t1 & t2 & s1 & -> & U1 & U2).
  assert (ND1 : no_dup t1) by (intros x X; apply ND, in_or_app; auto).
  destruct (all_yielded (arr ++ late) s1 (minv_run exec f exec_ok arr late en t1 s1 SH ND1 U1)) as (xs & X1 & X2).
  - rewrite U2. reflexivity.
  - rewrite U2. change (failed (rev a) = false). now rewrite failed_rev.
  - exists xs. split; [exact X1|]. rewrite U2 in X2. cbn in X2. rewrite <- Y.
    eapply Permutation_trans; [symmetry; apply yielded_rev|exact X2].
Qed.

(** Failures that happened but were not reported yet. *)
Lemma fault_kept : forall arr late en tr s,
  (N.of_nat (length (arr ++ late)) < usize_max)%N -> no_dup tr ->
  run_from step (m_init arr late en) tr = Some s ->
  (exists e, In e tr /\ fails e = true) ->
  broken (m_log s) = true \/ existsb bad (pa_futs (m_pa s)) = true \/ (exists r, pa_ret (m_pa s) = Some r /\ r <> PaOk)
  \/ exists r, m_then s = Some (r, AReady false).
Proof.
  intros arr late en tr. induction tr as [|e tr IH] using rev_ind; intros s SH ND H (x & I & X); [contradiction|].
  apply run_from_app in H as (s1 & H1 & H2). cbn in H2. destruct (step s1 e) as [s2|] eqn:S; [|discriminate]. injection H2 as ->.
  assert (ND1 : no_dup tr) by (intros y Y; apply ND, in_or_app; auto).
  pose proof (minv_run exec f exec_ok arr late en tr s1 SH ND1 H1) as M1.
  assert (P : fails e = true \/ broken (m_log s1) = true \/ existsb bad (pa_futs (m_pa s1)) = true \/ (exists r, pa_ret (m_pa s1) = Some r /\ r <> PaOk)
    \/ exists r, m_then s1 = Some (r, AReady false)).
  { apply in_app_or in I as [I|[<-|[]]]; [right; apply IH; eauto|now left]. }
  clear IH I X x H1 ND1 ND.
  assert (LG : broken (m_log s1) = true -> broken (m_log s) = true).
  { intros Q. destruct (log_step _ _ _ S) as [-> |(r & ->)]; [exact Q|]. unfold broken in *. cbn. rewrite Q. apply orb_true_r. }
  assert (SD : forall (t : st) sd k r, m_pa (side_done t sd k r) = m_pa t \/ m_pa (side_done t sd k r) = set_woken (m_pa t) true).
  { intros t sd k [[]| |]; cbn; auto; destruct k as [|[|]|]; cbn; auto. }
  assert (TD : forall (t : st) sd k r, m_then (side_done t sd k r) = m_then t).
  { intros t sd k [[]| |]; cbn; auto; destruct k as [|[|]|]; cbn; auto. }
  assert (PP : forall ev p, pa_step (m_pa s1) ev = Some p -> pa_futs (m_pa s) = pa_futs p -> pa_ret (m_pa s) = pa_ret p -> 
    existsb bad (pa_futs (m_pa s1)) = true \/ (exists r, pa_ret (m_pa s1) = Some r /\ r <> PaOk) \/ is_failure ev = true ->
    existsb bad (pa_futs (m_pa s)) = true \/ (exists r, pa_ret (m_pa s) = Some r /\ r <> PaOk)).
  { intros ev p Sp -> -> Q. eapply bad_stays; eauto. }
  destruct P as [P|[P|P]]; [|left; auto|].
  - destruct e; try discriminate P.
    + destruct e; try discriminate P. destruct ok; [discriminate P|]. cbn [m_step poll_event] in S.
      destruct (pa_step (m_pa s1) (PaReply i false)) as [p|] eqn:Sp; [|discriminate]. injection S as <-. cbn.
      destruct (PP (PaReply i false) p Sp eq_refl eq_refl) as [Q|Q]; auto.
    + destruct ok; [discriminate P|]. cbn in S. destruct (m_then s1) as [[r [|b|b]]|]; try discriminate. injection S as <-. cbn. right. right. right. eauto.
  - assert (ST : m_pa s = m_pa s1 \/ (exists w, m_pa s = set_woken (m_pa s1) w) \/
        (exists ev p w, pa_step (m_pa s1) ev = Some p /\ m_pa s = set_woken p w)).
    { clear -S SD. assert (EW : forall p : pall (N * A) E, p = set_woken p (pa_woken p)) by (intros []; reflexivity).
      assert (SDx : forall (t : st) sd k r p, m_pa t = p -> exists w, m_pa (side_done t sd k r) = set_woken p w).
      { intros t sd k r p <-. destruct (SD t sd k r) as [-> | ->]; eauto. }
      assert (LDx : forall k p, exists w, m_pa (left_done s1 k p) = set_woken p w).
      { intros k p. unfold left_done. destruct (pa_ret p) as [[| |]|]; try (apply SDx; reflexivity). cbn. eauto. }
      destruct e as [| e | | | | | | | | e | ok | i o | i | i | i | i]; cbn [m_step] in S.
      2: { destruct (m_poll s1) as [|[|] k]; try discriminate. destruct (m_sent s1 || negb (poll_event e)); [discriminate|].
           right. right. destruct e; repeat match type of S with (if ?x then _ else _) = Some _ => destruct x; try discriminate S end;
           match type of S with match ?x with _ => _ end = Some _ => destruct x as [p|] eqn:Sp; [|discriminate] end;
           apply some_eq in S; subst s; eexists _, p; cbn; try (destruct (LDx k p) as [w ->]); eauto. }
      9: { destruct (poll_event e); [discriminate|]. destruct (pa_step (m_pa s1) e) as [p|] eqn:Sp; [|discriminate]. injection S as <-.
           right. right. exists e, p, (pa_woken p). split; [exact Sp|]. cbn. apply EW. }
      all: repeat match type of S with match ?x with _ => _ end = Some _ => destruct x eqn:?; try discriminate S end;
        apply some_eq in S; subst s; try (left; reflexivity); right; left; try (apply SDx; reflexivity); try (eexists; reflexivity).
      exists true. cbn. destruct (snd r); reflexivity.
    }
    destruct P as [P|[P|(r & P)]].
    + destruct ST as [Q|[(w & Q)|(ev & p & w & Sp & Q)]]; [rewrite Q; auto|rewrite Q; auto|].
      assert (K := PP ev p Sp). rewrite Q in K |- *. cbn in K |- *. specialize (K eq_refl eq_refl (or_introl P)). tauto.
    + destruct ST as [Q|[(w & Q)|(ev & p & w & Sp & Q)]]; [rewrite Q; auto|rewrite Q; auto|].
      assert (K := PP ev p Sp). rewrite Q in K |- *. cbn in K |- *. specialize (K eq_refl eq_refl (or_intror (or_introl P))). tauto.
    + assert (TS : m_then s = m_then s1 \/ broken (m_log s) = true).
      { clear -S P TD. destruct e as [| e | | | | | | | | e | ok | i o | i | i | i | i]; cbn [m_step] in S; rewrite ?P in S.
        2: { left. destruct (m_poll s1) as [|[|] k]; try discriminate. destruct (m_sent s1 || negb (poll_event e)); [discriminate|].
             destruct e; repeat match type of S with (if ?x then _ else _) = Some _ => destruct x; try discriminate S end;
             match type of S with match ?x with _ => _ end = Some _ => destruct x as [p|] eqn:Sp; [|discriminate] end;
             apply some_eq in S; subst s; cbn; auto; unfold left_done; destruct (pa_ret p) as [[| |]|]; rewrite ?TD; reflexivity. }
        all: repeat match type of S with match ?x with _ => _ end = Some _ => destruct x eqn:?; try discriminate S end;
          try discriminate S; apply some_eq in S; subst s; try (left; reflexivity); try (left; rewrite TD; reflexivity); try (right; reflexivity); left; cbn; congruence. }
      destruct TS as [Q|Q]; [right; right; right; exists r; congruence|left; exact Q].
Qed.

(** An input error, a failed publish or a failed acknowledgement is reported before the stream ends ... *)
Theorem C15_error_reported : forall arr late en tr s,
  (N.of_nat (length (arr ++ late)) < usize_max)%N -> no_dup tr ->
  run_from step (m_init arr late en) tr = Some s ->
  (exists x, In (RErr x) (arr ++ late)) \/ (exists e, In e tr /\ fails e = true) ->
  ended (m_log s) = true -> failed (m_log s) = true.
Proof.
  intros arr late en tr s SH ND H Q EN. destruct (failed (m_log s)) eqn:F; [reflexivity|exfalso].
  pose proof (minv_run exec f exec_ok arr late en tr s SH ND H) as M.
  destruct (all_yielded _ _ M EN F) as (xs & X1 & X2). destruct Q as [(x & Q)|Q].
  - rewrite X1 in Q. apply in_map_iff in Q as (y & Y & _). discriminate.
  - assert (NB : broken (m_log s) = false).
    { destruct (broken (m_log s)) eqn:Bk; [|reflexivity]. apply broken_failed in Bk. congruence. }
    destruct (mi_none _ _ _ M EN) as [R1 L1]. destruct (mi_rdone _ _ _ M R1) as [C1 P1].
    pose proof (mi_ldone _ _ _ M L1) as SN. apply (mi_sent _ _ _ M) in SN.
    destruct (fault_kept _ _ _ _ _ SH ND H Q) as [Y|[Y|[(r & Y1 & Y2)|(r & Y)]]].
    + congruence.
    + rewrite (pi_ret _ _ (mi_pa _ _ _ M) SN) in Y. discriminate.
    + rewrite (mi_ret _ _ _ M r Y1 Y2) in NB. discriminate.
    + destruct (mi_pend _ _ _ M) as (lk & PE & _). rewrite P1 in PE. unfold then_list in PE. rewrite Y in PE. cbn in PE. lia.
Qed.

(** ... and it is always reported: a consumer that follows its waker has seen an error by the time nothing more happens. *)
Theorem C15_error_not_swallowed : forall arr late en tr s (o0 : O),
  (N.of_nat (length (arr ++ late)) < usize_max)%N -> no_dup tr ->
  run_from step (m_init arr late en) tr = Some s ->
  (exists x, In (RErr x) (arr ++ late)) \/ (exists i, In (MEnv (PaReply i false)) tr) ->
  quiescent exec s -> failed (m_log s) = true.
Proof.
  intros arr late en tr s o0 SH ND H Q QS. pose proof (minv_run exec f exec_ok arr late en tr s SH ND H) as M.
  destruct (quiet exec f (arr ++ late) s o0 M (winv_run exec arr late en tr s H) QS) as (Q1 & Q2 & _ & _ & Q5).
  pose proof (mi_pa _ _ _ M) as PA. pose proof (proj1 (mi_sent _ _ _ M) Q1) as RN.
  apply broken_failed. destruct (pa_ret (m_pa s)) as [r|] eqn:R; [clear RN|congruence].
  assert (D : r = PaOk \/ r <> PaOk) by (destruct r; auto; right; discriminate).
  destruct D as [-> | D]; [|exact (mi_ret _ _ _ M r R D)].
  destruct (pi_ok _ _ PA R) as (Ar & En & Dr). pose proof (pi_end _ _ PA En) as Lt. destruct Q as [(x & Q)|(i & Q)].
  - exfalso. rewrite (pi_split _ _ PA), R, Ar, Lt in Q. cbn in Q. rewrite app_nil_r in Q. apply in_map_iff in Q as (y & Y & _). discriminate.
  - assert (X : forall t t1, m_then t = Some (t1, AReady false) -> m_rdone t = true -> minv f (arr ++ late) t -> False).
    { intros t t1 Y1 Y2 Y3. destruct (mi_rdone _ _ _ Y3 Y2) as [_ P1]. destruct (mi_pend _ _ _ Y3) as (lk & PE & _).
      rewrite P1 in PE. unfold then_list in PE. rewrite Y1 in PE. cbn in PE. lia. }
    destruct (fault_kept _ _ _ _ _ SH ND H (ex_intro _ _ (conj Q eq_refl))) as [Y|[Y|[(r & Y1 & Y2)|(r & Y)]]].
    + exact Y.
    + rewrite Q2 in Y. discriminate.
    + congruence.
    + exfalso. destruct Q5 as [Q5|Q5]; [congruence|eauto].
Qed.
End MapProps.

(** Two inputs, executed in the other order, both yielded. The stream then ends. *)
Definition dbl (_ : unit) (x : N) : res nat N := ROk (2 * x)%N.
Lemma dbl_ok : forall o x y, dbl o x = ROk y -> y = (2 * x)%N.
Proof. intros o x y H. injection H as <-. reflexivity. Qed.
Definition two_inputs : list (res nat (N * N)) := [ROk (0, 5); ROk (1, 7)]%N.
Definition two_trace : list (m_event unit) :=
  [MPoll; MLeft PaPull; MLeft PaPull; MLeft PaPull; MLeft (PaStart 0); MEnv (PaAccept 0); MLeft (PaStart 1); MEnv (PaAccept 1);
   MEnv (PaReply 0 true); MEnv (PaReply 1 true); MLeft (PaFinish 1); MLeft (PaFinish 0); MLeft PaReturn; MEmpty;
   MWork 1 tt; MWork 0 tt;
   MPoll; MTake; MAckStart; MAckReply true; MAckFinish;
   MPoll; MTake; MAckStart; MAckCheck; MAckReply true; MPoll; MAckFinish;
   MPoll; MEmpty].
Definition run_two : option (mstate N N nat) := run_from (m_step dbl) (m_init two_inputs [] true) two_trace.
Example C12_example : option_map (fun s => (yielded (m_log s), ended (m_log s), failed (m_log s), collect (rev (m_log s)))) run_two
  = Some ([(0, 10); (1, 14)]%N, true, false, Some (ROk [(1, 14); (0, 10)]%N)) /\ no_dup two_trace.
Proof. split; [vm_compute; reflexivity|]. intros e I. cbn in I. repeat destruct I as [<-|I]; try reflexivity. contradiction. Qed.

(** The restriction to runs without duplicates is needed: with a task delivered twice an index is yielded twice and the other
    result is never seen, although the stream ends without an error. *)
Definition dup_trace : list (m_event unit) :=
  [MPoll; MLeft PaPull; MLeft PaPull; MLeft PaPull; MLeft (PaStart 0); MEnv (PaAccept 0); MLeft (PaStart 1); MEnv (PaAccept 1);
   MEnv (PaReply 0 true); MEnv (PaReply 1 true); MLeft (PaFinish 1); MLeft (PaFinish 0); MLeft PaReturn; MEmpty;
   MDupTask 0; MWork 0 tt; MWork 1 tt;
   MPoll; MTake; MAckStart; MAckReply true; MAckFinish;
   MPoll; MTake; MAckStart; MAckReply true; MAckFinish;
   MPoll; MEmpty].
Theorem C12_needs_no_duplicates : exists tr s, run_from (m_step dbl) (m_init two_inputs [] true) tr = Some s /\
  ended (m_log s) = true /\ failed (m_log s) = false /\ yielded (m_log s) = [(0, 10); (0, 10)]%N.
Proof. exists dup_trace. eexists. split; [vm_compute; reflexivity|]. auto. Qed.

(** An input error after a good item: the error is returned although the good item's result is there too. *)
Definition bad_inputs : list (res nat (N * N)) := [ROk (0, 5)%N; RErr 9].
Definition bad_trace : list (m_event unit) :=
  [MPoll; MLeft PaPull; MLeft (PaStart 0); MEnv (PaAccept 0); MWork 0 tt; MLeft PaPull;
   MPoll; MTake; MAckStart; MAckReply true; MAckFinish; MPoll; MLeftNone; MEmpty].
Example C15_example : option_map (fun s => (rev (m_log s), collect (rev (m_log s)))) (run_from (m_step dbl) (m_init bad_inputs [] true) bad_trace)
  = Some ([MErr (EInput 9); MItem 0%N 10%N; MNone], Some (RErr (EInput 9))).
Proof. vm_compute. reflexivity. Qed.

Print Assumptions C12_exactly_once.
Print Assumptions C12_never_more.
Print Assumptions C12_needs_no_duplicates.
Print Assumptions C15_collect.
Print Assumptions C15_error_reported.
Print Assumptions C15_error_not_swallowed.
