(** Invariants of the mapped stream. *)
From Coq Require Import List Arith NArith Bool Lia Permutation.
From Verif Require Import Base BaseFacts CoordModel PublishModel PublishSpec PublishProofs MapModel MapSpec.
Import ListNotations.
Open Scope nat_scope.
Local Opaque usize_max usize_mod wsucc wpred.

Section PaCounts.
Context {T E : Type}.
Notation st := (pall T E).
Definition is_new (f : nat * T * fut) : bool := match snd f with FNew => true | _ => false end.
Definition is_half (f : nat * T * fut) : bool := match snd f with FWait false _ => true | _ => false end.
Definition starts (e : pa_event) : nat := match e with PaStart _ => 1 | _ => 0 end.

Lemma half_cnt : forall l : list (nat * T * fut), length (half_done l) = cnt is_half l.
Proof. intros l. unfold half_done. rewrite map_length. reflexivity. Qed.
Lemma cnt_pick : forall (A : Type) (p : A -> bool) i l x r, pick i l = Some (x, r) -> cnt p l = b2n (p x) + cnt p r.
Proof.
  intros A p i l x r P. apply pick_perm in P. rewrite <- cnt_cons. unfold cnt.
  assert (G : Permutation (filter p l) (filter p (x :: r))).
  { induction P; cbn; auto.
    - destruct (p x0); auto.
    - destruct (p x0), (p y); auto. apply perm_swap.
    - eapply Permutation_trans; eauto. }
  now apply Permutation_length.
Qed.

Lemma pa_counts : forall (s : st) e s', pa_step s e = Some s' -> (pa_ret s = None -> pa_dropped s = []) ->
  exists m lk, pa_acc s' = pa_acc s ++ m /\
    cnt is_half (pa_futs s') + length (pa_dropped s') + length m + lk = cnt is_half (pa_futs s) + length (pa_dropped s) + starts e /\
    (lk > 0 -> existsb bad (pa_futs s') = true \/ exists r, pa_ret s' = Some r /\ r <> PaOk) /\
    cnt is_new (pa_futs s') + starts e + length (pa_pulled s) <= cnt is_new (pa_futs s) + length (pa_pulled s') /\
    (poll_event e = true -> m = []) /\ pa_ret s = None \/
  pa_ret s <> None /\ exists i x d, e = PaAcceptDropped i /\ pick i (pa_dropped s) = Some (x, d) /\ pa_acc s' = pa_acc s ++ [x] /\
    pa_dropped s' = d /\ pa_futs s' = pa_futs s /\ pa_pulled s' = pa_pulled s /\ pa_ret s' = pa_ret s.
Proof.
  intros s e s' H DR. unfold pa_step in H. destruct (pa_ret s) as [r|] eqn:Rt.
  - exists [], 0. right. split; [discriminate|].
    destruct e; try discriminate. destruct (pick i (pa_dropped s)) as [[x d]|] eqn:P; [|discriminate]. injection H as <-.
    exists i, x, d. cbn. auto 10.
  - specialize (DR eq_refl).
    assert (NONE : forall m lk, pa_acc s' = pa_acc s ++ m ->
      cnt is_half (pa_futs s') + length (pa_dropped s') + length m + lk = cnt is_half (pa_futs s) + starts e ->
      (lk > 0 -> existsb bad (pa_futs s') = true \/ exists r, pa_ret s' = Some r /\ r <> PaOk) ->
      cnt is_new (pa_futs s') + starts e + length (pa_pulled s) <= cnt is_new (pa_futs s) + length (pa_pulled s') ->
      (poll_event e = true -> m = []) ->
      exists m lk, pa_acc s' = pa_acc s ++ m /\
        cnt is_half (pa_futs s') + length (pa_dropped s') + length m + lk = cnt is_half (pa_futs s) + length (pa_dropped s) + starts e /\
        (lk > 0 -> existsb bad (pa_futs s') = true \/ exists r, pa_ret s' = Some r /\ r <> PaOk) /\
        cnt is_new (pa_futs s') + starts e + length (pa_pulled s) <= cnt is_new (pa_futs s) + length (pa_pulled s') /\
        (poll_event e = true -> m = []) /\ @None (pa_result E) = None \/
      @None (pa_result E) <> None /\ exists i x d, e = PaAcceptDropped i /\ pick i (pa_dropped s) = Some (x, d) /\ pa_acc s' = pa_acc s ++ [x] /\
        pa_dropped s' = d /\ pa_futs s' = pa_futs s /\ pa_pulled s' = pa_pulled s /\ pa_ret s' = None).
    { intros m lk X1 X2 X3 X4 X5. exists m, lk. left. rewrite DR. cbn [length]. repeat split; auto. lia. }
    assert (RET : forall s1 r, s' = pa_return s1 r -> pa_futs s1 = pa_futs s -> pa_acc s1 = pa_acc s -> pa_pulled s1 = pa_pulled s ->
      starts e = 0 -> pa_acc s' = pa_acc s ++ [] /\
      cnt is_half (pa_futs s') + length (pa_dropped s') + 0 + 0 = cnt is_half (pa_futs s) + starts e /\
      cnt is_new (pa_futs s') + starts e + length (pa_pulled s) <= cnt is_new (pa_futs s) + length (pa_pulled s')).
    { intros s1 r -> F A P X. cbn. rewrite F, A, P, X, app_nil_r, half_cnt. change (cnt is_half []) with 0. change (cnt is_new []) with 0.
      repeat split; lia. }
    destruct e as [|i|i|i|i| | | |i|i ok|i]; try discriminate; cbn [starts] in *.
    + destruct (pa_open s && may_pull s); [|discriminate].
      destruct (pa_arr s) as [|[x|x] arr]; [destruct (pa_end s)| |]; injection H as <-;
        try (apply (NONE [] 0); cbn [pa_acc pa_futs pa_dropped pa_pulled length]; rewrite ?DR, ?app_nil_r; cbn [length]; auto; lia).
      * apply (NONE [] 0); cbn [pa_acc pa_futs pa_dropped pa_pulled length]; rewrite ?DR, ?app_nil_r, ?cnt_app, ?cnt_one, ?app_length; cbn; auto; lia.
      * edestruct RET as (X1 & X2 & X3); try reflexivity. apply (NONE [] 0); auto. lia.
    + destruct (nth_error (pa_futs s) i) as [[[n x] [|a b|b]]|] eqn:N; try discriminate. injection H as <-.
      pose proof (cnt_upd _ is_new i _ _ (n, x, FWait false false) N) as C1. pose proof (cnt_upd _ is_half i _ _ (n, x, FWait false false) N) as C2.
      cbn in C1, C2. apply (NONE [] 0); cbn [pa_acc pa_futs pa_dropped pa_pulled length set_futs]; rewrite ?DR, ?app_nil_r; cbn [length]; auto; lia.
    + destruct (nth_error (pa_futs s) i) as [[[n x] [|a b|b]]|] eqn:N; try discriminate. injection H as <-.
      pose proof (cnt_upd _ is_new i _ _ (n, x, FReady false) N) as C1. pose proof (cnt_upd _ is_half i _ _ (n, x, FReady false) N) as C2.
      cbn in C1, C2. apply (NONE [] 0); cbn [pa_acc pa_futs pa_dropped pa_pulled length set_futs]; rewrite ?DR, ?app_nil_r; cbn [length]; auto; lia.
    + destruct (nth_error (pa_futs s) i) as [[[n x] [|a [|]|b]]|] eqn:N; try discriminate. injection H as <-.
      pose proof (cnt_upd _ is_new i _ _ (n, x, FWait a true) N) as C1. pose proof (cnt_upd _ is_half i _ _ (n, x, FWait a true) N) as C2.
      cbn in C1, C2. apply (NONE [] 0); cbn [pa_acc pa_futs pa_dropped pa_pulled length set_futs]; rewrite ?DR, ?app_nil_r; cbn [length]; auto; destruct a; cbn in *; lia.
    + destruct (pick i (pa_futs s)) as [[[[n x] [|a b|[|]]] r]|] eqn:P; try discriminate; injection H as <-.
      * pose proof (cnt_pick _ is_new _ _ _ _ P) as C1. pose proof (cnt_pick _ is_half _ _ _ _ P) as C2. cbn in C1, C2.
        apply (NONE [] 0); cbn [pa_acc pa_futs pa_dropped pa_pulled length set_futs]; rewrite ?DR, ?app_nil_r; cbn [length]; auto; lia.
      * edestruct RET as (X1 & X2 & X3); try reflexivity. apply (NONE [] 0); auto. lia.
    + destruct (pa_open s); [discriminate|]. destruct (pa_futs s) as [|f fs] eqn:F; [|discriminate]. injection H as <-.
      destruct (RET s PaOk eq_refl F eq_refl eq_refl eq_refl) as (X1 & X2 & X3).
      apply (NONE [] 0); auto. lia.
    + destruct (pa_late s); [discriminate|]. injection H as <-.
      apply (NONE [] 0); cbn [pa_acc pa_futs pa_dropped pa_pulled length]; rewrite ?DR, ?app_nil_r; cbn [length]; auto; lia.
    + destruct (pa_late s); [|discriminate]. destruct (pa_end s); [discriminate|]. injection H as <-.
      apply (NONE [] 0); cbn [pa_acc pa_futs pa_dropped pa_pulled length]; rewrite ?DR, ?app_nil_r; cbn [length]; auto; lia.
    + destruct (nth_error (pa_futs s) i) as [[[n x] [|[|] b|b]]|] eqn:N; try discriminate. injection H as <-.
      pose proof (cnt_upd _ is_new i _ _ (n, x, FWait true b) N) as C1. pose proof (cnt_upd _ is_half i _ _ (n, x, FWait true b) N) as C2.
      cbn in C1, C2. apply (NONE [(n, x)] 0); cbn [pa_acc pa_futs pa_dropped pa_pulled length]; rewrite ?DR; cbn [length]; auto; try lia. discriminate.
    + destruct (nth_error (pa_futs s) i) as [[[n x] [|a b|b]]|] eqn:N; try discriminate.
      destruct (negb ok || a) eqn:G; [|discriminate]. injection H as <-.
      pose proof (cnt_upd _ is_new i _ _ (n, x, FReady ok) N) as C1. pose proof (cnt_upd _ is_half i _ _ (n, x, FReady ok) N) as C2.
      cbn in C1, C2. apply (NONE [] (if a then 0 else 1)); cbn [pa_acc pa_futs pa_dropped pa_pulled length set_futs set_woken]; rewrite ?DR, ?app_nil_r; cbn [length]; auto.
      * destruct a; cbn in *; lia.
      * destruct a; [lia|]. destruct ok; [discriminate|]. intros _. left. apply existsb_exists. eexists. split; [eapply In_upd_new; eauto|reflexivity].
      * lia.
Qed.
End PaCounts.

Section MapFacts.
Context {A B E O : Type}.
Variable exec : O -> A -> res E B.
Variable f : A -> B.
Hypothesis exec_ok : forall o x y, exec o x = ROk y -> y = f x.
Notation st := (mstate A B E).
Notation step := (m_step exec).
Arguments cnt : simpl never.

Definition then_list (s : st) : list result := match m_then s with Some (r, _) => [r] | None => [] end.
Definition img_r (r : @result A B E) : N * B := image f (fst r).

(** An error other than a worker's was returned. *)
Definition broken (log : list (mret B E)) : bool :=
  existsb (fun r => match r with MErr (EWorker _) => false | MErr _ => true | _ => false end) log.
Lemma broken_failed : forall log, broken log = true -> failed log = true.
Proof.
  intros log H. apply existsb_exists in H as (r & I & R). apply existsb_exists. exists r. split; [exact I|]. now destruct r.
Qed.

Record minv (inp : list (res E (N * A))) (s : st) : Prop := {
  mi_pa : pinv inp (m_pa s);
  mi_flow : exists errs, Permutation (map (fun m => image f (snd m)) (pa_acc (m_pa s)))
       (map (image f) (m_tasks s) ++ map img_r (m_results s) ++ map img_r (then_list s) ++ yielded (m_log s) ++ map (image f) (m_lost s) ++ errs)
     /\ (errs <> [] -> failed (m_log s) = true);
  mi_val : forall t y, In (t, ROk y) (m_results s ++ then_list s) -> y = f (snd t);
  mi_pend : exists leaks, m_pending s = N.of_nat (cnt is_half (pa_futs (m_pa s)) + length (pa_dropped (m_pa s)) + length (m_tasks s)
       + length (m_results s) + length (then_list s) + length (m_lost s) + leaks)
     /\ (leaks > 0 -> broken (m_log s) = true \/ existsb bad (pa_futs (m_pa s)) = true);
  mi_bound : N.to_nat (m_pending s) + cnt is_new (pa_futs (m_pa s)) <= length (pa_pulled (m_pa s));
  mi_sent : m_sent s = true <-> pa_ret (m_pa s) <> None;
  mi_closed : m_closed s = m_sent s;
  mi_ret : forall r, pa_ret (m_pa s) = Some r -> r <> PaOk -> broken (m_log s) = true;
  mi_rdone : m_rdone s = true -> m_closed s = true /\ m_pending s = 0%N;
  mi_ldone : m_ldone s = true -> m_sent s = true;
  mi_none : ended (m_log s) = true -> m_rdone s = true /\ m_ldone s = true;
  mi_kont : match m_poll s with
            | MSide L (KSecond true) | MSide L KOnly => m_rdone s = true
            | MSide R (KSecond true) | MSide R KOnly => m_ldone s = true
            | _ => True
            end
}.

Lemma pinv_woken : forall inp (p : pall (N * A) E) w, pinv inp p -> pinv inp (set_woken p w).
Proof. intros inp p w [? ? ? ? ? ? ? ? ? ? ?]. constructor; cbn; auto. Qed.

(** The poll of a side that yields nothing. *)
Lemma minv_quiet : forall inp s sd k r, minv inp s -> m_poll s = MSide sd k ->
  r = SPend \/ (r = SNone /\ match sd with L => m_sent s = true | R => m_closed s = true /\ m_pending s = 0%N end) ->
  minv inp (side_done s sd k r).
Proof.
  intros inp s sd k r I P Q. destruct I. rewrite P in mi_kont0.
  assert (X : forall s', (s' = set_mpoll s (MSide (other sd) (KSecond false)) \/ s' = m_return s MPending) -> minv inp s').
  { intros s' [-> | ->]; constructor; cbn; auto. now destruct sd. }
  destruct Q as [-> | [-> Q]].
  - cbn. destruct k; auto.
  - cbn [side_done].
    assert (Y : forall s' lg p, s' = finish s sd -> (lg = m_log s \/ lg = MPending :: m_log s \/ (lg = MNone :: m_log s /\ match sd with L => m_rdone s = true | R => m_ldone s = true end)) ->
      match p with MSide L (KSecond true) | MSide L KOnly => m_rdone s' = true | MSide R (KSecond true) | MSide R KOnly => m_ldone s' = true | _ => True end ->
      minv inp (mkM (m_pa s') (m_sent s') (m_closed s') (m_pending s') (m_tasks s') (m_results s') (m_resreg s') (m_then s') (m_next s') (m_ldone s') (m_rdone s') p lg (m_lost s'))).
    { intros s' lg p -> LG PP. constructor; cbn; auto.
      - destruct LG as [-> | [-> | [-> _]]]; cbn; auto.
      - destruct LG as [-> | [-> | [-> _]]]; cbn; auto.
      - destruct LG as [-> | [-> | [-> _]]]; cbn; auto.
      - destruct sd; auto.
      - destruct sd; auto.
      - destruct LG as [-> | [-> | [-> Z]]]; cbn.
        + intros W. destruct (mi_none0 W). destruct sd; auto.
        + intros W. destruct (mi_none0 W). destruct sd; auto.
        + intros _. destruct sd; auto. }
    destruct k as [|[|]|].
    + exact (Y _ (m_log s) (MSide (other sd) (KSecond true)) eq_refl (or_introl eq_refl) ltac:(destruct sd; reflexivity)).
    + assert (K : match sd with L => m_rdone s = true | R => m_ldone s = true end) by (destruct sd; exact mi_kont0).
      exact (Y _ (MNone :: m_log s) MIdle eq_refl (or_intror (or_intror (conj eq_refl K))) Logic.I).
    + exact (Y _ (MPending :: m_log s) MIdle eq_refl (or_intror (or_introl eq_refl)) Logic.I).
    + assert (K : match sd with L => m_rdone s = true | R => m_ldone s = true end) by (destruct sd; exact mi_kont0).
      exact (Y _ (MNone :: m_log s) MIdle eq_refl (or_intror (or_intror (conj eq_refl K))) Logic.I).
Qed.

Lemma failed_cons : forall (r : mret B E) log, failed log = true -> failed (r :: log) = true.
Proof. intros r log H. unfold failed in *. cbn. rewrite H. apply orb_true_r. Qed.

Lemma wpred_nat : forall n, wpred (N.of_nat (S n)) = N.of_nat n.
Proof. intros n. Local Transparent wpred. unfold wpred. Local Opaque wpred. destruct (N.eqb_spec (N.of_nat (S n)) 0); lia. Qed.
Lemma wpred_nat' : forall n m, n = N.of_nat (S m) -> wpred n = N.of_nat m.
Proof. intros n m ->. apply wpred_nat. Qed.

Lemma pulled_short : forall inp (p : pall (N * A) E), pinv inp p -> length (pa_pulled p) <= length inp.
Proof. intros inp p [SP _ _ _ _ _ _ _ _ _ _]. rewrite SP, app_length, map_length. lia. Qed.

(** A step of [publish_all] carried into the stream; [m] is what the broker has just accepted. *)
Definition with_pa (s : st) (p : pall (N * A) E) (pend : N) (m : list (nat * (N * A))) : st :=
  mkM p (m_sent s) (m_closed s) pend (m_tasks s ++ map snd m) (m_results s) (m_resreg s) (m_then s) (m_next s)
      (m_ldone s) (m_rdone s) (m_poll s) (m_log s) (m_lost s).

Lemma pa_carry : forall inp s e p, (N.of_nat (length inp) < usize_max)%N -> minv inp s -> pa_step (m_pa s) e = Some p ->
  (starts e = 1 -> m_closed s = false) ->
  exists m, pa_acc p = pa_acc (m_pa s) ++ m /\ (poll_event e = true -> m = []) /\
  pinv inp p /\
  (exists errs, Permutation (map (fun m => image f (snd m)) (pa_acc p))
       (map (image f) (m_tasks s ++ map snd m) ++ map img_r (m_results s) ++ map img_r (then_list s) ++ yielded (m_log s) ++ map (image f) (m_lost s) ++ errs)
     /\ (errs <> [] -> failed (m_log s) = true)) /\
  (exists leaks, (if starts e =? 1 then wsucc (m_pending s) else m_pending s) =
       N.of_nat (cnt is_half (pa_futs p) + length (pa_dropped p) + length (m_tasks s ++ map snd m)
       + length (m_results s) + length (then_list s) + length (m_lost s) + leaks)
     /\ (leaks > 0 -> broken (m_log s) = true \/ existsb bad (pa_futs p) = true \/ exists r, pa_ret p = Some r /\ r <> PaOk)) /\
  N.to_nat (if starts e =? 1 then wsucc (m_pending s) else m_pending s) + cnt is_new (pa_futs p) <= length (pa_pulled p).
Proof.
  intros inp s e p SH I S CL. destruct I as [PA (errs & FL & FE) VA (leaks & PE & LE) BO SE CS RE RD LD NO KO].
  pose proof (pinv_step _ _ _ _ PA S) as PA'.
  assert (FLOW : forall m, pa_acc p = pa_acc (m_pa s) ++ m ->
    exists errs, Permutation (map (fun m => image f (snd m)) (pa_acc p))
       (map (image f) (m_tasks s ++ map snd m) ++ map img_r (m_results s) ++ map img_r (then_list s) ++ yielded (m_log s) ++ map (image f) (m_lost s) ++ errs)
     /\ (errs <> [] -> failed (m_log s) = true)).
  { intros m EQ. exists errs. split; [|exact FE]. rewrite EQ, map_app, map_app, map_map.
    eapply Permutation_trans; [apply Permutation_app_tail; exact FL|]. rewrite <- !app_assoc. apply Permutation_app_head.
    symmetry. eapply Permutation_trans; [apply Permutation_app_comm|]. rewrite <- !app_assoc. reflexivity. }
  destruct (pa_counts _ _ _ S (pi_drop _ _ PA)) as (m & lk & [(X1 & X2 & X3 & X4 & X5 & X6)|(RN & i & x & d & -> & P & X1 & X2 & X3 & X4 & X5)]).
  - exists m. split; [exact X1|]. split; [exact X5|]. split; [exact PA'|]. split; [apply FLOW; exact X1|].
    assert (PB : N.to_nat (m_pending s) + starts e <= length (pa_pulled p)).
    { destruct (starts e) as [|[|n]] eqn:Q; try (destruct e; discriminate Q).
      - assert (length (pa_pulled (m_pa s)) <= length (pa_pulled p)).
        { clear -S. unfold pa_step in S.
          repeat match type of S with match ?x with _ => _ end = Some _ => destruct x eqn:?; try discriminate S end;
          injection S as <-; cbn; rewrite ?app_length; lia. }
        lia.
      - lia. }
    assert (EQN : (if starts e =? 1 then wsucc (m_pending s) else m_pending s) = N.of_nat (N.to_nat (m_pending s) + starts e)).
    { destruct (starts e) as [|[|n]] eqn:Q; try (destruct e; discriminate Q); cbn [Nat.eqb].
      - lia.
      - rewrite wsucc_small; [lia|]. pose proof (pulled_short _ _ PA'). lia. }
    rewrite EQN. split.
    + exists (leaks + lk). split.
      * f_equal. rewrite app_length, map_length. rewrite PE, Nnat.Nat2N.id. lia.
      * intros G. destruct (Nat.eq_dec leaks 0) as [Z|Z].
        -- right. destruct (X3 ltac:(lia)) as [Y|Y]; auto.
        -- destruct (LE ltac:(lia)) as [Y|Y]; [auto|]. right.
           destruct (bad_stays _ _ _ S (or_introl Y)) as [W|W]; auto.
    + rewrite Nnat.Nat2N.id. lia.
  - exists [x]. split; [exact X1|]. split; [discriminate|]. split; [exact PA'|]. split; [apply FLOW; exact X1|].
    change (starts (PaAcceptDropped i) =? 1) with false. cbn match.
    apply pick_length in P. split.
    + exists leaks. split; [|intros G; destruct (LE G) as [Y|Y]; auto; rewrite X3; auto].
      rewrite PE, X2, X3, app_length. f_equal. cbn [map length]. lia.
    + rewrite X3, X4. exact BO.
Qed.

Lemma minv_step : forall inp s e s', (N.of_nat (length inp) < usize_max)%N -> duplicates e = false ->
  minv inp s -> step s e = Some s' -> minv inp s'.
Proof.
  intros inp s e s' SH ND I H. pose proof I as I0.
  destruct I as [PA (errs & FL & FE) VA (leaks & PE & LE) BO SE CS RE RD LD NO KO].
  destruct e as [| e | | | | | | | | e | ok | i o | i | i | i | i]; cbn [m_step duplicates] in H, ND; try discriminate ND.
  - (* MPoll *)
    destruct (m_poll s) eqn:P; [|discriminate].
    assert (W : pinv inp (set_woken (m_pa s) false)) by now apply pinv_woken.
    cbn in H. destruct (m_ldone s) eqn:LDn, (m_rdone s) eqn:RDn; injection H as <-; cbn; constructor; cbn; rewrite ?LDn, ?RDn; eauto.
    + destruct (m_next s); exact Logic.I.
  - (* MLeft *)
    destruct (m_poll s) as [|[|] k] eqn:P; try discriminate.
    destruct (m_sent s || negb (poll_event e)) eqn:G; [discriminate|]. apply orb_false_iff in G as [G1 G2]. apply negb_false_iff in G2.
    assert (NRET : pa_ret (m_pa s) = None).
    { destruct (pa_ret (m_pa s)) eqn:RR; [|reflexivity]. exfalso. assert (m_sent s = true) by (apply SE; congruence). congruence. }
    assert (ST : forall p, pa_step (m_pa s) e = Some p -> starts e = 0 -> minv inp (left_done s k p)).
    { intros p S Z. destruct (pa_carry inp s e p SH I0 S ltac:(rewrite Z; discriminate)) as (m & X1 & X2 & X3 & X4 & X5 & X6).
      rewrite (X2 G2) in *. cbn [map] in *. rewrite app_nil_r in *. rewrite Z in X5, X6. cbn [Nat.eqb] in X5, X6.
      unfold left_done. destruct (pa_ret p) as [[|x|n]|] eqn:RP.
      - apply minv_quiet; [|cbn; rewrite P; reflexivity|right; split; [reflexivity|reflexivity]].
        destruct X5 as (lk & Y1 & Y2).
        constructor; cbn; eauto; try congruence.
        + exists lk. split; [exact Y1|]. intros Q. destruct (Y2 Q) as [Y|[Y|(r & Y & Y')]]; auto; congruence.
        + split; [congruence|reflexivity].
        + intros Q. destruct (RD Q). split; [reflexivity|assumption].
        + now rewrite P.
      - destruct X4 as (er & Y1 & Y2). destruct X5 as (lk & Z1 & Z2). cbn. constructor; cbn; eauto; try congruence.
        + now apply pinv_woken.
        + split; [congruence|reflexivity].
        + intros Q. destruct (RD Q). split; [reflexivity|assumption].
      - destruct X4 as (er & Y1 & Y2). destruct X5 as (lk & Z1 & Z2). cbn. constructor; cbn; eauto; try congruence.
        + now apply pinv_woken.
        + split; [congruence|reflexivity].
        + intros Q. destruct (RD Q). split; [reflexivity|assumption].
      - destruct X5 as (lk & Y1 & Y2). constructor; cbn; eauto; try congruence.
        + exists lk. split; [exact Y1|]. intros Q. destruct (Y2 Q) as [Y|[Y|(r & Y & Y')]]; auto; congruence.
        + now rewrite P. }
    destruct e as [|i|i|i|i| | | |i|i ok|i]; try discriminate.
    + destruct (pa_inreg (m_pa s)); [discriminate|]. destruct (pa_step (m_pa s) PaPull) as [p|] eqn:S; [|discriminate]. injection H as <-. auto.
    + destruct (m_closed s) eqn:C; [discriminate|]. destruct (pa_step (m_pa s) (PaStart i)) as [p|] eqn:S; [|discriminate]. injection H as <-.
      destruct (pa_carry inp s (PaStart i) p SH I0 S ltac:(auto)) as (m & X1 & X2 & X3 & X4 & X5 & X6).
      rewrite (X2 G2) in *. cbn [map] in *. rewrite app_nil_r in *. cbn [Nat.eqb starts] in X5, X6.
      assert (RP : pa_ret p = None).
      { unfold pa_step in S. rewrite NRET in S. destruct (nth_error (pa_futs (m_pa s)) i) as [[[n x] [|a b|b]]|]; try discriminate. injection S as <-. exact NRET. }
      destruct X5 as (lk & Y1 & Y2). constructor; cbn; eauto; try congruence.
      * exists lk. split; [exact Y1|]. intros Q. destruct (Y2 Q) as [Y|[Y|(r & Y & Y')]]; auto; congruence.
      * intros Q. destruct (RD Q). congruence.
      * now rewrite P.
    + rewrite CS, G1 in H. discriminate.
    + destruct (pa_step (m_pa s) (PaCheck i)) as [p|] eqn:S; [|discriminate]. injection H as <-. auto.
    + destruct (pa_step (m_pa s) (PaFinish i)) as [p|] eqn:S; [|discriminate]. injection H as <-. auto.
    + destruct (pa_step (m_pa s) PaReturn) as [p|] eqn:S; [|discriminate]. injection H as <-. auto.
  - (* MLeftPend *)
    destruct (m_poll s) as [|[|] k] eqn:P; try discriminate. destruct (negb (m_sent s) && pa_idle (m_pa s)); [|discriminate]. injection H as <-.
    exact (minv_quiet inp s L k SPend I0 P (or_introl eq_refl)).
  - (* MLeftNone *)
    destruct (m_poll s) as [|[|] k] eqn:P; try discriminate. destruct (m_sent s) eqn:G; [|discriminate]. injection H as <-.
    exact (minv_quiet inp s L k SNone I0 P (or_intror (conj eq_refl G))).
  - (* MTake *)
    destruct (m_poll s) as [|[|] k] eqn:P; try discriminate. destruct (m_then s) eqn:Tn; [discriminate|].
    destruct (m_results s) as [|r rs] eqn:Rs; [discriminate|]. injection H as <-.
    unfold then_list in *. rewrite Tn in *. cbn [map app length] in *.
    constructor; cbn; auto; rewrite ?P; auto.
    + exists errs. split; [|exact FE]. eapply Permutation_trans; [exact FL|]. apply Permutation_app_head.
      apply Permutation_middle.
    + intros t y X. apply VA. rewrite app_nil_r. apply in_app_iff in X as [X|[X|[]]]; [now right|now left].
    + exists leaks. split; [|exact LE]. rewrite PE. cbn [length]. f_equal. lia.
  - (* MEmpty *)
    destruct (m_poll s) as [|[|] k] eqn:P; try discriminate. destruct (m_then s) eqn:Tn; [discriminate|].
    destruct (m_results s) as [|r rs] eqn:Rs; [|discriminate]. injection H as <-.
    unfold then_list in *. rewrite Tn in *. cbn [map app length] in *.
    apply minv_quiet.
    + constructor; cbn; eauto.
    + reflexivity.
    + destruct (m_closed s && (m_pending s =? 0)%N) eqn:G; [right|now left]. apply andb_true_iff in G as [G1 G2].
      split; [reflexivity|]. split; [exact G1|]. now apply N.eqb_eq.
  - (* MAckStart *)
    destruct (m_poll s) as [|[|] k] eqn:P; try discriminate. destruct (m_then s) as [[r [|b|b]]|] eqn:Tn; try discriminate. injection H as <-.
    unfold then_list in *. rewrite Tn in *. constructor; cbn; eauto; try (exists errs; split; [exact FL|exact FE]); try (exists leaks; split; [exact PE|exact LE]); try (now rewrite P).
  - (* MAckCheck *)
    destruct (m_poll s) as [|[|] k] eqn:P; try discriminate. destruct (m_then s) as [[r [|b|b]]|] eqn:Tn; try discriminate. injection H as <-.
    apply (minv_quiet inp (set_then s (Some (r, AWait true))) R k SPend); [|exact P|auto]. unfold then_list in *. rewrite Tn in *. constructor; cbn; eauto; try (exists errs; split; [exact FL|exact FE]); try (exists leaks; split; [exact PE|exact LE]); try (now rewrite P).
  - (* MAckFinish *)
    destruct (m_poll s) as [|[|] k] eqn:P; try discriminate. destruct (m_then s) as [[r [|b|[|]]]|] eqn:Tn; try discriminate; injection H as <-.
    + unfold then_list in *. rewrite Tn in *. cbn [map length] in *.
      set (nn := cnt is_half (pa_futs (m_pa s)) + length (pa_dropped (m_pa s)) + length (m_tasks s) + length (m_results s) + length (m_lost s) + leaks) in *.
      assert (PN : m_pending s = N.of_nat (S nn)) by (rewrite PE; f_equal; unfold nn; lia).
      assert (RDF : m_rdone s = false) by (destruct (m_rdone s) eqn:Q; [destruct (RD eq_refl); lia|reflexivity]).
      assert (ENDF : ended (m_log s) = false) by (destruct (ended (m_log s)) eqn:Q; [destruct (NO eq_refl); congruence|reflexivity]).
      unfold side_done. destruct (snd r) as [y|x] eqn:Sr.
      * constructor; cbn; rewrite ?P, ?(wpred_nat' _ _ PN); auto.
        -- now apply pinv_woken, pinv_woken.
        -- exists errs. split; [|exact FE]. 
           assert (img_r r = (fst (fst r), y)) as <-.
           { unfold img_r, image. f_equal. symmetry. apply (VA (fst r)). apply in_or_app. right. left. rewrite (surjective_pairing r), Sr. reflexivity. }
           exact FL.
        -- intros t y' X. apply VA. apply in_or_app. left. now rewrite app_nil_r in X.
        -- exists leaks. split; [|exact LE]. f_equal. unfold nn. cbn. lia.
        -- lia.
        -- rewrite RDF. discriminate.
      * constructor; cbn; rewrite ?P, ?(wpred_nat' _ _ PN); eauto.
        -- now apply pinv_woken, pinv_woken.
        -- exists (img_r r :: errs). split; [|reflexivity]. eapply Permutation_trans; [exact FL|].
           do 2 apply Permutation_app_head. cbn [app].
           eapply Permutation_trans; [apply Permutation_middle|]. apply Permutation_app_head. apply Permutation_middle.
        -- intros t y' X. apply VA. apply in_or_app. left. now rewrite app_nil_r in X.
        -- exists leaks. split; [f_equal; unfold nn; cbn; lia|exact LE].
        -- lia.
        -- rewrite RDF. discriminate.
    + unfold then_list in *. rewrite Tn in *. cbn [map length] in *. cbn.
      constructor; cbn; rewrite ?P; eauto.
      * now apply pinv_woken.
      * exists (img_r r :: errs). split; [|reflexivity]. eapply Permutation_trans; [exact FL|].
        do 2 apply Permutation_app_head. cbn [app].
        eapply Permutation_trans; [apply Permutation_middle|]. apply Permutation_app_head. apply Permutation_middle.
      * intros t y' X. apply VA. apply in_or_app. left. now rewrite app_nil_r in X.
      * exists (S leaks). split; [rewrite PE; f_equal; cbn; lia|]. intros Q. now left.
  - (* MEnv *)
    destruct (poll_event e) eqn:PV; [discriminate|]. destruct (pa_step (m_pa s) e) as [p|] eqn:S; [|discriminate]. injection H as <-.
    assert (Z : starts e = 0) by (destruct e; try reflexivity; discriminate PV).
    destruct (pa_carry inp s e p SH I0 S ltac:(rewrite Z; discriminate)) as (m & X1 & X2 & X3 & X4 & X5 & X6).
    rewrite Z in X5, X6. cbn [Nat.eqb] in X5, X6.
    assert (SK : skipn (length (pa_acc (m_pa s))) (pa_acc p) = m).
    { rewrite X1, skipn_app, skipn_all, Nat.sub_diag. reflexivity. }
    rewrite SK.
    assert (RP : pa_ret p = pa_ret (m_pa s)).
    { clear -S PV. unfold pa_step in S. destruct (pa_ret (m_pa s)) eqn:RR.
      - destruct e; try discriminate. destruct (pick i (pa_dropped (m_pa s))) as [[x d]|]; [|discriminate]. injection S as <-. reflexivity.
      - destruct e as [|i|i|i|i| | | |i|i ok|i]; try discriminate.
        + destruct (pa_late (m_pa s)); [discriminate|]. injection S as <-. reflexivity.
        + destruct (pa_late (m_pa s)); [|discriminate]. destruct (pa_end (m_pa s)); [discriminate|]. injection S as <-. reflexivity.
        + destruct (nth_error (pa_futs (m_pa s)) i) as [[[n x] [|[|] b|b]]|]; try discriminate. injection S as <-. reflexivity.
        + destruct (nth_error (pa_futs (m_pa s)) i) as [[[n x] [|a b|b]]|]; try discriminate. destruct (negb ok || a); [|discriminate].
          injection S as <-. exact RR. }
    destruct X5 as (lk & Y1 & Y2). constructor; cbn; eauto; rewrite ?RP; auto.
    exists lk. split; [exact Y1|]. intros Q. destruct (Y2 Q) as [Y|[Y|(r & Y & Y')]]; auto. left. eapply RE; [rewrite <- RP; eauto|assumption].
  - (* MAckReply *)
    destruct (m_then s) as [[r [|b|b]]|] eqn:Tn; try discriminate. injection H as <-.
    unfold then_list in *. rewrite Tn in *. constructor; cbn; eauto; try (exists errs; split; [exact FL|exact FE]); try (exists leaks; split; [exact PE|exact LE]); now apply pinv_woken.
  - (* MWork *)
    destruct (pick i (m_tasks s)) as [[t ts]|] eqn:Pk; [|discriminate]. injection H as <-.
    pose proof (pick_length _ _ _ _ _ Pk) as PL. pose proof (pick_perm _ _ _ _ _ Pk) as PP.
    constructor; cbn; eauto.
    + now apply pinv_woken.
    + exists errs. split; [|exact FE]. eapply Permutation_trans; [exact FL|].
      eapply Permutation_trans; [apply Permutation_app_tail; apply (Permutation_map (image f) PP)|].
      rewrite map_app. cbn [map app]. rewrite <- !app_assoc. unfold img_r at 4. cbn [fst].
      eapply Permutation_trans; [|apply Permutation_app_head, Permutation_app_head; cbn [app]; apply Permutation_refl].
      rewrite !(app_assoc (map (image f) ts)). apply Permutation_middle.
    + intros t' y X. apply in_app_iff in X as [X|X].
      * apply in_app_iff in X as [X|[X|[]]]; [apply VA; apply in_or_app; now left|]. injection X as <- X. now apply exec_ok with o.
      * apply VA. apply in_or_app. now right.
    + exists leaks. split; [|exact LE]. rewrite PE. f_equal. rewrite app_length. cbn [length]. unfold then_list. cbn. lia.
  - (* MLose *)
    destruct (pick i (m_tasks s)) as [[t ts]|] eqn:Pk; [|discriminate]. injection H as <-.
    pose proof (pick_length _ _ _ _ _ Pk) as PL. pose proof (pick_perm _ _ _ _ _ Pk) as PP.
    constructor; cbn; eauto.
    + exists errs. split; [|exact FE]. eapply Permutation_trans; [exact FL|].
      eapply Permutation_trans; [apply Permutation_app_tail; apply (Permutation_map (image f) PP)|]. cbn [map app].
      rewrite !(app_assoc (map (image f) ts)). rewrite !(app_assoc (map (image f) ts ++ _)). rewrite !(app_assoc ((map (image f) ts ++ _) ++ _)).
      apply Permutation_middle.
    + exists leaks. split; [|exact LE]. rewrite PE. f_equal. unfold then_list. cbn. lia.
  - (* MLoseResult *)
    destruct (pick i (m_results s)) as [[r rs]|] eqn:Pk; [|discriminate]. injection H as <-.
    pose proof (pick_length _ _ _ _ _ Pk) as PL. pose proof (pick_perm _ _ _ _ _ Pk) as PP.
    constructor; cbn; eauto.
    + exists errs. split; [|exact FE]. eapply Permutation_trans; [exact FL|]. apply Permutation_app_head.
      eapply Permutation_trans; [apply Permutation_app_tail; apply (Permutation_map img_r PP)|]. cbn [map app].
      change (then_list (set_queues s (m_tasks s) rs (fst r :: m_lost s))) with (then_list s).
      rewrite !(app_assoc (map img_r rs)). rewrite !(app_assoc (map img_r rs ++ _)).
      change (image f (fst r)) with (img_r r). apply Permutation_middle.
    + intros t y X. apply VA. apply in_app_iff in X as [X|X]; apply in_or_app; [left|now right].
      eapply Permutation_in; [symmetry; exact PP|]. now right.
    + exists leaks. split; [|exact LE]. rewrite PE. f_equal. unfold then_list. cbn. lia.
Qed.

Lemma minv_init : forall arr late en, minv (arr ++ late) (m_init arr late en).
Proof.
  intros. constructor; cbn; auto; try discriminate.
  - apply pinv_woken, pinv_init.
  - exists []. split; [constructor|]. congruence.
  - contradiction.
  - exists 0. split; [reflexivity|lia].
  - split; [discriminate|congruence].
Qed.

Lemma minv_run : forall arr late en tr s, (N.of_nat (length (arr ++ late)) < usize_max)%N -> no_dup tr ->
  run_from step (m_init arr late en) tr = Some s -> minv (arr ++ late) s.
Proof.
  intros arr late en tr s SH ND H.
  refine (run_from_inv_where _ _ step (fun e => duplicates e = false) (minv (arr ++ late)) _ tr _ s _ (minv_init arr late en) H).
  - intros u v w PV U V. eapply minv_step; eauto.
  - apply Forall_forall. exact ND.
Qed.
End MapFacts.
