(** Lemmas for C87: every outcome of FoldModel is one of the fold with suspension points, whatever the limits; the limits never stall the fold; its runs are finite. *)
From Coq Require Import List Arith NArith Bool Lia Permutation.
From Verif Require Import Base BaseFacts ContiguousModel ContiguousSpec ContiguousProofs FoldModel FoldFineModel FoldFineProofs.
Import ListNotations.
Open Scope nat_scope.

Section Back.
  Variables A E O : Type.
  Variable comb : O -> A -> A -> res E A.
  Variable empty : A.
  Variables lim cap : nat.
  Hypothesis L : 1 <= lim.
  Variable inp0 : list (res E (N * A)).
  Notation gstep := (g_step comb empty lim cap).
  Notation greach := (greach A E O comb empty lim cap inp0).
  Notation gcan := (gcan A E O comb empty lim cap inp0).

  Lemma lim_ok : forall n, n = 0 -> (n <? lim) = true.
  Proof. intros n ->. apply Nat.ltb_lt. lia. Qed.

  Definition rest (s : fstate A E) (n : nat) : fine A E := mkG s [] [] [] [] [] [] n.
  Record quiet (u s : fstate A E) : Prop := mkQ {
    u_inp : f_inp u = f_inp s; u_ended : f_ended u = f_ended s; u_count : f_count u = f_count s; u_asm : f_asm u = f_asm s; u_final : f_final u = f_final s;
    u_ret : f_ret u = None; u_ret' : f_ret s = None; u_chan : f_chan u = []; u_tasks : Permutation (f_tasks u) (f_chan s ++ f_tasks s);
    u_results : Permutation (f_results u) (f_results s)
  }.
  Definition K (s : fstate A E) : Prop :=
    match f_ret s with
    | Some r => gcan r
    | None => (exists u n, greach (rest u n) /\ quiet u s) /\ (0 < f_disp s -> gcan (RetErr ErrPublish)) /\ (f_chan s <> [] -> 0 < f_disp s)
    end.

  Lemma K_start : K (fold_init inp0).
  Proof. unfold K. cbn. repeat split; try congruence; try lia. exists (fold_init inp0), 0. split; [exists []; reflexivity|]. now constructor. Qed.

  Lemma waits_self : forall n, waits n [n] = true.
  Proof. intros n. unfold waits. cbn. now rewrite Nat.eqb_refl. Qed.

  Lemma park_none : forall (s : fstate A E) c d id p, fst d = [] -> park cap s (put A E s c d) id p = p.
  Proof. intros s c d id p D. unfold park, put. cbn [f_disp f_chan]. rewrite D. cbn [length]. now rewrite Nat.add_0_r, Nat.ltb_irrefl. Qed.
  Lemma settle_none : forall (u : fstate A E) c d, f_chan u = [] -> fst d = [] -> put A E u c d = set_tasks (set_chan (put A E u c d) []) (f_tasks u ++ fst d).
  Proof. intros u c d C D. unfold put, set_tasks, set_chan. cbn. rewrite D, C, !app_nil_r. reflexivity. Qed.

  (** A task just put in the channel is published at once. *)
  Lemma publish_now : forall u t ini hands p n, f_ret u = None -> f_chan u = [t] -> length p <= 1 -> greach (mkG u [] ini [] hands p [] n) ->
    gcan (RetErr ErrPublish) /\ greach (mkG (set_tasks (set_chan u []) (f_tasks u ++ [t])) [] ini [] hands [] [] n).
  Proof.
    intros u t ini hands p n N C P R.
    assert (T : tl p = []) by (destruct p as [|? [|? ?]]; cbn in *; auto; lia).
    assert (R1 : greach (mkG (set_chan u []) [] ini [] hands [] [(t, false)] n)).
    { apply (greach_step _ _ _ _ _ _ _ _ _ GPublish _ R). unfold g_step. cbn [g_s g_pubs length]. rewrite N, (lim_ok 0 eq_refl), C. cbn. now rewrite T. }
    split.
    - assert (R2 : greach (mkG (f_return (set_chan u []) (RetErr ErrPublish)) [] ini [] hands [] [(t, false)] n)).
      { apply (greach_step _ _ _ _ _ _ _ _ _ (GReply 0 false) _ R1). unfold g_step. cbn. now rewrite N. }
      exact (greach_can _ _ _ _ _ _ _ _ _ _ R2 eq_refl).
    - assert (R2 : greach (mkG (set_tasks (set_chan u []) (f_tasks u ++ [t])) [] ini [] hands [] [(t, true)] n)).
      { apply (greach_step _ _ _ _ _ _ _ _ _ (GAccept 0) _ R1). unfold g_step. cbn. now rewrite N. }
      apply (greach_step _ _ _ _ _ _ _ _ _ (GReply 0 true) _ R2). unfold g_step. cbn. now rewrite N.
  Qed.

  (** 178-199 with nothing else under way. *)
  Lemma input_now : forall u it r n, f_ret u = None -> f_chan u = [] -> f_inp u = ROk it :: r -> greach (rest u n) ->
    let d := disp_in A (f_count u) (f_asm u) it in let u' := put A E (set_inp u r) (f_count u + 1) d in
    (fst d <> [] -> gcan (RetErr ErrPublish)) /\ greach (rest (set_tasks (set_chan u' []) (f_tasks u ++ fst d)) (S n)).
  Proof.
    intros u it r n N C I R d u'.
    assert (R1 : greach (mkG (set_inp u r) [it] [] [] [] [] [] n)).
    { apply (greach_step _ _ _ _ _ _ _ _ _ GPull _ R). unfold g_step. cbn [g_s rest g_got g_init length]. rewrite N. cbn [Nat.add]. rewrite (lim_ok 0 eq_refl), I. reflexivity. }
    assert (R2 : greach (mkG u' [] (if waits n (park cap (set_inp u r) u' n []) then [n] else []) [] [] (park cap (set_inp u r) u' n []) [] (S n))).
    { apply (greach_step _ _ _ _ _ _ _ _ _ GInput _ R1). unfold g_step. cbn [g_s g_got g_next g_parked g_init g_taken g_hands g_pubs]. cbn [f_ret set_inp]. rewrite N.
      rewrite (on_input_put A E (set_inp u r) it). reflexivity. }
    destruct (disp_in_one A (f_count u) (f_asm u) it) as [D|(t & D)]; fold d in D.
    - split; [congruence|]. unfold u' in R2. rewrite (park_none (set_inp u r) _ d n [] D) in R2. cbn [waits existsb] in R2. fold u' in R2.
      unfold rest. change (f_tasks u) with (f_tasks (set_inp u r)). unfold u'. rewrite <- (settle_none (set_inp u r) _ d C D). exact R2.
    - set (p := park cap (set_inp u r) u' n []) in R2.
      assert (PL : p = [] \/ p = [n]) by (unfold p, park; destruct (_ && _); [now right|now left]).
      assert (CU : f_chan u' = [t]) by (unfold u', put; cbn; now rewrite C, D).
      destruct (publish_now u' t (if waits n p then [n] else []) [] p (S n)) as [H1 H2]; [exact N|exact CU|destruct PL as [-> | ->]; cbn; lia|exact R2|].
      split; [intros _; exact H1|]. rewrite D. change (f_tasks u) with (f_tasks u'). destruct PL as [PL|PL]; rewrite PL in H2; [exact H2|].
      rewrite waits_self in H2. apply (greach_step _ _ _ _ _ _ _ _ _ (GInitDone 0) _ H2). unfold g_step. cbn. now rewrite N.
  Qed.

  (** 249-268 with nothing else under way, for a result that is not the final one. *)
  Lemma result_now : forall u i it rs n, f_ret u = None -> f_chan u = [] -> (2 <= f_count u)%N -> pick i (f_results u) = Some (ROk it, rs) ->
    f_ended u && is_final it (f_count u) = false -> greach (rest u n) ->
    let d := disp A (f_asm u) it in let u' := put A E (set_results u rs) (f_count u) d in
    gcan (RetErr ErrAck) /\ (fst d <> [] -> gcan (RetErr ErrPublish)) /\ greach (rest (set_tasks (set_chan u' []) (f_tasks u ++ fst d)) (S n)).
  Proof.
    intros u i it rs n N C TWO PK FI R d u'.
    assert (R1 : greach (mkG (set_results u rs) [] [] [ROk it] [] [] [] n)).
    { apply (greach_step _ _ _ _ _ _ _ _ _ (GTake i) _ R). unfold g_step. cbn [g_s rest g_taken g_hands length]. rewrite N. cbn [Nat.add]. apply N.leb_le in TWO.
      rewrite TWO, (lim_ok 0 eq_refl), PK. reflexivity. }
    assert (R2 : greach (mkG u' [] [] [] [mkHd n it false false] (park cap (set_results u rs) u' n []) [] (S n))).
    { apply (greach_step _ _ _ _ _ _ _ _ _ GResult _ R1). unfold g_step. cbn [g_s g_got g_next g_parked g_init g_taken g_hands g_pubs]. cbn [f_ret set_results f_ended f_count]. rewrite N, FI.
      rewrite (try_dispatch_put A E (set_results u rs) it). reflexivity. }
    assert (FIN : forall v, f_ret v = None -> greach (mkG v [] [] [] [mkHd n it false false] [] [] (S n)) -> greach (rest v (S n))).
    { intros v NV RV. assert (R3 : greach (mkG v [] [] [] [mkHd n it false true] [] [] (S n))).
      { apply (greach_step _ _ _ _ _ _ _ _ _ (GAck 0 true) _ RV). unfold g_step. cbn. now rewrite NV. }
      apply (greach_step _ _ _ _ _ _ _ _ _ (GHandled 0) _ R3). unfold g_step. cbn. now rewrite NV. }
    split; [|].
    { assert (R3 : greach (mkG (f_return u' (RetErr ErrAck)) [] [] [] [mkHd n it false false] (park cap (set_results u rs) u' n []) [] (S n))).
      { apply (greach_step _ _ _ _ _ _ _ _ _ (GAck 0 false) _ R2). unfold g_step. cbn. now rewrite N. }
      exact (greach_can _ _ _ _ _ _ _ _ _ _ R3 eq_refl). }
    destruct (disp_one A (f_asm u) it) as [D|(t & D)]; fold d in D.
    - split; [congruence|]. unfold u' in R2. rewrite (park_none (set_results u rs) _ d n [] D) in R2. fold u' in R2. apply FIN in R2; [|exact N].
      unfold rest in *. change (f_tasks u) with (f_tasks (set_results u rs)). unfold u'. rewrite <- (settle_none (set_results u rs) _ d C D). exact R2.
    - set (p := park cap (set_results u rs) u' n []) in R2.
      assert (PL : length p <= 1) by (unfold p, park; destruct (Nat.ltb (f_disp (set_results u rs)) (f_disp u') && Nat.ltb cap (length (f_chan u'))); cbn; auto).
      assert (CU : f_chan u' = [t]) by (unfold u', put; cbn; now rewrite C, D).
      destruct (publish_now u' t [] [mkHd n it false false] p (S n) N CU PL R2) as [H1 H2].
      split; [intros _; exact H1|]. rewrite D. change (f_tasks u) with (f_tasks u'). apply FIN; [exact N|exact H2].
  Qed.

  Lemma final_now : forall u i it rs n, f_ret u = None -> (2 <= f_count u)%N -> pick i (f_results u) = Some (ROk it, rs) ->
    f_ended u && is_final it (f_count u) = true -> greach (rest u n) ->
    gcan (RetErr ErrAck) /\ (f_final u <> None -> gcan (RetErr ErrTxTaken)) /\ (f_final u = None -> greach (rest (set_final (set_results u rs) (Some it)) (S n))).
  Proof.
    intros u i it rs n N TWO PK FI R.
    assert (R1 : greach (mkG (set_results u rs) [] [] [ROk it] [] [] [] n)).
    { apply (greach_step _ _ _ _ _ _ _ _ _ (GTake i) _ R). unfold g_step. cbn [g_s rest g_taken g_hands length]. rewrite N. cbn [Nat.add]. apply N.leb_le in TWO.
      rewrite TWO, (lim_ok 0 eq_refl), PK. reflexivity. }
    assert (R2 : greach (mkG (set_results u rs) [] [] [] [mkHd n it true false] [] [] (S n))).
    { apply (greach_step _ _ _ _ _ _ _ _ _ GResult _ R1). unfold g_step. cbn [g_s g_got g_next g_parked g_init g_taken g_hands g_pubs]. cbn [f_ret set_results f_ended f_count]. rewrite N, FI.
      reflexivity. }
    split; [|split].
    - assert (R3 : greach (mkG (f_return (set_results u rs) (RetErr ErrAck)) [] [] [] [mkHd n it true false] [] [] (S n))).
      { apply (greach_step _ _ _ _ _ _ _ _ _ (GAck 0 false) _ R2). unfold g_step. cbn. now rewrite N. }
      exact (greach_can _ _ _ _ _ _ _ _ _ _ R3 eq_refl).
    - intros F. destruct (f_final u) as [x|] eqn:FU; [|congruence].
      assert (R3 : greach (mkG (f_return (set_results u rs) (RetErr ErrTxTaken)) [] [] [] [mkHd n it true false] [] [] (S n))).
      { apply (greach_step _ _ _ _ _ _ _ _ _ (GAck 0 true) _ R2). unfold g_step. cbn. now rewrite N, FU. }
      exact (greach_can _ _ _ _ _ _ _ _ _ _ R3 eq_refl).
    - intros FU. assert (R3 : greach (mkG (set_final (set_results u rs) (Some it)) [] [] [] [mkHd n it true true] [] [] (S n))).
      { apply (greach_step _ _ _ _ _ _ _ _ _ (GAck 0 true) _ R2). unfold g_step. cbn. now rewrite N, FU. }
      apply (greach_step _ _ _ _ _ _ _ _ _ (GHandled 0) _ R3). unfold g_step. cbn. now rewrite N.
  Qed.

  Lemma error_now : forall u i x rs n, f_ret u = None -> (2 <= f_count u)%N -> pick i (f_results u) = Some (RErr x, rs) -> greach (rest u n) -> gcan (RetErr (ErrWorker x)).
  Proof.
    intros u i x rs n N TWO PK R.
    assert (R1 : greach (mkG (set_results u rs) [] [] [RErr x] [] [] [] n)).
    { apply (greach_step _ _ _ _ _ _ _ _ _ (GTake i) _ R). unfold g_step. cbn [g_s rest g_taken g_hands length]. rewrite N. cbn [Nat.add]. apply N.leb_le in TWO.
      rewrite TWO, (lim_ok 0 eq_refl), PK. reflexivity. }
    assert (R2 : greach (mkG (f_return (set_results u rs) (RetErr (ErrWorker x))) [] [] [RErr x] [] [] [] n)).
    { apply (greach_step _ _ _ _ _ _ _ _ _ GResult _ R1). unfold g_step. cbn. now rewrite N. }
    exact (greach_can _ _ _ _ _ _ _ _ _ _ R2 eq_refl).
  Qed.

  Lemma env_step : forall u n e v, f_ret u = None -> fold_step comb empty u e = Some v ->
    match e with EvDropTask _ | EvDropResult _ | EvDupTask _ | EvDupResult _ => True | _ => False end -> greach (rest u n) -> greach (rest v n).
  Proof.
    intros u n e v N ST HE R. apply (greach_step _ _ _ _ _ _ _ _ _ (GEnv e) _ R). unfold g_step. cbn [g_s rest]. rewrite N. destruct e; try contradiction; now rewrite ST.
  Qed.

  Lemma K_step : forall s e s', K s -> fold_step comb empty s e = Some s' -> K s'.
  Proof.
    intros s e s' HK ST. pose proof ST as ST0. unfold fold_step in ST. unfold K in HK. destruct (f_ret s) eqn:RN; [discriminate|].
    destruct HK as ((u & n & R & Q) & CP & CD). pose proof (u_ret _ _ Q) as RU.
    destruct e as [| |i ok|i o|i ack|ok|i|i|i|i].
    - (* EvInput *)
      destruct (f_inp s) as [|[it|x] r] eqn:I; [discriminate| |]; injection ST as <-.
      + destruct (input_now u it r n RU (u_chan _ _ Q)) as [H1 H2]; [now rewrite (u_inp _ _ Q)|exact R|].
        rewrite on_input_put. unfold K. cbn. rewrite RN. rewrite (u_count _ _ Q), (u_asm _ _ Q) in *.
        destruct (disp_in_one A (f_count s) (f_asm s) it) as [D|(t & D)].
        * rewrite D in *. split; [|split].
          -- eexists _, (S n). split; [exact H2|]. destruct Q. constructor; cbn; auto. rewrite D, !app_nil_r. exact u_tasks0.
          -- cbn. rewrite Nat.add_0_r. exact CP.
          -- cbn. rewrite app_nil_r, Nat.add_0_r. exact CD.
        * rewrite D in *. split; [|split].
          -- eexists _, (S n). split; [exact H2|]. destruct Q. constructor; cbn; auto. rewrite D, u_tasks0, <- !app_assoc. apply Permutation_app_head.
             apply Permutation_app_comm.
          -- intros _. apply H1. discriminate.
          -- intros _. cbn. lia.
      + unfold K. cbn. assert (R2 : greach (mkG (f_return (set_inp u r) (RetErr (ErrInput x))) [] [] [] [] [] [] n)).
        { apply (greach_step _ _ _ _ _ _ _ _ _ GPull _ R). unfold g_step. cbn [g_s rest g_got g_init length]. rewrite RU. cbn [Nat.add].
          rewrite (lim_ok 0 eq_refl), (u_inp _ _ Q), I. reflexivity. }
        exact (greach_can _ _ _ _ _ _ _ _ _ _ R2 eq_refl).
    - (* EvInputEnd *)
      destruct (f_inp s) eqn:I; [|discriminate]. destruct (f_ended s) eqn:EN; [discriminate|]. injection ST as <-.
      assert (R2 : greach (rest (on_input_end empty u) n)).
      { apply (greach_step _ _ _ _ _ _ _ _ _ GInputEnd _ R). unfold g_step. cbn [g_s rest g_got g_init]. now rewrite RU, (u_inp _ _ Q), I, (u_ended _ _ Q), EN. }
      unfold on_input_end in *. cbn in *. rewrite (u_count _ _ Q), (u_asm _ _ Q) in R2. unfold K.
      destruct (f_count s =? 0)%N; [exact (greach_can _ _ _ _ _ _ _ _ _ _ R2 eq_refl)|].
      destruct (f_count s =? 1)%N.
      + destruct (cq_dequeue (f_asm s) 0%N) as [[it|] q']; exact (greach_can _ _ _ _ _ _ _ _ _ _ R2 eq_refl).
      + cbn. rewrite RN. split; [|auto]. eexists _, n. split; [exact R2|]. destruct Q. constructor; cbn; auto.
    - (* EvPublish *)
      destruct (pick i (f_chan s)) as [[t c]|] eqn:PK; [|discriminate]. pose proof (pick_perm _ _ _ _ _ PK) as P.
      assert (DI : 0 < f_disp s) by (apply CD; intros H; rewrite H in PK; destruct i; discriminate PK).
      destruct ok; injection ST as <-; unfold K; cbn; [|exact (CP DI)]. rewrite RN. split; [|auto].
      exists u, n. split; [exact R|]. destruct Q. constructor; cbn; auto. rewrite u_tasks0, P. cbn. rewrite app_assoc. apply Permutation_cons_append.
    - (* EvWork *)
      destruct (pick i (f_tasks s)) as [[t ts]|] eqn:PK; [|discriminate]. injection ST as <-. unfold K. cbn. rewrite RN. split; [|auto].
      assert (P : Permutation (f_tasks u) (t :: f_chan s ++ ts)).
      { rewrite (u_tasks _ _ Q), (pick_perm _ _ _ _ _ PK). apply Permutation_sym, Permutation_middle. }
      destruct (perm_pick _ _ _ _ P) as (k & ts' & PK' & PT).
      eexists _, n. split.
      + apply (greach_step _ _ _ _ _ _ _ _ _ (GWork k o) _ R). unfold g_step. cbn [g_s rest]. rewrite RU. unfold fold_step. rewrite RU, PK'. reflexivity.
      + destruct Q. constructor; cbn; auto; [now apply Permutation_sym|]. now apply Permutation_app_tail.
    - (* EvResult *)
      destruct (2 <=? f_count s)%N eqn:TWO; [|discriminate]. apply N.leb_le in TWO. assert (TU : (2 <= f_count u)%N) by (now rewrite (u_count _ _ Q)).
      destruct (pick i (f_results s)) as [[x xs]|] eqn:PK; [|discriminate]. injection ST as <-.
      assert (P : Permutation (f_results u) (x :: xs)) by (rewrite (u_results _ _ Q); exact (pick_perm _ _ _ _ _ PK)).
      destruct (perm_pick _ _ _ _ P) as (k & xs' & PK' & PX). destruct x as [it|x].
      + unfold on_result. cbn. destruct (f_ended s && is_final it (f_count s)) eqn:FI.
        * destruct (final_now u k it xs' n RU TU PK') as (H1 & H2 & H3); [now rewrite (u_ended _ _ Q), (u_count _ _ Q)|exact R|].
          rewrite (u_final _ _ Q) in H2, H3. destruct ack; [|unfold K; cbn; exact H1].
          destruct (f_final s); unfold K; cbn; [apply H2; discriminate|]. rewrite RN. split; [|auto].
          eexists _, (S n). split; [exact (H3 eq_refl)|]. destruct Q. constructor; cbn; auto. now apply Permutation_sym.
        * destruct (result_now u k it xs' n RU (u_chan _ _ Q) TU PK') as (H1 & H2 & H3); [now rewrite (u_ended _ _ Q), (u_count _ _ Q)|exact R|].
          destruct ack; [|unfold K; cbn; exact H1]. rewrite try_dispatch_put. unfold K. cbn. rewrite RN. rewrite (u_count _ _ Q), (u_asm _ _ Q) in *.
          destruct (disp_one A (f_asm s) it) as [D|(t & D)].
          -- rewrite D in *. split; [|split].
             ++ eexists _, (S n). split; [exact H3|]. destruct Q. constructor; cbn; auto; [rewrite D, !app_nil_r; exact u_tasks0|now apply Permutation_sym].
             ++ cbn. rewrite Nat.add_0_r. exact CP.
             ++ cbn. rewrite app_nil_r, Nat.add_0_r. exact CD.
          -- rewrite D in *. split; [|split].
             ++ eexists _, (S n). split; [exact H3|]. destruct Q. constructor; cbn; auto; [|now apply Permutation_sym].
                rewrite D, u_tasks0, <- !app_assoc. apply Permutation_app_head. apply Permutation_app_comm.
             ++ intros _. apply H2. discriminate.
             ++ intros _. cbn. lia.
      + unfold K. cbn. exact (error_now u k x xs' n RU TU PK' R).
    - (* EvFinal *)
      destruct (f_final s) as [it|] eqn:F; [|discriminate]. injection ST as <-. unfold K. cbn.
      assert (R2 : greach (rest (f_return u (if ok then RetOk (it_val it) else RetErr ErrClose)) n)).
      { apply (greach_step _ _ _ _ _ _ _ _ _ (GFinal ok) _ R). unfold g_step. cbn [g_s rest]. rewrite RU. unfold fold_step. rewrite RU, (u_final _ _ Q), F. reflexivity. }
      exact (greach_can _ _ _ _ _ _ _ _ _ _ R2 eq_refl).
    - (* EvDropTask *)
      destruct (pick i (f_tasks s)) as [[t ts]|] eqn:PK; [|discriminate]. injection ST as <-. unfold K. cbn. rewrite RN. split; [|auto].
      assert (P : Permutation (f_tasks u) (t :: f_chan s ++ ts)).
      { rewrite (u_tasks _ _ Q), (pick_perm _ _ _ _ _ PK). apply Permutation_sym, Permutation_middle. }
      destruct (perm_pick _ _ _ _ P) as (k & ts' & PK' & PT). exists (set_tasks u ts'), n. split.
      + apply (env_step u n (EvDropTask k)); [exact RU| |exact Logic.I|exact R]. unfold fold_step. now rewrite RU, PK'.
      + destruct Q. constructor; cbn; auto. now apply Permutation_sym.
    - destruct (pick i (f_results s)) as [[x xs]|] eqn:PK; [|discriminate]. injection ST as <-. unfold K. cbn. rewrite RN. split; [|auto].
      assert (P : Permutation (f_results u) (x :: xs)) by (rewrite (u_results _ _ Q); exact (pick_perm _ _ _ _ _ PK)).
      destruct (perm_pick _ _ _ _ P) as (k & ts' & PK' & PT). exists (set_results u ts'), n. split.
      + apply (env_step u n (EvDropResult k)); [exact RU| |exact Logic.I|exact R]. unfold fold_step. now rewrite RU, PK'.
      + destruct Q. constructor; cbn; auto. now apply Permutation_sym.
    - destruct (nth_error (f_tasks s) i) as [t|] eqn:PK; [|discriminate]. injection ST as <-. unfold K. cbn. rewrite RN. split; [|auto].
      assert (IN : In t (f_tasks u)).
      { eapply Permutation_in; [apply Permutation_sym, (u_tasks _ _ Q)|]. apply in_or_app. right. now apply nth_error_In in PK. }
      apply In_nth_error in IN. destruct IN as (k & NK). exists (set_tasks u (f_tasks u ++ [t])), n. split.
      + apply (env_step u n (EvDupTask k)); [exact RU| |exact Logic.I|exact R]. unfold fold_step. now rewrite RU, NK.
      + destruct Q. constructor; cbn; auto. rewrite u_tasks0, <- app_assoc. reflexivity.
    - destruct (nth_error (f_results s) i) as [x|] eqn:PK; [|discriminate]. injection ST as <-. unfold K. cbn. rewrite RN. split; [|auto].
      assert (IN : In x (f_results u)) by (eapply Permutation_in; [apply Permutation_sym, (u_results _ _ Q)|now apply nth_error_In in PK]).
      apply In_nth_error in IN. destruct IN as (k & NK). exists (set_results u (f_results u ++ [x])), n. split.
      + apply (env_step u n (EvDupResult k)); [exact RU| |exact Logic.I|exact R]. unfold fold_step. now rewrite RU, NK.
      + destruct Q. constructor; cbn; auto. now apply Permutation_app_tail.
  Qed.

  Lemma coarse_to_fine : forall r, can A E O comb empty inp0 r -> gcan r.
  Proof.
    intros r (tr & s & R & H). assert (HK : K s) by (apply (run_from_inv _ _ _ K K_step tr (fold_init inp0) s K_start R)).
    unfold K in HK. now rewrite H in HK.
  Qed.
End Back.

(** *** The limits never stall the fold *)
Section Stall.
  Variables A E O : Type.
  Variable comb : O -> A -> A -> res E A.
  Variable empty : A.
  Variables lim cap : nat.
  Notation gstep := (g_step comb empty lim cap).

  Record stall_inv (g : fine A E) : Prop := mkSI {
    si_parked : length (g_parked g) = length (f_chan (g_s g)) - cap;
    si_two : (f_count (g_s g) < 2)%N -> f_chan (g_s g) = [] /\ g_pubs g = [] /\ f_tasks (g_s g) = [] /\ f_results (g_s g) = [] /\ g_taken g = []
  }.

  Lemma park_length : forall (s : fstate A E) c d id p, fst d = [] \/ (exists t, fst d = [t]) -> length p = length (f_chan s) - cap ->
    length (park cap s (put A E s c d) id p) = length (f_chan (put A E s c d)) - cap.
  Proof.
    intros s c d id p [D|(t & D)] P.
    - rewrite (park_none A E cap s c d id p D). unfold put. cbn [f_chan]. now rewrite D, app_nil_r.
    - unfold park, put. cbn [f_disp f_chan]. rewrite D, app_length. cbn [length]. replace (f_disp s <? f_disp s + 1) with true by (symmetry; apply Nat.ltb_lt; lia).
      cbn [andb]. destruct (Nat.ltb_spec cap (length (f_chan s) + 1)); [rewrite app_length; cbn|]; lia.
  Qed.

  Lemma stall_step : forall g e g', stall_inv g -> gstep g e = Some g' -> stall_inv g'.
  Proof.
    intros g e g' [P T] ST. unfold g_step in ST. destruct (f_ret (g_s g)) eqn:RN; [discriminate|].
    destruct e as [| |i| | |i|i ok|i o|i| |i ok|i|ok|e].
    - destruct (length (g_got g) + length (g_init g) <? lim); [|discriminate].
      destruct (f_inp (g_s g)) as [|[it|x] r]; [discriminate| |]; injection ST as <-; constructor; cbn; auto.
    - destruct (g_got g) as [|it r]; [discriminate|]. injection ST as <-. rewrite on_input_put. constructor.
      + cbn [g_parked g_s]. apply park_length; [apply disp_in_one|exact P].
      + cbn. intros H. destruct (T ltac:(lia)) as (-> & -> & -> & -> & ->). unfold disp_in. apply N.ltb_lt in H. rewrite H. cbn. tauto.
    - destruct (pick i (g_init g)) as [[id r]|]; [|discriminate]. destruct (waits id (g_parked g)); [discriminate|]. injection ST as <-. constructor; cbn; auto.
    - destruct (f_inp (g_s g)); [|discriminate]. destruct (g_got g); [|discriminate]. destruct (g_init g); [|discriminate].
      destruct (f_ended (g_s g)); [discriminate|]. injection ST as <-. unfold on_input_end. cbn.
      destruct (f_count (g_s g) =? 0)%N; [constructor; cbn; auto|]. destruct (f_count (g_s g) =? 1)%N; [|constructor; cbn; auto].
      destruct (cq_dequeue (f_asm (g_s g)) 0%N) as [[it|] q']; constructor; cbn; auto.
    - destruct (length (g_pubs g) <? lim); [|discriminate]. destruct (f_chan (g_s g)) as [|t c] eqn:C; [discriminate|]. injection ST as <-. constructor; cbn.
      + cbn [length] in P. destruct (g_parked g); cbn [length tl] in *; lia.
      + intros H. destruct (T H) as (X & _). discriminate X.
    - destruct (nth_error (g_pubs g) i) as [[t [|]]|] eqn:PN; try discriminate. injection ST as <-. constructor; cbn; auto.
      intros H. destruct (T H) as (_ & X & _). rewrite X in PN. destruct i; discriminate PN.
    - destruct (pick i (g_pubs g)) as [[[t a] r]|] eqn:PK; [|discriminate]. destruct ok; [destruct a; [|discriminate]|]; injection ST as <-; constructor; cbn; auto.
      intros H. destruct (T H) as (_ & X & _). rewrite X in PK. destruct i; discriminate PK.
    - unfold fold_step in ST; rewrite RN in ST; cbn in ST. destruct (pick i (f_tasks (g_s g))) as [[t ts]|] eqn:PK; [|discriminate]. injection ST as <-.
      constructor; cbn; auto. intros H. destruct (T H) as (_ & _ & X & _). rewrite X in PK. destruct i; discriminate PK.
    - destruct (2 <=? f_count (g_s g))%N eqn:TWO; [|discriminate]. destruct (length (g_taken g) + length (g_hands g) <? lim); [|discriminate]. cbn in ST.
      destruct (pick i (f_results (g_s g))) as [[x rs]|] eqn:PK; [|discriminate]. injection ST as <-. constructor; cbn; auto.
      apply N.leb_le in TWO. lia.
    - destruct (g_taken g) as [|x r] eqn:TK; [discriminate|].
      assert (TW : (f_count (g_s g) < 2)%N -> False) by (intros H; destruct (T H) as (_ & _ & _ & _ & X); discriminate X). destruct x as [it|x].
      + destruct (f_ended (g_s g) && is_final it (f_count (g_s g))); injection ST as <-; [constructor; cbn; auto; intros H; contradiction (TW H)|].
        rewrite try_dispatch_put. constructor.
        * cbn [g_parked g_s]. apply park_length; [apply disp_one|exact P].
        * cbn. intros H. contradiction (TW H).
      + injection ST as <-. constructor; cbn; auto. intros H; contradiction (TW H).
    - destruct (nth_error (g_hands g) i) as [[id it fin [|]]|]; try discriminate.
      destruct ok; [destruct fin; [destruct (f_final (g_s g))|]|]; injection ST as <-; constructor; cbn; auto.
    - destruct (pick i (g_hands g)) as [[[id it fin [|]] r]|]; try discriminate. destruct (waits id (g_parked g)); [discriminate|]. injection ST as <-. constructor; cbn; auto.
    - unfold fold_step in ST; rewrite RN in ST; cbn in ST. destruct (f_final (g_s g)); [|discriminate]. injection ST as <-. constructor; cbn; auto.
    - destruct e as [| |i ok|i o|i ack|ok|i|i|i|i]; try discriminate; unfold fold_step in ST; rewrite RN in ST; cbn in ST.
      + destruct (pick i (f_tasks (g_s g))) as [[t ts]|] eqn:PK; [|discriminate]. injection ST as <-. constructor; cbn; auto.
        intros H. destruct (T H) as (_ & _ & X & _). rewrite X in PK. destruct i; discriminate PK.
      + destruct (pick i (f_results (g_s g))) as [[x xs]|] eqn:PK; [|discriminate]. injection ST as <-. constructor; cbn; auto.
        intros H. destruct (T H) as (_ & _ & _ & X & _). rewrite X in PK. destruct i; discriminate PK.
      + destruct (nth_error (f_tasks (g_s g)) i) as [t|] eqn:PK; [|discriminate]. injection ST as <-. constructor; cbn; auto.
        intros H. destruct (T H) as (_ & _ & X & _). rewrite X in PK. destruct i; discriminate PK.
      + destruct (nth_error (f_results (g_s g)) i) as [x|] eqn:PK; [|discriminate]. injection ST as <-. constructor; cbn; auto.
        intros H. destruct (T H) as (_ & _ & _ & X & _). rewrite X in PK. destruct i; discriminate PK.
  Qed.

  Lemma stall_reach : forall inp tr g, g_run comb empty lim cap inp tr = Some g -> stall_inv g.
  Proof.
    intros inp tr g R. apply (run_from_inv _ _ _ stall_inv stall_step tr (g_start inp) g); [|exact R]. constructor; cbn; auto. 
  Qed.

  (** What the process of the fold and the broker do without failing: everything but the work of the workers. *)
  Definition own (e : g_event O) : Prop :=
    match e with
    | GPull | GInput | GInitDone _ | GInputEnd | GPublish | GAccept _ | GReply _ true | GTake _ | GResult | GAck _ true | GHandled _ | GFinal true => True
    | _ => False
    end.

  Lemma pick_head : forall (B : Type) (x : B) l, pick 0 (x :: l) = Some (x, l).
  Proof. reflexivity. Qed.

  Lemma stuck_waits : 1 <= lim -> forall g, stall_inv g -> f_ret (g_s g) = None -> (forall e, own e -> gstep g e = None) ->
    f_inp (g_s g) = [] /\ g_got g = [] /\ f_ended (g_s g) = true /\ g_init g = [] /\ f_chan (g_s g) = [] /\ g_pubs g = [] /\
    f_results (g_s g) = [] /\ g_taken g = [] /\ g_hands g = [] /\ f_final (g_s g) = None.
  Proof.
    intros L g [P T] RN ST.
    assert (PB : g_pubs g = []).
    { destruct (g_pubs g) as [|[t a] l] eqn:G; [reflexivity|]. destruct a.
      - specialize (ST (GReply 0 true) Logic.I). unfold g_step in ST. rewrite RN, G in ST. discriminate ST.
      - specialize (ST (GAccept 0) Logic.I). unfold g_step in ST. rewrite RN, G in ST. discriminate ST. }
    assert (CH : f_chan (g_s g) = []).
    { destruct (f_chan (g_s g)) as [|t c] eqn:G; [reflexivity|]. specialize (ST GPublish Logic.I). unfold g_step in ST. rewrite RN, PB, G in ST.
      cbn [length] in ST. rewrite (lim_ok lim L 0 eq_refl) in ST. discriminate ST. }
    assert (PK : g_parked g = []) by (rewrite CH in P; destruct (g_parked g); [reflexivity|discriminate P]).
    assert (GT : g_got g = []).
    { destruct (g_got g) eqn:G; [reflexivity|]. specialize (ST GInput Logic.I). unfold g_step in ST. rewrite RN, G in ST. discriminate ST. }
    assert (IN : g_init g = []).
    { destruct (g_init g) as [|id l] eqn:G; [reflexivity|]. specialize (ST (GInitDone 0) Logic.I). unfold g_step in ST. rewrite RN, G, PK in ST. discriminate ST. }
    assert (TK : g_taken g = []).
    { destruct (g_taken g) as [|x l] eqn:G; [reflexivity|]. specialize (ST GResult Logic.I). unfold g_step in ST. rewrite RN, G in ST.
      destruct x; [destruct (_ && _)|]; discriminate ST. }
    assert (HD : g_hands g = []).
    { destruct (g_hands g) as [|[id it fin [|]] l] eqn:G; [reflexivity| |].
      - specialize (ST (GHandled 0) Logic.I). unfold g_step in ST. rewrite RN, G, PK in ST. discriminate ST.
      - specialize (ST (GAck 0 true) Logic.I). unfold g_step in ST. rewrite RN, G in ST. cbn in ST. destruct fin; [destruct (f_final (g_s g))|]; discriminate ST. }
    assert (II : f_inp (g_s g) = []).
    { destruct (f_inp (g_s g)) as [|x l] eqn:G; [reflexivity|]. specialize (ST GPull Logic.I). unfold g_step in ST. rewrite RN, G, GT, IN in ST.
      cbn [length Nat.add] in ST. rewrite (lim_ok lim L 0 eq_refl) in ST. destruct x; discriminate ST. }
    assert (EN : f_ended (g_s g) = true).
    { specialize (ST GInputEnd Logic.I). unfold g_step in ST. rewrite RN, II, GT, IN in ST. destruct (f_ended (g_s g)); [reflexivity|discriminate ST]. }
    assert (RS : f_results (g_s g) = []).
    { destruct (f_results (g_s g)) as [|x l] eqn:G; [reflexivity|]. specialize (ST (GTake 0) Logic.I). unfold g_step in ST. rewrite RN, TK, HD, G in ST.
      cbn [length Nat.add] in ST. rewrite (lim_ok lim L 0 eq_refl) in ST. destruct (2 <=? f_count (g_s g))%N eqn:TW; [discriminate ST|].
      apply N.leb_gt in TW. destruct (T TW) as (_ & _ & _ & X & _). discriminate X. }
    assert (FN : f_final (g_s g) = None).
    { specialize (ST (GFinal true) Logic.I). unfold g_step in ST. rewrite RN in ST. unfold fold_step in ST. rewrite RN in ST. destruct (f_final (g_s g)); [discriminate ST|reflexivity]. }
    repeat split; assumption.
  Qed.

  (** *** Runs are finite unless the broker repeats messages *)
  Definition no_dup (e : g_event O) : Prop := match e with GEnv (EvDupTask _) | GEnv (EvDupResult _) => False | _ => True end.
  Definition wpubs (l : list (ftask A * bool)) : nat := list_sum (map (fun p : ftask A * bool => if snd p then 1 else 15) l).
  Definition whands (l : list (handler A)) : nat := list_sum (map (fun h : handler A => if hd_acked h then 1 else 2) l).
  Arguments wpubs : simpl never. Arguments whands : simpl never.
  Definition weight (g : fine A E) : nat :=
    11 * length (f_inp (g_s g)) + 10 * length (g_got g) + length (g_init g) + 8 * length (f_asm (g_s g)) + 16 * length (f_chan (g_s g)) + wpubs (g_pubs g) +
    13 * length (f_tasks (g_s g)) + 12 * length (f_results (g_s g)) + 11 * length (g_taken g) + whands (g_hands g) +
    (if f_ended (g_s g) then 0 else 1) + (if f_ret (g_s g) then 0 else 1).

  Lemma remove_length : forall (q : cqueue (item A)) k, length (smap_remove k q) <= length q.
  Proof. intros q k. induction q as [|[k' v'] q IH]; cbn; [lia|]. destruct (k =? k')%N; cbn; lia. Qed.
  Lemma remove_found : forall (q : cqueue (item A)) k v, In (k, v) q -> S (length (smap_remove k q)) = length q.
  Proof.
    intros q k v. induction q as [|[k' v'] q IH]; cbn; [tauto|]. intros [H|H].
    - injection H as -> ->. now rewrite N.eqb_refl.
    - destruct (k =? k')%N; cbn; [reflexivity|]. now rewrite (IH H).
  Qed.
  Lemma insert_length : forall (q : cqueue (item A)) k v, length (smap_insert k v q) <= S (length q).
  Proof. intros q k v. induction q as [|[k' v'] q IH]; cbn; [lia|]. destruct (k <? k')%N; [cbn; lia|]. destruct (k =? k')%N; cbn; lia. Qed.
  Lemma first_ge_in : forall (q : cqueue (item A)) k e, smap_first_ge k q = Some e -> In e q.
  Proof. intros q k e. induction q as [|[k' v'] q IH]; cbn; [discriminate|]. destruct (k <=? k')%N; [intros H; injection H as <-; now left|intros H; right; auto]. Qed.
  Lemma last_lt_in : forall (q : cqueue (item A)) k e, smap_last_lt k q = Some e -> In e q.
  Proof.
    intros q k. induction q as [|[k' v'] q IH]; cbn; intros e; [discriminate|]. destruct (k' <? k)%N; [|discriminate].
    destruct (smap_last_lt k q) as [e'|]; intros H; injection H as <-; [right; now apply IH|now left].
  Qed.
  Lemma disp_weight : forall (q : cqueue (item A)) it, 8 * length (snd (disp A q it)) + 16 * length (fst (disp A q it)) <= 8 * length q + 8.
  Proof.
    intros q it. unfold disp, cq_acquire, find_contiguous.
    assert (F : forall k v, In (k, v) q -> S (length (smap_remove k q)) = length q) by (intros; eapply remove_found; eauto).
    assert (N : 8 * length (cq_queue item_key q it) <= 8 * length q + 8) by (unfold cq_queue; pose proof (insert_length q (item_key it) it); lia).
    destruct (smap_first_ge (item_key it) q) as [[k v]|] eqn:FG.
    - destruct (is_contiguous it v); [cbn [fst snd length]; pose proof (F k v (first_ge_in _ _ _ FG)); lia|].
      destruct (smap_last_lt (item_key it) q) as [[k' v']|] eqn:LL; [|cbn [fst snd length]; lia].
      destruct (is_contiguous it v'); [cbn [fst snd length]; pose proof (F k' v' (last_lt_in _ _ _ LL)); lia|cbn [fst snd length]; lia].
    - destruct (smap_last_lt (item_key it) q) as [[k' v']|] eqn:LL; [|cbn [fst snd length]; lia].
      destruct (is_contiguous it v'); [cbn [fst snd length]; pose proof (F k' v' (last_lt_in _ _ _ LL)); lia|cbn [fst snd length]; lia].
  Qed.
  Lemma disp_in_weight : forall c (q : cqueue (item A)) it, 8 * length (snd (disp_in A c q it)) + 16 * length (fst (disp_in A c q it)) <= 8 * length q + 8.
  Proof.
    intros c q it. unfold disp_in. destruct (c + 1 <? 2)%N; [|apply disp_weight]. cbn [fst snd length]. unfold cq_queue.
    pose proof (insert_length q (item_key (mkItem (fst it) (fst it) (snd it))) (mkItem (fst it) (fst it) (snd it))). lia.
  Qed.
  Lemma sum_perm : forall (B : Type) (f : B -> nat) l l', Permutation l l' -> list_sum (map f l) = list_sum (map f l').
  Proof. intros B f l l' P. unfold list_sum. induction P; cbn; lia. Qed.
  Lemma sum_app : forall (B : Type) (f : B -> nat) l x, list_sum (map f (l ++ [x])) = list_sum (map f l) + f x.
  Proof. intros B f l x. rewrite map_app, list_sum_app. cbn [map list_sum fold_right]. lia. Qed.

  Lemma weight_step : forall g e g', no_dup e -> gstep g e = Some g' -> S (weight g') <= weight g.
  Proof.
    intros g e g' ND ST. unfold g_step in ST. destruct (f_ret (g_s g)) eqn:RN; [discriminate|]. unfold weight. rewrite RN.
    destruct e as [| |i| | |i|i ok|i o|i| |i ok|i|ok|e].
    - destruct (length (g_got g) + length (g_init g) <? lim); [|discriminate].
      destruct (f_inp (g_s g)) as [|[it|x] r]; [discriminate| |]; injection ST as <-; cbn -[Nat.mul]; rewrite ?RN, ?app_length; cbn [length]; lia.
    - destruct (g_got g) as [|it r]; [discriminate|]. injection ST as <-. rewrite on_input_put. cbn -[Nat.mul]. rewrite RN, app_length.
      pose proof (disp_in_weight (f_count (g_s g)) (f_asm (g_s g)) it) as W. cbn [length].
      destruct (waits _ _); rewrite ?app_length; cbn [length]; lia.
    - destruct (pick i (g_init g)) as [[id r]|] eqn:PK; [|discriminate]. destruct (waits id (g_parked g)); [discriminate|]. injection ST as <-. cbn -[Nat.mul]. rewrite RN.
      rewrite (pick_length _ _ _ _ _ PK). lia.
    - destruct (f_inp (g_s g)) eqn:I1; [|discriminate]. destruct (g_got g) eqn:I2; [|discriminate]. destruct (g_init g) eqn:I3; [|discriminate].
      destruct (f_ended (g_s g)) eqn:EN; [discriminate|]. injection ST as <-. unfold on_input_end. cbn -[Nat.mul cq_dequeue]. rewrite I2, I3.
      destruct (f_count (g_s g) =? 0)%N; [cbn -[Nat.mul]; rewrite I1; cbn [length]; lia|]. destruct (f_count (g_s g) =? 1)%N; [|cbn -[Nat.mul]; rewrite RN, I1; cbn [length]; lia].
      unfold cq_dequeue. destruct (smap_get 0%N (f_asm (g_s g))); cbn -[Nat.mul smap_remove]; rewrite I1; cbn [length]; [pose proof (remove_length (f_asm (g_s g)) 0%N)|]; lia.
    - destruct (length (g_pubs g) <? lim); [|discriminate]. destruct (f_chan (g_s g)) as [|t c]; [discriminate|]. injection ST as <-. cbn -[Nat.mul wpubs]. rewrite RN.
      unfold wpubs at 1. rewrite sum_app. fold (wpubs (g_pubs g)). cbn [snd]. lia.
    - destruct (nth_error (g_pubs g) i) as [[t [|]]|] eqn:PN; try discriminate. injection ST as <-. cbn -[Nat.mul wpubs]. rewrite RN, app_length. cbn [length].
      destruct (upd_pick_perm _ i (g_pubs g) (t, false) (t, true) PN) as (r & P1 & P2). unfold wpubs. rewrite (sum_perm _ _ _ _ P1), (sum_perm _ _ _ _ P2).
      cbn [map list_sum fold_right snd]. lia.
    - destruct (pick i (g_pubs g)) as [[[t a] r]|] eqn:PK; [|discriminate]. destruct ok; [destruct a; [|discriminate]|]; injection ST as <-; cbn -[Nat.mul wpubs]; rewrite ?RN; [|lia].
      assert (W : wpubs (g_pubs g) = S (wpubs r)) by (unfold wpubs; rewrite (sum_perm _ _ _ _ (pick_perm _ _ _ _ _ PK)); reflexivity). lia.
    - unfold fold_step in ST; rewrite RN in ST; cbn in ST. destruct (pick i (f_tasks (g_s g))) as [[t ts]|] eqn:PK; [|discriminate]. injection ST as <-.
      cbn -[Nat.mul]. rewrite RN, app_length, (pick_length _ _ _ _ _ PK). cbn [length]. lia.
    - destruct (2 <=? f_count (g_s g))%N; [|discriminate]. destruct (length (g_taken g) + length (g_hands g) <? lim); [|discriminate]. cbn in ST.
      destruct (pick i (f_results (g_s g))) as [[x rs]|] eqn:PK; [|discriminate]. injection ST as <-. cbn -[Nat.mul]. rewrite RN, app_length, (pick_length _ _ _ _ _ PK). cbn [length]. lia.
    - destruct (g_taken g) as [|[it|x] r] eqn:TK; [discriminate| |].
      + destruct (f_ended (g_s g) && is_final it (f_count (g_s g))); injection ST as <-.
        * cbn -[Nat.mul whands]. rewrite RN. unfold whands at 1. rewrite sum_app. fold (whands (g_hands g)). cbn [hd_acked]. lia.
        * rewrite try_dispatch_put. cbn -[Nat.mul whands]. rewrite RN, app_length. unfold whands at 1. rewrite sum_app. fold (whands (g_hands g)). cbn [hd_acked].
          pose proof (disp_weight (f_asm (g_s g)) it). lia.
      + injection ST as <-. cbn -[Nat.mul]. rewrite TK. cbn [length]. lia.
    - destruct (nth_error (g_hands g) i) as [[id it fin [|]]|] eqn:PN; try discriminate.
      destruct (upd_pick_perm _ i (g_hands g) _ (mkHd id it fin true) PN) as (r & P1 & P2).
      assert (W : S (whands (upd i (mkHd id it fin true) (g_hands g))) = whands (g_hands g)).
      { unfold whands. rewrite (sum_perm _ _ _ _ P1), (sum_perm _ _ _ _ P2). reflexivity. }
      destruct ok; [destruct fin; [destruct (f_final (g_s g))|]|]; injection ST as <-; cbn -[Nat.mul whands upd]; rewrite ?RN; lia.
    - destruct (pick i (g_hands g)) as [[[id it fin [|]] r]|] eqn:PK; try discriminate. destruct (waits id (g_parked g)); [discriminate|]. injection ST as <-.
      assert (W : S (whands r) = whands (g_hands g)) by (unfold whands; rewrite (sum_perm _ _ _ _ (pick_perm _ _ _ _ _ PK)); reflexivity).
      cbn -[Nat.mul whands]. rewrite RN. lia.
    - unfold fold_step in ST; rewrite RN in ST; cbn in ST. destruct (f_final (g_s g)); [|discriminate]. injection ST as <-. cbn -[Nat.mul]. lia.
    - destruct e as [| |i ok|i o|i ack|ok|i|i|i|i]; try discriminate; try contradiction; unfold fold_step in ST; rewrite RN in ST; cbn in ST.
      + destruct (pick i (f_tasks (g_s g))) as [[t ts]|] eqn:PK; [|discriminate]. injection ST as <-. cbn -[Nat.mul]. rewrite RN, (pick_length _ _ _ _ _ PK). lia.
      + destruct (pick i (f_results (g_s g))) as [[x xs]|] eqn:PK; [|discriminate]. injection ST as <-. cbn -[Nat.mul]. rewrite RN, (pick_length _ _ _ _ _ PK). lia.
  Qed.

  Lemma weight_run : forall tr g g', Forall no_dup tr -> run_from gstep g tr = Some g' -> length tr + weight g' <= weight g.
  Proof.
    induction tr as [|e tr IH]; intros g g' F R; cbn in R; [injection R as <-; cbn; lia|].
    destruct (gstep g e) as [g1|] eqn:ST; [|discriminate]. inversion F as [|? ? F1 F2]; subst. pose proof (weight_step _ _ _ F1 ST). specialize (IH _ _ F2 R). cbn [length]. lia.
  Qed.
End Stall.
