(** Lemmas for C87: the fold with suspension points and the fold of FoldModel have the same outcomes. *)
From Coq Require Import List Arith NArith Bool Lia Permutation.
From Verif Require Import Base BaseFacts ContiguousModel FoldModel FoldFineModel.
Import ListNotations.
Open Scope nat_scope.

Lemma perm_pick : forall (B : Type) (l : list B) x r, Permutation l (x :: r) -> exists i r', pick i l = Some (x, r') /\ Permutation r r'.
Proof.
  intros B l x r P. assert (I : In x l) by (eapply Permutation_in; [apply Permutation_sym; exact P|now left]).
  apply in_split in I. destruct I as (a & b & ->). exists (length a), (a ++ b). split.
  - clear P. induction a as [|y a IH]; cbn; [reflexivity|]. rewrite IH. reflexivity.
  - apply (Permutation_cons_inv (a := x)). etransitivity; [apply Permutation_sym; exact P|]. apply Permutation_sym. apply Permutation_middle.
Qed.
Lemma upd_pick_perm : forall (B : Type) i (l : list B) x y, nth_error l i = Some x -> exists r, Permutation l (x :: r) /\ Permutation (upd i y l) (y :: r).
Proof.
  intros B i l x y H. destruct (upd_split B i l x H) as (a & b & -> & _ & U). exists (a ++ b). rewrite U.
  split; apply Permutation_sym; apply Permutation_middle.
Qed.
Lemma filter_perm : forall (B : Type) (f : B -> bool) l l', Permutation l l' -> Permutation (filter f l) (filter f l').
Proof.
  intros B f l l' P. induction P; cbn; auto.
  - destruct (f x); auto.
  - destruct (f x), (f y); auto. apply perm_swap.
  - etransitivity; eauto.
Qed.

Section Sim.
  Variables A E O : Type.
  Variable comb : O -> A -> A -> res E A.
  Variable empty : A.
  Variables lim cap : nat.
  Variable inp0 : list (res E (N * A)).

  (** What [try_dispatch] and [on_input] do, as a function of the assembler alone. *)
  Definition disp (q : cqueue (item A)) (it : item A) : list (ftask A) * cqueue (item A) :=
    match cq_acquire item_key is_contiguous q it with
    | (Some (l, r), q') => ([mkTask (it_lo l) (it_hi r) (it_val l) (it_val r)], q')
    | (None, q') => ([], q')
    end.
  Definition disp_in (c : N) (q : cqueue (item A)) (it : N * A) : list (ftask A) * cqueue (item A) :=
    let x := mkItem (fst it) (fst it) (snd it) in if (c + 1 <? 2)%N then ([], cq_queue item_key q x) else disp q x.
  Definition put (s : fstate A E) (c : N) (d : list (ftask A) * cqueue (item A)) : fstate A E :=
    mkF (f_inp s) (f_ended s) c (snd d) (f_chan s ++ fst d) (f_tasks s) (f_results s) (f_final s) (f_ret s) (f_disp s + length (fst d)).
  Lemma try_dispatch_put : forall s it, try_dispatch s it = put s (f_count s) (disp (f_asm s) it).
  Proof.
    intros s it. unfold try_dispatch, put, disp. destruct (cq_acquire item_key is_contiguous (f_asm s) it) as [[[l r]|] q']; cbn.
    - now rewrite Nat.add_1_r.
    - now rewrite app_nil_r, Nat.add_0_r.
  Qed.
  Lemma on_input_put : forall s it, on_input s it = put s (f_count s + 1) (disp_in (f_count s) (f_asm s) it).
  Proof.
    intros s it. unfold on_input, disp_in. destruct (f_count s + 1 <? 2)%N.
    - unfold put, set_asm, set_count. cbn. now rewrite app_nil_r, Nat.add_0_r.
    - rewrite try_dispatch_put. reflexivity.
  Qed.
  Lemma disp_one : forall q it, fst (disp q it) = [] \/ exists t, fst (disp q it) = [t].
  Proof. intros q it. unfold disp. destruct (cq_acquire item_key is_contiguous q it) as [[[l r]|] q']; cbn; eauto. Qed.
  Lemma disp_in_one : forall c q it, fst (disp_in c q it) = [] \/ exists t, fst (disp_in c q it) = [t].
  Proof. intros c q it. unfold disp_in. destruct (c + 1 <? 2)%N; [now left|apply disp_one]. Qed.

  (** May the broker lose and repeat messages? *)
  Variable env : bool.
  Definition okc (e : fevent O) : Prop := env = true \/ nofault e = true.
  Definition okg (e : g_event O) : Prop := env = true \/ match e with GEnv _ => False | _ => True end.
  Definition reach (s : fstate A E) : Prop := exists tr, fold_run comb empty inp0 tr = Some s /\ Forall okc tr.
  Definition can (r : foutcome A E) : Prop := exists tr s, fold_run comb empty inp0 tr = Some s /\ f_ret s = Some r.
  Definition greach (g : fine A E) : Prop := exists tr, g_run comb empty lim cap inp0 tr = Some g.
  Definition gcan (r : foutcome A E) : Prop := exists tr g, g_run comb empty lim cap inp0 tr = Some g /\ f_ret (g_s g) = Some r.

  Lemma reach_step : forall s e s', reach s -> okc e -> fold_step comb empty s e = Some s' -> reach s'.
  Proof.
    intros s e s' (tr & R & F) OK ST. exists (tr ++ [e]). split.
    - apply run_from_app. exists s. split; [exact R|]. cbn. now rewrite ST.
    - apply Forall_app. split; [exact F|]. now constructor.
  Qed.
  Lemma reach_can : forall s r, reach s -> f_ret s = Some r -> can r.
  Proof. intros s r (tr & R & _) H. exists tr, s. auto. Qed.
  Lemma step_can : forall s e s' r, reach s -> fold_step comb empty s e = Some s' -> f_ret s' = Some r -> can r.
  Proof.
    intros s e s' r (tr & R & _) ST H. exists (tr ++ [e]), s'. split; [|exact H]. apply run_from_app. exists s. split; [exact R|]. cbn. now rewrite ST.
  Qed.
  Lemma greach_step : forall g e g', greach g -> g_step comb empty lim cap g e = Some g' -> greach g'.
  Proof.
    intros s e s' (tr & R) ST. exists (tr ++ [e]). apply run_from_app. exists s. split; [exact R|]. cbn. now rewrite ST.
  Qed.
  Lemma greach_can : forall g r, greach g -> f_ret (g_s g) = Some r -> gcan r.
  Proof. intros s r (tr & R) H. exists tr, s. auto. Qed.

  (** *** From the suspension points to FoldModel *)
  Definition unacc (l : list (ftask A * bool)) : list (ftask A) := map fst (filter (fun p => negb (snd p)) l).
  Definition pend (h : handler A) : bool := hd_final h && negb (hd_acked h).
  Definition finals (l : list (handler A)) : list (res E (item A)) := map (fun h => ROk (hd_item h)) (filter pend l).

  Arguments unacc : simpl never. Arguments finals : simpl never. Arguments pend : simpl never.

  Record sim (g : fine A E) (s : fstate A E) : Prop := mkSim {
    m_inp : f_inp s = map (fun it => ROk it) (g_got g) ++ f_inp (g_s g);
    m_ended : f_ended s = f_ended (g_s g);
    m_count : f_count s = f_count (g_s g);
    m_asm : f_asm s = f_asm (g_s g);
    m_final : f_final s = f_final (g_s g);
    m_ret : f_ret s = None;
    m_chan : Permutation (f_chan s) (f_chan (g_s g) ++ unacc (g_pubs g));
    m_tasks : Permutation (f_tasks s) (f_tasks (g_s g));
    m_results : Permutation (f_results s) (f_results (g_s g) ++ g_taken g ++ finals (g_hands g));
    m_fin : forall h, In h (g_hands g) -> pend h = true -> f_ended (g_s g) && is_final (hd_item h) (f_count (g_s g)) = true;
    m_stop : f_ended (g_s g) = true -> f_inp (g_s g) = [] /\ g_got g = [];
    m_init : f_ended (g_s g) = true -> g_init g = [];
    m_disp : f_disp s = f_disp (g_s g);
    m_two : g_taken g <> [] \/ g_hands g <> [] -> (2 <= f_count (g_s g))%N
  }.
  Definition J (g : fine A E) : Prop :=
    match f_ret (g_s g) with
    | Some r => can r
    | None => (exists s, reach s /\ sim g s) /\ ((exists h, In h (g_hands g) /\ hd_final h = false) -> can (RetErr ErrAck)) /\
              (g_pubs g <> [] -> can (RetErr ErrPublish))
    end.

  Lemma input_error_can : forall got s x r, reach s -> f_ret s = None -> f_inp s = map (fun it => ROk it) got ++ RErr x :: r -> can (RetErr (ErrInput x)).
  Proof.
    induction got as [|it got IH]; intros s x r R N I.
    - apply (step_can s EvInput (f_return (set_inp s r) (RetErr (ErrInput x)))); [exact R| |reflexivity].
      unfold fold_step. rewrite N, I. reflexivity.
    - apply (IH (on_input (set_inp s (map (fun it => ROk it) got ++ RErr x :: r)) it) x r).
      + apply (reach_step s EvInput); [exact R|now right|]. unfold fold_step. rewrite N, I. reflexivity.
      + rewrite on_input_put. exact N.
      + rewrite on_input_put. reflexivity.
  Qed.

  Lemma unacc_app : forall l t, unacc (l ++ [(t, false)]) = unacc l ++ [t].
  Proof. intros l t. unfold unacc. rewrite filter_app, map_app. reflexivity. Qed.
  Lemma unacc_perm : forall l l', Permutation l l' -> Permutation (unacc l) (unacc l').
  Proof. intros l l' P. unfold unacc. apply Permutation_map. now apply filter_perm. Qed.
  Lemma finals_perm : forall l l', Permutation l l' -> Permutation (finals l) (finals l').
  Proof. intros l l' P. unfold finals. apply Permutation_map. now apply filter_perm. Qed.
  Lemma finals_app : forall l h, finals (l ++ [h]) = finals l ++ (if pend h then [ROk (hd_item h)] else []).
  Proof. intros l h. unfold finals. rewrite filter_app, map_app. cbn. destruct (pend h); reflexivity. Qed.

  Lemma J_start : J (g_start inp0).
  Proof.
    unfold J. cbn. split.
    - exists (fold_init inp0). split; [exists []; split; [reflexivity|constructor]|].
      constructor; cbn; auto; try (intros; contradiction); try discriminate. intros [H|H]; congruence.
    - split; [intros (h & [] & _)|congruence].
  Qed.

  Lemma J_step : forall g e g', okg e -> J g -> g_step comb empty lim cap g e = Some g' -> J g'.
  Proof.
    intros g e g' OKG HJ ST. unfold g_step in ST. unfold J in HJ. destruct (f_ret (g_s g)) eqn:RN; [discriminate|].
    destruct HJ as ((s & R & M) & CA & CP). pose proof (m_ret _ _ M) as RS.
    destruct e as [| |i| | |i|i ok|i o|i| |i ok|i|ok|e].
    - (* GPull *)
      destruct (length (g_got g) + length (g_init g) <? lim); [|discriminate].
      destruct (f_inp (g_s g)) as [|[it|x] r] eqn:I; [discriminate| |]; injection ST as <-; unfold J; cbn.
      + rewrite RN. split; [|auto]. exists s. split; [exact R|]. destruct M. constructor; cbn; auto.
        * rewrite m_inp0, I, map_app, <- app_assoc. reflexivity.
        * intros H. destruct (m_stop0 H) as [H1 _]. congruence.
      + apply (input_error_can (g_got g) s x r R RS). now rewrite (m_inp _ _ M), I.
    - (* GInput *)
      destruct (g_got g) as [|it r] eqn:G; [discriminate|]. injection ST as <-. unfold J. cbn. rewrite on_input_put. cbn. rewrite RN. split; [|auto].
      exists (on_input (set_inp s (map (fun it => ROk it) r ++ f_inp (g_s g))) it). split.
      + apply (reach_step s EvInput); [exact R|now right|]. unfold fold_step. rewrite RS, (m_inp _ _ M), G. reflexivity.
      + rewrite on_input_put. destruct M. constructor; cbn; auto; rewrite ?m_count0, ?m_asm0; auto.
        * rewrite m_chan0, <- !app_assoc. apply Permutation_app_head. apply Permutation_app_comm.
        * intros h H1 H2. pose proof (m_fin0 h H1 H2) as H3. apply andb_true_iff in H3. destruct H3 as [H3 _]. destruct (m_stop0 H3) as [_ H4]. congruence.
        * intros H. destruct (m_stop0 H) as [_ H4]. congruence.
        * intros H. destruct (m_stop0 H) as [_ H4]. congruence.
        * intros H. specialize (m_two0 H). lia.
    - (* GInitDone *)
      destruct (pick i (g_init g)) as [[id r]|] eqn:PI; [|discriminate]. destruct (waits id (g_parked g)); [discriminate|]. injection ST as <-. unfold J. cbn. rewrite RN.
      split; [|auto]. exists s. split; [exact R|]. destruct M. constructor; auto. cbn. intros H. rewrite (m_init0 H) in PI. destruct i; discriminate PI.
    - (* GInputEnd *)
      destruct (f_inp (g_s g)) eqn:I; [|discriminate]. destruct (g_got g) eqn:G; [|discriminate]. destruct (g_init g) eqn:GI; [|discriminate].
      destruct (f_ended (g_s g)) eqn:EN; [discriminate|]. injection ST as <-. unfold J. cbn.
      assert (RE : reach (on_input_end empty s)).
      { apply (reach_step s EvInputEnd); [exact R|now right|]. unfold fold_step. rewrite RS, (m_inp _ _ M), G, I, (m_ended _ _ M), EN. reflexivity. }
      unfold on_input_end in *. cbn in *. rewrite (m_count _ _ M), (m_asm _ _ M) in RE.
      destruct (f_count (g_s g) =? 0)%N; [exact (reach_can _ _ RE eq_refl)|].
      destruct (f_count (g_s g) =? 1)%N.
      + destruct (cq_dequeue (f_asm (g_s g)) 0%N) as [[it|] q']; exact (reach_can _ _ RE eq_refl).
      + cbn. rewrite RN. split; [|auto]. eexists. split; [exact RE|]. destruct M. constructor; cbn; auto.
        intros h H1 H2. pose proof (m_fin0 h H1 H2) as H3. rewrite EN in H3. discriminate H3.
    - (* GPublish *)
      destruct (length (g_pubs g) <? lim); [|discriminate]. destruct (f_chan (g_s g)) as [|t c] eqn:C; [discriminate|]. injection ST as <-.
      unfold J. cbn. rewrite RN. split; [|split; [auto|intros _]].
      + exists s. split; [exact R|]. destruct M. constructor; cbn; auto. rewrite m_chan0, C, unacc_app. cbn.
        rewrite app_assoc. apply Permutation_cons_append.
      + assert (P : Permutation (f_chan s) (t :: c ++ unacc (g_pubs g))) by (rewrite (m_chan _ _ M), C; reflexivity).
        destruct (perm_pick _ _ _ _ P) as (i & c' & PK & _).
        apply (step_can s (EvPublish i false) (f_return (set_chan s c') (RetErr ErrPublish))); [exact R| |reflexivity].
        unfold fold_step. rewrite RS, PK. reflexivity.
    - (* GAccept *)
      destruct (nth_error (g_pubs g) i) as [[t [|]]|] eqn:PN; try discriminate. injection ST as <-. unfold J. cbn. rewrite RN.
      destruct (upd_pick_perm _ i (g_pubs g) (t, false) (t, true) PN) as (r & P1 & P2).
      split; [|split; [auto|intros _; apply CP; intros H; rewrite H in PN; destruct i; discriminate PN]].
      assert (P : Permutation (f_chan s) (t :: f_chan (g_s g) ++ unacc r)).
      { rewrite (m_chan _ _ M), (unacc_perm _ _ P1). unfold unacc. cbn. apply Permutation_sym, Permutation_middle. }
      destruct (perm_pick _ _ _ _ P) as (k & c' & PK & PC).
      exists (set_tasks (set_chan s c') (f_tasks s ++ [t])). split.
      + apply (reach_step s (EvPublish k true)); [exact R|now right|]. unfold fold_step. rewrite RS, PK. reflexivity.
      + destruct M. constructor; cbn; auto.
        * rewrite <- PC. apply Permutation_app_head. rewrite (unacc_perm _ _ P2). reflexivity.
        * now apply Permutation_app_tail.
    - (* GReply *)
      destruct (pick i (g_pubs g)) as [[[t a] r]|] eqn:PK; [|discriminate]. pose proof (pick_perm _ _ _ _ _ PK) as P.
      assert (NE : g_pubs g <> []) by (intros H; rewrite H in PK; destruct i; discriminate PK).
      destruct ok.
      + destruct a; [|discriminate]. injection ST as <-. unfold J. cbn. rewrite RN. split; [|auto].
        exists s. split; [exact R|]. destruct M. constructor; cbn; auto. rewrite m_chan0, (unacc_perm _ _ P). reflexivity.
      + injection ST as <-. unfold J. cbn. exact (CP NE).
    - (* GWork *)
      unfold fold_step in ST; rewrite RN in ST; cbn in ST. destruct (pick i (f_tasks (g_s g))) as [[t ts]|] eqn:PK; [|discriminate]. injection ST as <-. unfold J. cbn. rewrite RN. split; [|auto].
      assert (P : Permutation (f_tasks s) (t :: ts)) by (rewrite (m_tasks _ _ M); exact (pick_perm _ _ _ _ _ PK)).
      destruct (perm_pick _ _ _ _ P) as (k & ts' & PK' & PT).
      eexists. split.
      + apply (reach_step s (EvWork k o)); [exact R|now right|]. unfold fold_step. rewrite RS, PK'. reflexivity.
      + destruct M. constructor; cbn; auto; [now apply Permutation_sym|].
        rewrite m_results0, <- !app_assoc. apply Permutation_app_head. rewrite app_assoc. apply Permutation_app_comm.
    - (* GTake *)
      destruct (2 <=? f_count (g_s g))%N eqn:TWO; [|discriminate]. destruct (length (g_taken g) + length (g_hands g) <? lim); [|discriminate]. cbn in ST.
      destruct (pick i (f_results (g_s g))) as [[x rs]|] eqn:PK; [|discriminate]. injection ST as <-. unfold J. cbn. rewrite RN. split; [|auto].
      exists s. split; [exact R|]. destruct M. constructor; cbn; auto.
      + rewrite m_results0, (pick_perm _ _ _ _ _ PK), <- app_assoc. cbn. rewrite app_assoc. etransitivity; [apply Permutation_middle|].
        rewrite <- app_assoc. apply Permutation_app_head. reflexivity.
      + intros _. apply N.leb_le in TWO. lia.
    - (* GResult *)
      destruct (g_taken g) as [|[it|x] r] eqn:T; [discriminate| |].
      + assert (TWO : (2 <=? f_count s)%N = true) by (apply N.leb_le; rewrite (m_count _ _ M); apply (m_two _ _ M); left; rewrite T; discriminate).
        destruct (f_ended (g_s g) && is_final it (f_count (g_s g))) eqn:FI.
        * injection ST as <-. unfold J. cbn. rewrite RN. split; [|split; [|auto]].
          -- exists s. split; [exact R|]. destruct M. constructor; cbn; auto.
             ++ rewrite m_results0, finals_app, T. cbn. apply Permutation_app_head. rewrite app_assoc. apply Permutation_cons_append.
             ++ intros h H. apply in_app_or in H. destruct H as [H|[<-|[]]]; [auto|]. intros _. exact FI.
             ++ intros _. apply m_two0. left. rewrite T. discriminate.
          -- intros (h & H & HF). apply in_app_or in H. destruct H as [H|[<-|[]]]; [|discriminate HF]. apply CA. now exists h.
        * injection ST as <-. rewrite try_dispatch_put. unfold J. cbn. rewrite RN.
          assert (P : Permutation (f_results s) (ROk it :: f_results (g_s g) ++ r ++ finals (g_hands g))).
          { rewrite (m_results _ _ M), T. cbn. apply Permutation_sym, Permutation_middle. }
          destruct (perm_pick _ _ _ _ P) as (k & rs & PK & PR).
          split; [|split; [intros _|auto]].
          -- exists (try_dispatch (set_results s rs) it). split.
             ++ apply (reach_step s (EvResult k true)); [exact R|now right|]. unfold fold_step. rewrite RS, TWO, PK. unfold on_result. cbn.
                rewrite (m_ended _ _ M), (m_count _ _ M), FI. reflexivity.
             ++ rewrite try_dispatch_put. destruct M. constructor; cbn; auto; rewrite ?m_asm0; auto.
                ** rewrite m_chan0, <- !app_assoc. apply Permutation_app_head. apply Permutation_app_comm.
                ** rewrite <- PR, finals_app. cbn. now rewrite app_nil_r.
                ** intros h H. apply in_app_or in H. destruct H as [H|[<-|[]]]; [auto|]. cbn. discriminate.
                ** intros _. apply m_two0. left. rewrite T. discriminate.
          -- apply (step_can s (EvResult k false) (f_return (try_dispatch (set_results s rs) it) (RetErr ErrAck))); [exact R| |reflexivity]. unfold fold_step. rewrite RS, TWO, PK. unfold on_result. cbn.
             rewrite (m_ended _ _ M), (m_count _ _ M), FI. reflexivity.
      + injection ST as <-. unfold J. cbn.
        assert (TWO : (2 <=? f_count s)%N = true) by (apply N.leb_le; rewrite (m_count _ _ M); apply (m_two _ _ M); left; rewrite T; discriminate).
        assert (P : Permutation (f_results s) (RErr x :: f_results (g_s g) ++ r ++ finals (g_hands g))).
        { rewrite (m_results _ _ M), T. cbn. apply Permutation_sym, Permutation_middle. }
        destruct (perm_pick _ _ _ _ P) as (k & rs & PK & PR).
        apply (step_can s (EvResult k true) (f_return (set_results s rs) (RetErr (ErrWorker x)))); [exact R| |reflexivity]. unfold fold_step. rewrite RS, TWO, PK. reflexivity.
    - (* GAck *)
      destruct (nth_error (g_hands g) i) as [[id it fin [|]]|] eqn:HN; try discriminate.
      destruct (upd_pick_perm _ i (g_hands g) _ (mkHd id it fin true) HN) as (rest & P1 & P2).
      assert (IN : In (mkHd id it fin false) (g_hands g)) by (now apply nth_error_In in HN).
      assert (NE : g_hands g <> []) by (intros H; rewrite H in IN; destruct IN).
      assert (TWO : (2 <=? f_count s)%N = true) by (apply N.leb_le; rewrite (m_count _ _ M); apply (m_two _ _ M); now right).
      assert (OLD : forall h, In h (upd i (mkHd id it fin true) (g_hands g)) -> h = mkHd id it fin true \/ In h (g_hands g)) by (intros h; apply nth_In_upd).
      destruct fin.
      + assert (FI : f_ended (g_s g) && is_final it (f_count (g_s g)) = true) by exact (m_fin _ _ M _ IN eq_refl).
        assert (P : Permutation (f_results s) (ROk it :: f_results (g_s g) ++ g_taken g ++ finals rest)).
        { rewrite (m_results _ _ M), (finals_perm _ _ P1). unfold finals. cbn. rewrite !app_assoc. apply Permutation_sym, Permutation_middle. }
        destruct (perm_pick _ _ _ _ P) as (k & rs & PK & PR). destruct ok.
        * assert (RE : reach (match f_final s with None => set_final (set_results s rs) (Some it) | Some _ => f_return (set_results s rs) (RetErr ErrTxTaken) end)).
          { apply (reach_step s (EvResult k true)); [exact R|now right|]. unfold fold_step. rewrite RS, TWO, PK. unfold on_result. cbn.
            rewrite (m_ended _ _ M), (m_count _ _ M), FI. destruct (f_final s); reflexivity. }
          rewrite (m_final _ _ M) in RE. destruct (f_final (g_s g)); injection ST as <-; unfold J; cbn.
          -- exact (reach_can _ _ RE eq_refl).
          -- rewrite RN. split; [|split; [|auto]].
             ++ eexists. split; [exact RE|]. destruct M. constructor; cbn; auto.
                ** rewrite <- PR, (finals_perm _ _ P2). reflexivity.
                ** intros h H PH. destruct (OLD h H) as [->|H']; [discriminate PH|auto].
             ++ intros (h & H & HF). destruct (OLD h H) as [->|H']; [discriminate HF|]. apply CA. now exists h.
        * injection ST as <-. unfold J. cbn. apply (step_can s (EvResult k false) (f_return (set_results s rs) (RetErr ErrAck))); [exact R| |reflexivity]. unfold fold_step. rewrite RS, TWO, PK. unfold on_result. cbn.
          rewrite (m_ended _ _ M), (m_count _ _ M), FI. reflexivity.
      + assert (CE : can (RetErr ErrAck)) by (apply CA; now exists (mkHd id it false false)).
        destruct ok; injection ST as <-; unfold J; cbn; [|exact CE]. rewrite RN. split; [|auto].
        exists s. split; [exact R|]. destruct M. constructor; cbn; auto.
        * rewrite m_results0, (finals_perm _ _ P1), (finals_perm _ _ P2). reflexivity.
        * intros h H PH. destruct (OLD h H) as [->|H']; [discriminate PH|auto].
    - (* GHandled *)
      destruct (pick i (g_hands g)) as [[[id it fin [|]] r]|] eqn:PK; try discriminate. destruct (waits id (g_parked g)); [discriminate|]. injection ST as <-.
      pose proof (pick_perm _ _ _ _ _ PK) as P.
      assert (IN : forall h, In h r -> In h (g_hands g)) by (intros h H; eapply pick_in_rest; eauto).
      unfold J. cbn. rewrite RN. split; [|split; [|auto]].
      + exists s. split; [exact R|]. destruct M. constructor; cbn; auto.
        * rewrite m_results0, (finals_perm _ _ P). unfold finals at 1. cbn. unfold pend at 1. cbn. rewrite andb_false_r. reflexivity.
        * intros [H|H]; [auto|]. apply m_two0. right. intros H2. rewrite H2 in P. apply Permutation_nil in P. discriminate P.
      + intros (h & H & HF). apply CA. exists h. auto.
    - (* GFinal *)
      unfold fold_step in ST; rewrite RN in ST; cbn in ST. destruct (f_final (g_s g)) as [it|] eqn:F; [|discriminate]. injection ST as <-. unfold J. cbn.
      apply (step_can s (EvFinal ok) (f_return s (if ok then RetOk (it_val it) else RetErr ErrClose))); [exact R| |reflexivity].
      unfold fold_step. rewrite RS, (m_final _ _ M), F. reflexivity.
    - (* GEnv *)
      assert (EV : env = true) by (destruct OKG as [H|[]]; exact H).
      destruct e as [| |i ok|i o|i ack|ok|i|i|i|i]; try discriminate; unfold fold_step in ST; rewrite RN in ST; cbn in ST.
      + destruct (pick i (f_tasks (g_s g))) as [[t ts]|] eqn:PK; [|discriminate]. injection ST as <-. unfold J. cbn. rewrite RN. split; [|auto].
        assert (P : Permutation (f_tasks s) (t :: ts)) by (rewrite (m_tasks _ _ M); exact (pick_perm _ _ _ _ _ PK)).
        destruct (perm_pick _ _ _ _ P) as (k & ts' & PK' & PT). exists (set_tasks s ts'). split.
        * apply (reach_step s (EvDropTask k)); [exact R|now left|]. unfold fold_step. rewrite RS, PK'. reflexivity.
        * destruct M. constructor; cbn; auto. now apply Permutation_sym.
      + destruct (pick i (f_results (g_s g))) as [[x xs]|] eqn:PK; [|discriminate]. injection ST as <-. unfold J. cbn. rewrite RN. split; [|auto].
        assert (P : Permutation (f_results s) (x :: xs ++ g_taken g ++ finals (g_hands g))).
        { rewrite (m_results _ _ M), (pick_perm _ _ _ _ _ PK). reflexivity. }
        destruct (perm_pick _ _ _ _ P) as (k & xs' & PK' & PT). exists (set_results s xs'). split.
        * apply (reach_step s (EvDropResult k)); [exact R|now left|]. unfold fold_step. rewrite RS, PK'. reflexivity.
        * destruct M. constructor; cbn; auto. now apply Permutation_sym.
      + destruct (nth_error (f_tasks (g_s g)) i) as [t|] eqn:PK; [|discriminate]. injection ST as <-. unfold J. cbn. rewrite RN. split; [|auto].
        assert (IN : In t (f_tasks s)) by (eapply Permutation_in; [apply Permutation_sym, (m_tasks _ _ M)|now apply nth_error_In in PK]).
        apply In_nth_error in IN. destruct IN as (k & NK). exists (set_tasks s (f_tasks s ++ [t])). split.
        * apply (reach_step s (EvDupTask k)); [exact R|now left|]. unfold fold_step. rewrite RS, NK. reflexivity.
        * destruct M. constructor; cbn; auto. now apply Permutation_app_tail.
      + destruct (nth_error (f_results (g_s g)) i) as [x|] eqn:PK; [|discriminate]. injection ST as <-. unfold J. cbn. rewrite RN. split; [|auto].
        assert (IN : In x (f_results s)).
        { eapply Permutation_in; [apply Permutation_sym, (m_results _ _ M)|]. apply in_or_app. left. now apply nth_error_In in PK. }
        apply In_nth_error in IN. destruct IN as (k & NK). exists (set_results s (f_results s ++ [x])). split.
        * apply (reach_step s (EvDupResult k)); [exact R|now left|]. unfold fold_step. rewrite RS, NK. reflexivity.
        * destruct M. constructor; cbn; auto. rewrite m_results0, <- !app_assoc. apply Permutation_app_head. rewrite app_assoc. apply Permutation_app_comm.
  Qed.

  Lemma J_run : forall tr g, Forall okg tr -> g_run comb empty lim cap inp0 tr = Some g -> J g.
  Proof. intros tr g F R. exact (run_from_inv_where _ _ _ okg J J_step tr (g_start inp0) g F J_start R). Qed.
End Sim.

Lemma fine_to_coarse : forall A E O comb empty lim cap inp r, gcan A E O comb empty lim cap inp r -> can A E O comb empty inp r.
Proof.
  intros A E O comb empty lim cap inp r (tr & g & R & H).
  assert (HJ : J A E O comb empty inp true g) by (apply (J_run A E O comb empty lim cap inp true tr g); [apply Forall_forall; intros; now left|exact R]).
  unfold J in HJ. now rewrite H in HJ.
Qed.
