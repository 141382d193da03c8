(** Remaining lemmas about the fold: small inputs, error handling, shape of tasks. *)
From Coq Require Import List Arith NArith Lia Permutation Bool.
From Verif Require Import Base BaseFacts ContiguousModel ContiguousSpec ContiguousProofs FoldModel FoldSpec FoldProofs FoldLive.
Import ListNotations.
Open Scope N_scope.

Section Small.
  Variables A E O : Type.
  Variable comb : O -> A -> A -> res E A.
  Variable empty : A.

  (** No item: the only event is the end of the stream. *)
  Lemma empty_run : forall tr s, fold_run comb empty [] tr = Some s ->
    f_disp s = 0%nat /\
    ((f_ret s = None /\ exists s', fold_step comb empty s EvInputEnd = Some s') \/ f_ret s = Some (RetOk empty)).
  Proof.
    intros tr s H.
    assert (I : s = fold_init [] \/ s = on_input_end empty (fold_init [])).
    { revert H. unfold fold_run. apply (run_from_inv _ _ _ (fun s => s = fold_init [] \/ s = on_input_end empty (fold_init []))); [|now left].
      intros s0 e s' [-> | ->] H.
      - destruct e as [| |[|i] ok|[|i] o|[|i] ack|ok|[|i]|[|i]|[|i]|[|i]]; cbn in H; try discriminate.
        right. now injection H as <-.
      - destruct e; discriminate. }
    destruct I as [-> | ->]; (split; [reflexivity|]).
    - left. split; [reflexivity|]. eexists. reflexivity.
    - right. reflexivity.
  Qed.

  (** One item: read it, then see the end. *)
  Lemma single_run : forall i x tr s, fold_run comb empty [ROk (i, x)] tr = Some s ->
    f_disp s = 0%nat /\ f_chan s = [] /\ f_tasks s = [] /\
    ((f_ret s = None /\ exists e s', nofault e = true /\ fold_step comb empty s e = Some s') \/
     f_ret s = Some (if i =? 0 then RetOk x else Panicked)).
  Proof.
    intros i x tr s H.
    set (s0 := fold_init (A:=A) (E:=E) [ROk (i, x)]).
    set (s1 := on_input (set_inp s0 []) (i, x)).
    set (s2 := on_input_end empty s1).
    assert (R2 : f_disp s2 = 0%nat /\ f_chan s2 = [] /\ f_tasks s2 = [] /\ f_ret s2 = Some (if i =? 0 then RetOk x else Panicked)).
    { assert (E1 : s1 = mkF [] false 1 [(i, mkItem i i x)] [] [] [] None None 0) by reflexivity.
      unfold s2. rewrite E1. unfold on_input_end. cbn -[N.eqb]. change (1 =? 0) with false. change (1 =? 1) with true. cbv iota.
      unfold cq_dequeue. cbn -[N.eqb]. rewrite (N.eqb_sym 0 i). destruct (i =? 0); repeat split; reflexivity. }
    assert (I : s = s0 \/ s = s1 \/ s = s2).
    { revert H. unfold fold_run. apply (run_from_inv _ _ _ (fun s => s = s0 \/ s = s1 \/ s = s2)); [|now left].
      intros t e s' [-> | [-> | ->]] H.
      - destruct e as [| |[|j] ok|[|j] o|[|j] ack|ok|[|j]|[|j]|[|j]|[|j]]; cbn in H; try discriminate.
        right. left. now injection H as <-.
      - destruct e as [| |[|j] ok|[|j] o|[|j] ack|ok|[|j]|[|j]|[|j]|[|j]]; cbn in H; try discriminate.
        right. right. now injection H as <-.
      - unfold fold_step in H. destruct R2 as (_ & _ & _ & R2). rewrite R2 in H. discriminate. }
    destruct I as [-> | [-> | ->]].
    - repeat split; try reflexivity. left. split; [reflexivity|]. exists EvInput. eexists. split; reflexivity.
    - repeat split; try reflexivity. left. split; [reflexivity|]. exists EvInputEnd. eexists. split; reflexivity.
    - destruct R2 as (X1 & X2 & X3 & X4). repeat split; auto.
  Qed.

  (** Results exist only after two inputs were read, whatever faults happen. *)
  Definition sinv (s : fstate A E) : Prop :=
    f_count s < 2 -> f_chan s = [] /\ f_tasks s = [] /\ f_results s = [] /\ f_final s = None.

  Lemma sinv_step : forall s e s', sinv s -> fold_step comb empty s e = Some s' -> sinv s'.
  Proof.
    intros s e s' I H. unfold sinv in *. unfold fold_step in H. destruct (f_ret s); [discriminate|].
    destruct e as [| |i ok|i o|i ack|ok|i|i|i|i].
    - destruct (f_inp s) as [|[[ix y]|er] rest]; [discriminate| |]; injection H as <-.
      + unfold on_input. cbn [f_count set_inp fst snd]. destruct (N.ltb_spec (f_count s + 1) 2) as [C|C].
        * cbn. intros _. apply I. lia.
        * destruct (try_dispatch_fields A E (set_count (set_inp s rest) (f_count s + 1)) (mkItem ix ix y)) as (_ & _ & _ & _ & F5 & _).
          rewrite F5. cbn. lia.
      + exact I.
    - destruct (f_inp s); [|discriminate]. destruct (f_ended s); [discriminate|]. injection H as <-.
      unfold on_input_end. cbn [f_count set_ended f_asm]. destruct (f_count s =? 0); [exact I|].
      destruct (f_count s =? 1); [|exact I]. destruct (cq_dequeue _ 0) as [[it|] q]; exact I.
    - destruct (pick i (f_chan s)) as [[t c]|] eqn:P; [|discriminate]. destruct ok; injection H as <-; cbn; intros C;
      destruct (I C) as (I1 & _); rewrite I1 in P; destruct i; discriminate.
    - destruct (pick i (f_tasks s)) as [[t c]|] eqn:P; [|discriminate]. injection H as <-; cbn; intros C;
      destruct (I C) as (_ & I1 & _); rewrite I1 in P; destruct i; discriminate.
    - destruct (N.leb_spec 2 (f_count s)) as [C2|C2]; [|discriminate].
      destruct (pick i (f_results s)) as [[r rs]|] eqn:P; [|discriminate]. injection H as <-.
      unfold on_result. destruct r as [it|er]; [|cbn; lia].
      destruct (try_dispatch_fields A E (set_results s rs) it) as (_ & _ & _ & _ & F5 & _).
      cbn [f_ended f_count f_final set_results]. destruct (f_ended s && is_final it (f_count s)).
      + destruct ack; [destruct (f_final s)|]; cbn; lia.
      + destruct ack; cbn [f_count f_return]; rewrite F5; cbn; lia.
    - destruct (f_final s) eqn:FF; [|discriminate]. injection H as <-. cbn. rewrite FF. exact I.
    - destruct (pick i (f_tasks s)) as [[t c]|] eqn:P; [|discriminate]. injection H as <-; cbn; intros C;
      destruct (I C) as (_ & I1 & _); rewrite I1 in P; destruct i; discriminate.
    - destruct (pick i (f_results s)) as [[t c]|] eqn:P; [|discriminate]. injection H as <-; cbn; intros C;
      destruct (I C) as (_ & _ & I1 & _); rewrite I1 in P; destruct i; discriminate.
    - destruct (nth_error (f_tasks s) i) eqn:P; [|discriminate]. injection H as <-; cbn; intros C;
      destruct (I C) as (_ & I1 & _); rewrite I1 in P; destruct i; discriminate.
    - destruct (nth_error (f_results s) i) eqn:P; [|discriminate]. injection H as <-; cbn; intros C;
      destruct (I C) as (_ & _ & I1 & _); rewrite I1 in P; destruct i; discriminate.
  Qed.

  (** A delivered worker error ends the fold with exactly that error, whenever it is handled. *)
  Lemma worker_error_returned : forall inp tr s i e rs ack, fold_run comb empty inp tr = Some s ->
    f_ret s = None -> pick i (f_results s) = Some (RErr e, rs) ->
    exists s', fold_step comb empty s (EvResult i ack) = Some s' /\ f_ret s' = Some (RetErr (ErrWorker e)).
  Proof.
    intros inp tr s i e rs ack HR R P.
    assert (I : sinv s).
    { apply (run_from_inv _ _ _ sinv sinv_step tr (fold_init inp) s); [|exact HR].
      intros _. repeat split. }
    unfold fold_step. rewrite R, P. destruct (N.leb_spec 2 (f_count s)) as [C|C].
    - eexists. split; reflexivity.
    - exfalso. destruct (I C) as (_ & _ & I1 & _). rewrite I1 in P. destruct i; discriminate.
  Qed.
End Small.

Section TaskShape.
  Variables A E O : Type.
  Variable comb : O -> A -> A -> res E A.
  Variable empty : A.

  Lemma task_shape : forall base (l : list A) arr tr (s : fstate A E) t,
    base + N.of_nat (length l) <= usize_max -> Permutation arr (index_from base l) ->
    fold_run comb empty (map ROk arr) tr = Some s -> In t (f_chan s ++ f_tasks s) ->
    exists pre l1 l2 post, l = pre ++ l1 ++ l2 ++ post /\
      N.of_nat (length pre) = ft_lo t - base /\ base <= ft_lo t /\
      N.of_nat (length (l1 ++ l2)) = ft_hi t + 1 - ft_lo t /\
      in_order comb l1 (ft_l t) /\ in_order comb l2 (ft_r t).
  Proof.
    intros base l arr tr s t B P R Ht.
    pose proof (reach_vinv A E O comb empty base l arr tr s B P R) as V.
    assert (VT : vtask A E O comb base l t).
    { destruct V. rewrite Forall_forall in v_chan, v_tasks. apply in_app_iff in Ht. destruct Ht; auto. }
    destruct VT as (mid & X1 & X2 & X3 & X4 & L & R0).
    exists (firstn (N.to_nat (ft_lo t - base)) l), (slice base l (ft_lo t) mid), (slice base l (mid + 1) (ft_hi t)),
      (skipn (N.to_nat (ft_hi t + 1 - ft_lo t)) (skipn (N.to_nat (ft_lo t - base)) l)).
    rewrite app_assoc with (l := slice base l (ft_lo t) mid).
    rewrite <- (slice_app A base l (ft_lo t) mid (ft_hi t)) by lia.
    repeat split; try assumption.
    - unfold slice. rewrite firstn_skipn. now rewrite firstn_skipn.
    - rewrite firstn_length. lia.
    - unfold slice. rewrite firstn_length, skipn_length. lia.
  Qed.
End TaskShape.

Section Hang.
  Variables A E O : Type.
  Variable comb : O -> A -> A -> res E A.
  Variable empty : A.

  Lemma final_ended_step : forall s e (s' : fstate A E), (f_final s <> None -> f_ended s = true) ->
    fold_step comb empty s e = Some s' -> f_final s' <> None -> f_ended s' = true.
  Proof.
    intros s e s' I H. unfold fold_step in H. destruct (f_ret s); [discriminate|].
    destruct e as [| |i ok|i o|i ack|ok|i|i|i|i].
    - destruct (f_inp s) as [|[[ix y]|er] rest]; [discriminate| |]; injection H as <-; [|exact I].
      unfold on_input. cbn [f_count set_inp fst snd]. destruct (f_count s + 1 <? 2); [exact I|].
      destruct (try_dispatch_fields A E (set_count (set_inp s rest) (f_count s + 1)) (mkItem ix ix y)) as (F1 & F2 & F3 & F4 & F5 & F6 & F7).
      rewrite F2, F3. exact I.
    - destruct (f_inp s); [|discriminate]. destruct (f_ended s); [discriminate|]. injection H as <-.
      unfold on_input_end. cbn [f_count set_ended f_asm]. destruct (f_count s =? 0); [reflexivity|].
      destruct (f_count s =? 1); [|reflexivity]. destruct (cq_dequeue _ 0) as [[it|] q]; reflexivity.
    - destruct (pick i (f_chan s)) as [[t c]|]; [|discriminate]. destruct ok; injection H as <-; exact I.
    - destruct (pick i (f_tasks s)) as [[t c]|]; [|discriminate]. injection H as <-; exact I.
    - destruct (2 <=? f_count s); [|discriminate].
      destruct (pick i (f_results s)) as [[r rs]|]; [|discriminate]. injection H as <-.
      unfold on_result. destruct r as [it|er]; [|exact I].
      destruct (try_dispatch_fields A E (set_results s rs) it) as (F1 & F2 & F3 & F4 & F5 & F6 & F7).
      cbn [f_ended f_count f_final set_results]. destruct (f_ended s) eqn:EN; cbn [andb].
      + destruct (is_final it (f_count s)).
        * destruct ack; [destruct (f_final s)|]; intros _; exact EN.
        * intros _. destruct ack; cbn [f_ended f_return]; rewrite F2; exact EN.
      + destruct ack; cbn [f_ended f_final f_return]; rewrite F2, ?F3; cbn; rewrite EN; exact I.
    - destruct (f_final s) eqn:FF; [|discriminate]. injection H as <-. cbn. intros _. apply I. discriminate.
    - destruct (pick i (f_tasks s)) as [[t c]|]; [|discriminate]. injection H as <-; exact I.
    - destruct (pick i (f_results s)) as [[t c]|]; [|discriminate]. injection H as <-; exact I.
    - destruct (nth_error (f_tasks s) i); [|discriminate]. injection H as <-; exact I.
    - destruct (nth_error (f_results s) i); [|discriminate]. injection H as <-; exact I.
  Qed.

  Lemma final_ended : forall inp tr (s : fstate A E), fold_run comb empty inp tr = Some s ->
    f_final s <> None -> f_ended s = true.
  Proof.
    intros inp tr s H. apply (run_from_inv _ _ _ (fun s => f_final s <> None -> f_ended s = true) final_ended_step tr (fold_init inp) s); [|exact H].
    cbn. congruence.
  Qed.

  Lemma hang_if_no_result_after_end : forall base l arr t1 t2 s,
    base + N.of_nat (length l) <= usize_max -> Permutation arr (index_from base l) ->
    (forall o a b, exists c, comb o a b = ROk c) -> (2 <= length l)%nat ->
    fault_free (t1 ++ EvInputEnd :: t2) ->
    fold_run comb empty (map ROk arr) (t1 ++ EvInputEnd :: t2) = Some s ->
    existsb is_result t2 = false -> f_ret s = None.
  Proof.
    intros base l arr t1 t2 s B P T L F R X. unfold fold_run in R.
    apply run_from_app in R. destruct R as (m & H1 & H2). cbn in H2.
    apply Forall_app in F. destruct F as [F1 F2]. inversion F2 as [|? ? _ F3]; subst.
    destruct (fold_step comb empty m EvInputEnd) as [m'|] eqn:S; [|discriminate].
    pose proof (reach_vinv A E O comb empty base l arr t1 m B P H1) as V.
    destruct (live_run A E O comb empty base l B T t1 _ m (or_introl (pinv_init A E O comb empty base l B arr P)) F1 H1) as [[Im|Im] _];
      [|rewrite (fin_stuck A E O comb empty base l m EvInputEnd Im) in S; discriminate].
    pose proof (p_ret _ _ _ _ _ _ _ _ Im) as RM.
    assert (RR : f_ret m' = None /\ f_ended m' = true /\ f_final m' = f_final m).
    { unfold fold_step in S. rewrite RM in S. destruct (f_inp m) eqn:EI; [|discriminate].
      destruct (f_ended m); [discriminate|]. injection S as <-. unfold on_input_end. cbn.
      pose proof (v_count _ _ _ _ _ _ _ _ V) as C. rewrite EI in C. cbn in C.
      destruct (N.eqb_spec (f_count m) 0); [lia|]. destruct (N.eqb_spec (f_count m) 1); [lia|].
      cbn. auto. }
    destruct RR as (R1 & R2 & R3).
    assert (FN : f_final m = None).
    { destruct (f_final m) eqn:FF; [|reflexivity]. exfalso.
      assert (EN : f_ended m = true).
      { apply (final_ended (map ROk arr) t1 m H1). rewrite FF. discriminate. }
      unfold fold_step in S. rewrite RM, EN in S. destruct (f_inp m); discriminate. }
    destruct (live_step A E O comb empty base l B T m EvInputEnd m' Im eq_refl S) as [[I'|I'] _].
    - eapply (result_needed A E O comb empty base l B T t2 m' s I'); eauto. congruence.
    - destruct I' as [(v & RV & _)|(RV & _)]; congruence.
  Qed.
End Hang.
