(** C75: the example program's assertion. *)
From Coq Require Import List Arith NArith Bool Lia Permutation.
From Verif Require Import Base BaseFacts ContiguousModel FoldModel FoldSpec FoldProofs FoldProps FoldMore FoldAny PublishModel MapModel MapSpec MapProps MapCount StreamModel StreamProps MapAny HelloModel.
Import ListNotations.
Open Scope nat_scope.

(** *** When a fold panics *)
Section Panic.
  Variables A E O : Type.
  Variable comb : O -> A -> A -> res E A.
  Variable empty : A.
  Variable inp : list (res E (N * A)).
  Definition counts (s : fstate A E) : Prop :=
    (f_ret s = None -> N.of_nat (length (f_inp s)) + f_count s = N.of_nat (length inp))%N /\ (f_ret s = Some Panicked -> length inp = 1).
  Lemma counts_step : forall s e s', counts s -> fold_step comb empty s e = Some s' -> counts s'.
  Proof.
    intros s e s' [C P] H. unfold fold_step in H. destruct (f_ret s) eqn:RN; [discriminate|]. specialize (C eq_refl).
    assert (OK : forall s1, f_inp s1 = f_inp s -> f_count s1 = f_count s -> f_ret s1 <> Some Panicked -> counts s1).
    { intros s1 Q1 Q2 Q. unfold counts. rewrite Q1, Q2. split; [auto|contradiction]. }
    destruct e as [| |i ok|i o|i ack|ok|i|i|i|i].
    - destruct (f_inp s) as [|[[ix x]|er] r] eqn:FI; [discriminate| |]; injection H as <-; [|split; discriminate].
      unfold on_input. cbn [f_count set_inp fst snd]. cbn [length] in C. destruct (f_count s + 1 <? 2)%N; [split; cbn; [lia|congruence]|].
      destruct (try_dispatch_fields A E (set_count (set_inp s r) (f_count s + 1)%N) (mkItem ix ix x)) as (F1 & _ & _ & F4 & F5 & _). split; rewrite ?F1, ?F4, ?F5; cbn; [lia|congruence].
    - destruct (f_inp s) eqn:FI; [|discriminate]. destruct (f_ended s); [discriminate|]. injection H as <-. unfold on_input_end. cbn [f_count set_ended f_asm].
      destruct (f_count s =? 0)%N; [split; discriminate|]. destruct (N.eqb_spec (f_count s) 1) as [Q|Q]; [|apply OK; cbn; congruence].
      cbn [length] in C. destruct (cq_dequeue (f_asm s) 0) as [[it|] q]; split; try discriminate. intros _. lia.
    - destruct (pick i (f_chan s)) as [[t c]|]; [|discriminate]. destruct ok; injection H as <-; [apply OK; cbn; congruence|split; discriminate].
    - destruct (pick i (f_tasks s)) as [[t c]|]; [|discriminate]. injection H as <-. apply OK; cbn; congruence.
    - destruct (2 <=? f_count s)%N; [|discriminate]. destruct (pick i (f_results s)) as [[r rs]|]; [|discriminate]. injection H as <-. unfold on_result.
      destruct r as [it|er]; [|split; discriminate]. destruct (try_dispatch_fields A E (set_results s rs) it) as (F1 & _ & _ & F4 & F5 & _).
      destruct (f_ended (set_results s rs) && is_final it (f_count (set_results s rs))); [destruct ack; [destruct (f_final (set_results s rs))|]|destruct ack]; try (split; discriminate).
      + apply OK; cbn; congruence.
      + apply OK; rewrite ?F1, ?F4, ?F5; cbn; congruence.
    - destruct (f_final s); [|discriminate]. injection H as <-. destruct ok; split; discriminate.
    - destruct (pick i (f_tasks s)) as [[t c]|]; [|discriminate]. injection H as <-. apply OK; cbn; congruence.
    - destruct (pick i (f_results s)) as [[t c]|]; [|discriminate]. injection H as <-. apply OK; cbn; congruence.
    - destruct (nth_error (f_tasks s) i); [|discriminate]. injection H as <-. apply OK; cbn; congruence.
    - destruct (nth_error (f_results s) i); [|discriminate]. injection H as <-. apply OK; cbn; congruence.
  Qed.
  Lemma fold_panics : forall tr s, fold_run comb empty inp tr = Some s -> f_ret s = Some Panicked -> exists i x, inp = [ROk (i, x)] /\ i <> 0%N.
  Proof.
    intros tr s R P. assert (L : length inp = 1).
    { refine (proj2 (run_from_inv _ _ _ counts counts_step tr (fold_init inp) s _ R) P). split; cbn; [lia|discriminate]. }
    destruct inp as [|[[i x]|er] [|]]; try discriminate L.
    - exists i, x. split; [reflexivity|]. intros ->. destruct (single_run A E O comb empty 0%N x tr s R) as (_ & _ & _ & [[Q _]|Q]); cbn in Q; congruence.
    - destruct (C05_input_error_not_ok _ _ _ comb empty [RErr er] tr s er (or_introl eq_refl) R) as [Q|(e & Q)]; congruence.
  Qed.
End Panic.

(** *** The program *)
Lemma char_ok : forall sg c y, char_to_string sg c = ROk y -> y = [c].
Proof.
  intros sg c y. unfold char_to_string. generalize 1 9. intros i n. revert i. induction n as [|n IH]; intros i H; cbn in H; [congruence|].
  destruct (aborted sg i); [discriminate|]. eauto.
Qed.
Lemma concat_ok : forall sg a b c, string_concat sg a b = ROk c -> c = a ++ b.
Proof. intros sg a b c H. injection H as <-. reflexivity. Qed.
Lemma singletons : forall (l : text) acc, fold_left (@app N) (map (fun c => [c]) l) acc = acc ++ l.
Proof. induction l as [|c l IH]; intros acc; cbn; [now rewrite app_nil_r|]. rewrite IH, <- app_assoc. reflexivity. Qed.

(** C75. For every text, whatever is lost, comes back, fails or is aborted: when the computation finishes, the program returns Ok or an error, it does not panic; and it returns
    Ok only if the computed text is the input. *)
Theorem C75_assertion_holds : forall (inj : merr nat -> nat) (input : text) out tr s r close_ok, (N.of_nat (length input) < usize_max)%N ->
  mapped_any inj char_to_string (from_into_iterator input) out -> fold_run string_concat concat_empty out tr = Some s -> f_ret s = Some r ->
  main_returns input r close_ok <> MainPanic /\ (main_returns input r close_ok = MainOk <-> close_ok = true /\ r = RetOk input).
Proof.
  intros inj input out tr s r close_ok SH M R RT.
  assert (CH : chained_any inj N text (fun c => [c]) (from_into_iterator input) out) by (eapply (CaMap inj N N text signal (fun x => x) (fun c => [c]) char_to_string); [apply CaNone|exact char_ok|exact M]).
  assert (V : forall v, r = RetOk v -> v = input).
  { intros v ->. rewrite (C74_maps_then_assoc_fold inj N text signal (fun c => [c]) (@app N) input out string_concat concat_empty tr s v concat_ok (@app_assoc N) (fun a => eq_refl) CH SH R RT).
    now rewrite singletons. }
  assert (NP : r <> Panicked).
  { intros ->. destruct (fold_panics _ _ _ _ _ _ _ _ R RT) as (i & x & -> & NZ). change [ROk (i, x)] with (map (@ROk nat (N * text)) [(i, x)]) in CH.
    destruct (chain_items inj _ _ _ _ _ CH) as (xs & X & SUB & CN). specialize (SUB _ (or_introl eq_refl)). apply in_map_iff in SUB. destruct SUB as ([i' c] & Q & I). injection Q as -> _.
    assert (xs = enumerate_from 0 input) as ->. { symmetry. revert X. unfold from_into_iterator. generalize (enumerate_from 0 input). clear. intros l. revert xs.
      induction l as [|x l IH]; intros [|y xs] X; cbn in X; try discriminate; [reflexivity|]. injection X as -> X. f_equal. auto. }
    rewrite enumerate_length in CN. assert (MX : usize_max = (usize_mod - 1)%N) by reflexivity. pose proof mod_nz. unfold congr in CN. cbn [length] in CN. rewrite !N.mod_small in CN by lia.
    destruct input as [|c0 [|]]; try (cbn [length] in CN; lia). cbn in I. destruct I as [I|[]]. congruence. }
  unfold main_returns. destruct r as [v|e|]; [|split; [discriminate|split; [discriminate|intros [_ Q]; discriminate]]|congruence].
  rewrite (V v eq_refl). destruct close_ok; [|split; [discriminate|split; [discriminate|intros [Q _]; discriminate]]].
  unfold text_eqb. destruct (list_eq_dec N.eq_dec input input); [|congruence]. split; [discriminate|]. split; auto.
Qed.
(** The [i]-th check finds the flag set. *)
Definition sees (sg : signal) (i : nat) : Prop := match sg with Some load => load i = true | None => False end.
(** An operation fails exactly if it sees the flag set at one of its nine checks; the error names the first of them. *)
Theorem C75_abort_seen : forall sg c, match char_to_string sg c with
  | ROk y => y = [c] /\ forall i, 1 <= i <= 9 -> ~ sees sg i
  | RErr i => 1 <= i <= 9 /\ sees sg i /\ forall j, 1 <= j < i -> ~ sees sg j
  end.
Proof.
  assert (Y : forall sg i, aborted sg i = true -> sees sg i) by (intros [load|] i H; cbn in *; [exact H|discriminate]).
  assert (NY : forall sg i, aborted sg i = false -> ~ sees sg i) by (intros [load|] i H; cbn in *; [congruence|auto]).
  intros sg c. assert (G : forall n i, match char_loop sg i n c with ROk y => y = [c] /\ forall j, i <= j < i + n -> aborted sg j = false
    | RErr k => i <= k < i + n /\ aborted sg k = true /\ forall j, i <= j < k -> aborted sg j = false end).
  { induction n as [|n IH]; intros i; cbn; [split; [reflexivity|intros; lia]|]. destruct (aborted sg i) eqn:AB; [split; [lia|split; [exact AB|intros; lia]]|].
    specialize (IH (S i)). destruct (char_loop sg (S i) n c) as [y|k].
    - destruct IH as [IH1 IH2]. split; [exact IH1|]. intros j J. destruct (Nat.eq_dec i j) as [<-|]; [exact AB|apply IH2; lia].
    - destruct IH as (IH1 & IH2 & IH3). split; [lia|]. split; [exact IH2|]. intros j J. destruct (Nat.eq_dec i j) as [<-|]; [exact AB|apply IH3; lia]. }
  specialize (G 9 1). unfold char_to_string. destruct (char_loop sg 1 9 c) as [y|k].
  - destruct G as [G1 G2]. split; [exact G1|]. intros i I. apply NY, G2. lia.
  - destruct G as (G1 & G2 & G3). split; [lia|]. auto.
Qed.
(** The assertion itself: with a result that is not the input the program would panic. *)
Theorem C75_assertion_is_there : forall input r close_ok, main_returns input r close_ok = MainPanic <-> r = Panicked \/ close_ok = true /\ exists v, r = RetOk v /\ v <> input.
Proof.
  intros input r close_ok. unfold main_returns, text_eqb. destruct r as [v|e|]; [|split; [discriminate|intros [Q|(_ & v & Q & _)]; discriminate]|tauto].
  destruct close_ok; [|split; [discriminate|intros [Q|(Q & _)]; discriminate]]. destruct (list_eq_dec N.eq_dec v input) as [->|NE].
  - split; [discriminate|]. intros [Q|(_ & v & Q & NE)]; [discriminate|]. congruence.
  - split; [|reflexivity]. intros _. right. eauto.
Qed.

(** "Hi": the first character's task is delivered twice. *)
Definition hi : text := [72; 105]%N.
Definition hi_map : list (m_event signal) :=
  [MPoll; MLeft PaPull; MLeft PaPull; MLeft PaPull; MLeft (PaStart 0); MEnv (PaAccept 0); MLeft (PaStart 1); MEnv (PaAccept 1);
   MEnv (PaReply 0 true); MEnv (PaReply 1 true); MLeft (PaFinish 1); MLeft (PaFinish 0); MLeft PaReturn; MEmpty;
   MDupTask 0; MWork 1 None; MWork 0 (Some (fun i => Nat.eqb i 10));
   MPoll; MTake; MAckStart; MAckReply true; MAckFinish; MPoll; MTake; MAckStart; MAckReply true; MAckFinish;
   MPoll; MEmpty; MWork 0 (Some (fun i => Nat.eqb i 9))].
Example C75_example : exists out s, mapped_any inj0 char_to_string (from_into_iterator hi) out /\
  fold_run string_concat concat_empty out [EvInput; EvInput; EvPublish 0 true; EvWork 0 None; EvInputEnd; EvResult 0 true; EvFinal true] = Some s /\
  f_ret s = Some (RetOk hi) /\ main_returns hi (RetOk hi) true = MainOk.
Proof.
  exists [ROk (1%N, [105%N]); ROk (0%N, [72%N])]. eexists. split; [|split; [vm_compute; reflexivity|split; reflexivity]].
  exists (from_into_iterator hi), [], true, hi_map. eexists. split; [reflexivity|]. split; [vm_compute; reflexivity|]. split; reflexivity.
Qed.
Print Assumptions C75_assertion_holds.
Print Assumptions C75_abort_seen.
Print Assumptions C75_assertion_is_there.
