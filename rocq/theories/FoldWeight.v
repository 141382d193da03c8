(** What the parts of a fold weigh: every range counts as many items as it covers, and no step makes the parts weigh more than the items received so far. *)
From Coq Require Import List Arith NArith Lia Bool Permutation.
From Verif Require Import Base BaseFacts ContiguousModel ContiguousSpec ContiguousProofs FoldModel FoldSpec FoldProofs.
Import ListNotations.
Open Scope N_scope.

Fixpoint nsum (l : list N) : N := match l with [] => 0 | x :: r => x + nsum r end.
Lemma nsum_app : forall a b, nsum (a ++ b) = nsum a + nsum b.
Proof. induction a as [|x a IH]; intros b; cbn; [reflexivity|]. rewrite IH. lia. Qed.
Lemma nsum_perm : forall a b, Permutation a b -> nsum a = nsum b.
Proof. intros a b P. induction P; cbn; lia. Qed.
Lemma nsum_pick : forall (B : Type) (h : B -> N) i l x r, pick i l = Some (x, r) -> nsum (map h l) = h x + nsum (map h r).
Proof. intros B h i l x r P. apply pick_perm in P. apply (Permutation_map h) in P. apply nsum_perm in P. exact P. Qed.

Section Weight.
Variables A E O : Type.
Variable comb : O -> A -> A -> res E A.
Variable empty : A.
Notation st := (fstate A E).

(** The number of items in a range. *)
Definition sz (it : item A) : N := it_hi it - it_lo it + 1.
Definition tsz (t : ftask A) : N := ft_hi t - ft_lo t + 1.
Definition asz (q : cqueue (item A)) : N := nsum (map sz (contents q)).
Definition fsz (o : option (item A)) : N := match o with Some it => sz it | None => 0 end.
(** The weight of what the fold itself holds. When it returned without a final item, all items received are in what it returned. *)
Definition kept (x : st) : N := match f_ret x, f_final x with Some (RetOk _), None => f_count x | _, _ => 0 end.
Definition wt (x : st) : N := asz (f_asm x) + nsum (map tsz (f_chan x)) + fsz (f_final x) + kept x.

Definition tproper (t : ftask A) : Prop := ft_lo t <= ft_hi t /\ ft_hi t < usize_max.
Definition rproper (r : res E (item A)) : Prop := match r with ROk it => proper it | RErr _ => True end.
Definition iproper (r : res E (N * A)) : Prop := match r with ROk it => fst it < usize_max | RErr _ => True end.
Record shape (x : st) : Prop := {
  sh_sorted : smap_sorted (f_asm x);
  sh_keyed : keyed item_key (f_asm x);
  sh_asm : Forall proper (contents (f_asm x));
  sh_chan : Forall tproper (f_chan x);
  sh_tasks : Forall tproper (f_tasks x);
  sh_res : Forall rproper (f_results x);
  sh_inp : Forall iproper (f_inp x);
  sh_ended : f_ended x = true -> f_inp x = [];
  sh_final : forall it, f_final x = Some it -> f_ended x = true /\ sz it = f_count x;
  sh_ret : forall v, f_ret x = Some (RetOk v) -> f_ended x = true
}.

(** *** The assembler *)
Lemma remove_asz : forall q k it, smap_sorted q -> smap_get k q = Some it -> asz q = sz it + asz (smap_remove k q).
Proof. intros q k it S G. unfold asz, contents. pose proof (smap_remove_perm _ _ _ _ S G) as P. apply (Permutation_map (fun p => sz (snd p))) in P. rewrite !map_map. apply nsum_perm in P. exact P. Qed.
Lemma insert_asz : forall q k it, asz (smap_insert k it q) <= sz it + asz q.
Proof.
  assert (C : forall k0 v0 q0, asz ((k0, v0) :: q0) = sz v0 + asz q0) by reflexivity.
  induction q as [|[k' v'] q IH]; intros k it; cbn [smap_insert]; [rewrite C; lia|].
  destruct (k <? k'); [rewrite !C; lia|]. destruct (k =? k'); [rewrite !C; lia|]. specialize (IH k it). rewrite !C. lia.
Qed.
Lemma insert_proper : forall (q : cqueue (item A)) k it, proper it -> Forall proper (contents q) -> Forall proper (contents (smap_insert k it q)).
Proof.
  intros q k it P F. rewrite Forall_forall in *. intros y I. unfold contents in I. apply in_map_iff in I as ([k' v'] & <- & I). apply smap_insert_in in I. destruct I as [Q|I]; [injection Q as _ ->; exact P|].
  apply F. apply in_map_iff. exists (k', v'). auto.
Qed.
Lemma remove_proper : forall (q : cqueue (item A)) k, Forall proper (contents q) -> Forall proper (contents (smap_remove k q)).
Proof.
  intros q k F. rewrite Forall_forall in *. intros y I. unfold contents in I. apply in_map_iff in I as ([k' v'] & <- & I). apply smap_remove_in in I. apply F. apply in_map_iff. exists (k', v'). auto.
Qed.
Lemma acquire_weight : forall (q : cqueue (item A)) it, smap_sorted q -> keyed item_key q -> Forall proper (contents q) -> proper it ->
  Forall proper (contents (snd (cq_acquire item_key is_contiguous q it))) /\
  match cq_acquire item_key is_contiguous q it with
  | (Some (l, r), q') => proper (mkItem (it_lo l) (it_hi r) (it_val l)) /\ (it_hi r - it_lo l + 1) + asz q' = sz it + asz q
  | (None, q') => asz q' <= sz it + asz q
  end.
Proof.
  intros q it S K F P. unfold cq_acquire, find_contiguous.
  assert (IN : forall k y, smap_get k q = Some y -> it_lo y = k /\ proper y).
  { intros k y G. rewrite smap_get_in in G by exact S. split; [exact (K _ _ G)|]. rewrite Forall_forall in F. apply F. unfold contents. apply in_map_iff. exists (k, y). auto. }
  pose proof (smap_first_ge_spec _ q (item_key it) S) as HR. pose proof (smap_last_lt_spec _ q (item_key it) S) as HL. unfold item_key in HR, HL.
  assert (LEFT : match smap_last_lt (it_lo it) q with
      | Some (ek, ev) => is_contiguous it ev = true -> proper (mkItem (it_lo ev) (it_hi it) (it_val ev)) /\ (it_hi it - it_lo ev + 1) + asz (smap_remove ek q) = sz it + asz q
      | None => True end).
  { destruct (smap_last_lt (it_lo it) q) as [[ek ev]|]; [|exact Logic.I]. intros C. destruct HL as (G & LT & _). destruct (IN _ _ G) as [LO PE].
    apply (is_contiguous_spec _ _ _ P PE) in C. rewrite (remove_asz _ _ _ S G). unfold adjacent, proper, sz in *. cbn [it_lo it_hi]. destruct P, PE. destruct C; lia. }
  destruct (smap_first_ge (item_key it) q) as [[ek ev]|] eqn:FG; unfold item_key in *.
  - rewrite FG in HR. destruct HR as (G & GE & _). destruct (IN _ _ G) as [LO PE]. destruct (is_contiguous it ev) eqn:C.
    + cbn [fst snd]. split; [now apply remove_proper|]. apply (is_contiguous_spec _ _ _ P PE) in C. rewrite (remove_asz _ _ _ S G). unfold adjacent, proper, sz in *. cbn [it_lo it_hi]. destruct P, PE. destruct C; lia.
    + destruct (smap_last_lt (it_lo it) q) as [[ek' ev']|]; [destruct (is_contiguous it ev') eqn:C'|]; cbn [fst snd].
      * split; [now apply remove_proper|]. now apply LEFT.
      * split; [now apply insert_proper|apply insert_asz].
      * split; [now apply insert_proper|apply insert_asz].
  - destruct (smap_last_lt (it_lo it) q) as [[ek' ev']|]; [destruct (is_contiguous it ev') eqn:C'|]; cbn [fst snd].
    + split; [now apply remove_proper|]. now apply LEFT.
    + split; [now apply insert_proper|apply insert_asz].
    + split; [now apply insert_proper|apply insert_asz].
Qed.

(** *** Steps *)
Lemma shape_init : forall inp, Forall iproper inp -> shape (fold_init inp).
Proof. intros inp F. constructor; cbn; auto; try constructor; try discriminate. intros k v []. Qed.
Lemma shape_return : forall x o, shape x -> (forall v, o = RetOk v -> f_ended x = true) -> shape (f_return x o).
Proof. intros x o [? ? ? ? ? ? ? ? ? ?] R. constructor; cbn; auto. intros v H. injection H as ->. eauto. Qed.
Lemma shape_dispatch : forall (x : st) it, shape x -> proper it -> shape (try_dispatch x it).
Proof.
  intros x it [H1 H2 H3 H4 H5 H6 H7 H8 H9 H10] P. unfold try_dispatch. destruct (acquire_weight _ _ H1 H2 H3 P) as [Q1 Q2]. pose proof (cq_acquire_sorted _ item_key is_contiguous _ it H1) as Q3. pose proof (cq_acquire_keyed _ item_key is_contiguous _ it H2) as Q4.
  destruct (cq_acquire item_key is_contiguous (f_asm x) it) as [[[l r]|] q]; cbn [snd] in *; constructor; cbn; auto.
  apply Forall_app. split; [exact H4|]. constructor; [|constructor]. exact (proj1 Q2).
Qed.
Lemma dispatch_weight : forall (x : st) it, shape x -> proper it -> f_ret x = None -> wt (try_dispatch x it) <= wt x + sz it.
Proof.
  intros x it [H1 H2 H3 H4 H5 H6 H7 H8 H9 H10] P R. unfold try_dispatch. destruct (acquire_weight _ _ H1 H2 H3 P) as [_ Q].
  destruct (cq_acquire item_key is_contiguous (f_asm x) it) as [[[l r]|] q]; unfold wt, kept; cbn [f_asm f_chan f_final f_ret f_count]; rewrite R.
  - destruct Q as [_ Q]. rewrite map_app, nsum_app. cbn [map nsum]. change (tsz (mkTask (it_lo l) (it_hi r) (it_val l) (it_val r))) with (it_hi r - it_lo l + 1). lia.
  - lia.
Qed.
Lemma dispatch_same : forall (x : st) it, f_count (try_dispatch x it) = f_count x /\ f_final (try_dispatch x it) = f_final x /\ f_ret (try_dispatch x it) = f_ret x.
Proof. intros x it. unfold try_dispatch. destruct (cq_acquire _ _ _ _) as [[[l r]|] q]; cbn; auto. Qed.
Lemma queue_shape : forall (x : st) it, shape x -> proper it -> shape (set_asm x (cq_queue item_key (f_asm x) it)).
Proof.
  intros x it [H1 H2 H3 H4 H5 H6 H7 H8 H9 H10] P. constructor; cbn; auto; unfold cq_queue; [now apply smap_insert_sorted|now apply keyed_insert|now apply insert_proper].
Qed.
Lemma return_err_weight : forall (x : st) e, f_ret x = None -> wt (f_return x (RetErr e)) = wt x.
Proof. intros x e R. unfold wt, kept. cbn. now rewrite R. Qed.

(** What a step adds to the weight of what the fold holds, and to the number of items received. *)
Definition gain (x : st) (e : fevent O) (x' : st) : Prop :=
  match e with
  | EvInput => wt x' + f_count x <= wt x + f_count x' 
  | EvPublish i true => exists t c, pick i (f_chan x) = Some (t, c) /\ wt x' + tsz t = wt x /\ f_count x' = f_count x
  | EvResult i _ => exists r rs, pick i (f_results x) = Some (r, rs) /\ wt x' <= wt x + match r with ROk it => sz it | RErr _ => 0 end /\ f_count x' = f_count x
  | _ => wt x' <= wt x /\ f_count x' = f_count x
  end.
Lemma pick_forall : forall (B : Type) (P : B -> Prop) i l x r, pick i l = Some (x, r) -> Forall P l -> P x /\ Forall P r.
Proof. intros B P i l x r H F. apply pick_perm in H. rewrite H in F. inversion F; auto. Qed.
Lemma weight_step : forall x e x', shape x -> fold_step comb empty x e = Some x' -> shape x' /\ gain x e x'.
Proof.
  intros x e x' SH H. unfold fold_step in H. destruct (f_ret x) eqn:FR; [discriminate|]. pose proof SH as [H1 H2 H3 H4 H5 H6 H7 H8 H9 H10].
  destruct e as [| |i ok|i o|i ack|ok|i|i|i|i]; cbn [gain].
  - destruct (f_inp x) as [|[[k a]|er] l] eqn:FI; try discriminate.
    + injection H as <-. inversion H7 as [|? ? PI H7']; subst. change (k < usize_max) in PI. assert (PK : proper (mkItem k k a)) by (unfold proper; cbn [it_lo it_hi]; lia).
      assert (EN : f_ended x = false) by (destruct (f_ended x); [specialize (H8 eq_refl); discriminate H8|reflexivity]).
      assert (FN : f_final x = None) by (destruct (f_final x) as [it|]; [destruct (H9 it eq_refl); congruence|reflexivity]).
      assert (S1 : shape (set_count (set_inp x l) (f_count x + 1))).
      { constructor; cbn; auto; [congruence|intros it Q; congruence]. }
      assert (W1 : wt (set_count (set_inp x l) (f_count x + 1)) = wt x) by (unfold wt, kept; cbn; now rewrite FR).
      assert (SZ : sz (mkItem k k a) = 1) by (unfold sz; cbn [it_lo it_hi]; lia).
      unfold on_input. cbn [fst snd]. change (f_count (set_inp x l)) with (f_count x). destruct (f_count x + 1 <? 2).
      * change (f_asm (set_inp x l)) with (f_asm (set_count (set_inp x l) (f_count x + 1))). split; [now apply queue_shape|]. cbn [f_count set_asm set_count].
        assert (wt (set_asm (set_count (set_inp x l) (f_count x + 1)) (cq_queue item_key (f_asm (set_count (set_inp x l) (f_count x + 1))) (mkItem k k a))) <= wt x + 1); [|lia].
        unfold wt, kept in *. cbn [f_asm f_chan f_final f_ret f_count set_asm set_count set_inp] in *. unfold cq_queue. pose proof (insert_asz (f_asm x) (item_key (mkItem k k a)) (mkItem k k a)). rewrite FR in *. lia.
      * split; [now apply shape_dispatch|]. destruct (dispatch_same (set_count (set_inp x l) (f_count x + 1)) (mkItem k k a)) as (-> & _ & _). cbn [f_count set_count].
        pose proof (dispatch_weight _ _ S1 PK FR). lia.
    + injection H as <-. inversion H7; subst. split; [|rewrite return_err_weight by exact FR; unfold wt, kept; cbn; lia]. apply shape_return; [|discriminate]. constructor; cbn; auto.
      intros EN. specialize (H8 EN). discriminate H8.
  - destruct (f_inp x) as [|? ?] eqn:FI; [|discriminate]. destruct (f_ended x) eqn:EN; [discriminate|]. injection H as <-.
    assert (FN : f_final x = None) by (destruct (f_final x) as [it|]; [destruct (H9 it eq_refl); congruence|reflexivity]).
    assert (S1 : shape (set_ended x)). { constructor; cbn; auto; [now rewrite FI|rewrite FN; discriminate]. }
    assert (W1 : wt (set_ended x) = wt x) by reflexivity. unfold on_input_end. change (f_count (set_ended x)) with (f_count x).
    destruct (N.eqb_spec (f_count x) 0) as [Z|Z].
    + split; [apply shape_return; auto|]. cbn [f_count f_return set_ended]. split; [|reflexivity]. unfold wt, kept. cbn. rewrite FN, FR, Z. lia.
    + destruct (N.eqb_spec (f_count x) 1) as [Z1|Z1]; [|split; [exact S1|]; rewrite W1; cbn; split; [lia|reflexivity]].
      unfold cq_dequeue. cbn [f_asm set_ended]. destruct (smap_get 0 (f_asm x)) as [it|] eqn:G.
      * pose proof (remove_asz _ _ _ H1 G) as RA. split.
        -- apply shape_return; [|auto]. constructor; cbn; auto; [now apply smap_remove_sorted|now apply keyed_remove|now apply remove_proper|now rewrite FI|rewrite FN; discriminate].
        -- cbn [f_count f_return set_ended set_asm]. split; [|reflexivity]. unfold wt, kept. cbn [f_asm f_chan f_final f_ret f_count f_return set_asm set_ended]. rewrite FN, FR. unfold sz in RA. lia.
      * split; [apply shape_return; [exact S1|discriminate]|]. cbn [f_count f_return set_ended]. split; [|reflexivity]. unfold wt, kept. cbn. rewrite FR. lia.
  - destruct (pick i (f_chan x)) as [[t c]|] eqn:PK; [|discriminate]. destruct (pick_forall _ _ _ _ _ _ PK H4) as [PT PC]. destruct ok; injection H as <-.
    + split; [constructor; cbn; auto; apply Forall_app; auto|]. exists t, c. split; [reflexivity|]. cbn [f_count set_tasks set_chan]. split; [|reflexivity]. unfold wt, kept. cbn. rewrite (nsum_pick _ tsz _ _ _ _ PK). lia.
    + split; [apply shape_return; [constructor; cbn; auto|discriminate]|]. rewrite return_err_weight by exact FR. cbn [f_count f_return set_chan]. split; [|reflexivity]. unfold wt, kept. cbn. rewrite (nsum_pick _ tsz _ _ _ _ PK). lia.
  - destruct (pick i (f_tasks x)) as [[t ts]|] eqn:PK; [|discriminate]. destruct (pick_forall _ _ _ _ _ _ PK H5) as [PT PC]. injection H as <-. split; [|split; [reflexivity|reflexivity]].
    constructor; cbn; auto. apply Forall_app. split; [exact H6|]. constructor; [|constructor]. destruct (comb o (ft_l t) (ft_r t)); [exact PT|exact Logic.I].
  - destruct (2 <=? f_count x); [|discriminate]. destruct (pick i (f_results x)) as [[r rs]|] eqn:PK; [|discriminate]. destruct (pick_forall _ _ _ _ _ _ PK H6) as [PR PC]. injection H as <-.
    assert (S1 : shape (set_results x rs)) by (constructor; cbn; auto). assert (W1 : wt (set_results x rs) = wt x) by reflexivity.
    assert (G : shape (on_result (set_results x rs) r ack) /\ wt (on_result (set_results x rs) r ack) <= wt x + match r with ROk it => sz it | RErr _ => 0 end /\ f_count (on_result (set_results x rs) r ack) = f_count x).
    { unfold on_result. destruct r as [it|er]; [|split; [apply shape_return; [exact S1|discriminate]|]; rewrite return_err_weight by exact FR; cbn [f_count f_return set_results]; split; [lia|reflexivity]].
      change (proper it) in PR. change (f_ended (set_results x rs)) with (f_ended x). change (f_count (set_results x rs)) with (f_count x). change (f_final (set_results x rs)) with (f_final x).
      destruct (f_ended x && is_final it (f_count x)) eqn:FE.
      - apply andb_true_iff in FE as [EN FI]. unfold is_final in FI. apply N.eqb_eq in FI. assert (SF : sz it = f_count x).
        { rewrite wsucc_small in FI; [exact FI|]. destruct PR. lia. }
        destruct ack; [destruct (f_final x) as [it0|] eqn:FN|].
        + split; [apply shape_return; [exact S1|discriminate]|]. rewrite return_err_weight by exact FR. cbn [f_count f_return set_results]. split; [lia|reflexivity].
        + split; [constructor; cbn; auto; intros it0 Q; injection Q as <-; auto|]. cbn [f_count set_final set_results]. split; [|reflexivity]. unfold wt, kept. cbn. rewrite FR, FN. cbn. lia.
        + split; [apply shape_return; [exact S1|discriminate]|]. rewrite return_err_weight by exact FR. cbn [f_count f_return set_results]. split; [lia|reflexivity].
      - pose proof (shape_dispatch _ _ S1 PR) as S2. pose proof (dispatch_weight _ _ S1 PR FR) as W2. destruct (dispatch_same (set_results x rs) it) as (D1 & _ & D3). destruct ack.
        + split; [exact S2|]. rewrite D1. split; [lia|reflexivity].
        + split; [apply shape_return; [exact S2|discriminate]|]. rewrite return_err_weight by (rewrite D3; exact FR). cbn [f_count f_return]. rewrite D1. split; [lia|reflexivity]. }
    destruct G as (G1 & G2 & G3). split; [exact G1|]. exists r, rs. auto.
  - destruct (f_final x) as [it|] eqn:FN; [|discriminate]. injection H as <-. destruct (H9 it eq_refl) as [EN _]. split; [apply shape_return; auto|]. cbn [f_count f_return]. split; [|reflexivity].
    unfold wt, kept. cbn. rewrite FN, FR. destruct ok; lia.
  - destruct (pick i (f_tasks x)) as [[t ts]|] eqn:PK; [|discriminate]. destruct (pick_forall _ _ _ _ _ _ PK H5) as [PT PC]. injection H as <-. split; [constructor; cbn; auto|split; reflexivity].
  - destruct (pick i (f_results x)) as [[t ts]|] eqn:PK; [|discriminate]. destruct (pick_forall _ _ _ _ _ _ PK H6) as [PT PC]. injection H as <-. split; [constructor; cbn; auto|split; reflexivity].
  - destruct (nth_error (f_tasks x) i) as [t|] eqn:PK; [|discriminate]. apply nth_error_In in PK. injection H as <-. split; [|split; reflexivity]. constructor; cbn; auto. apply Forall_app. split; [exact H5|]. constructor; [|constructor]. rewrite Forall_forall in H5. auto.
  - destruct (nth_error (f_results x) i) as [t|] eqn:PK; [|discriminate]. apply nth_error_In in PK. injection H as <-. split; [|split; reflexivity]. constructor; cbn; auto. apply Forall_app. split; [exact H6|]. constructor; [|constructor]. rewrite Forall_forall in H6. auto.
Qed.
Lemma shape_run : forall inp tr x, Forall iproper inp -> fold_run comb empty inp tr = Some x -> shape x.
Proof.
  intros inp tr x F R. apply (run_from_inv _ _ (fold_step comb empty) shape) with (tr := tr) (s := fold_init inp); [|now apply shape_init|exact R].
  intros s e s' S H. exact (proj1 (weight_step _ _ _ S H)).
Qed.
(** A fold that returned a value left nothing over: whatever is still owed to it weighs nothing. *)
Lemma over_weight : forall x v, shape x -> f_ret x = Some (RetOk v) -> f_count x <= wt x.
Proof.
  intros x v SH R. unfold wt, kept. rewrite R. destruct (f_final x) as [it|] eqn:FN; [|lia]. destruct (sh_final _ SH it FN) as [_ Q]. cbn. lia.
Qed.
End Weight.
