(** Invariants of [publish_all]. *)
From Coq Require Import List Arith NArith Bool Lia Permutation.
From Verif Require Import Base BaseFacts PublishModel PublishSpec.
Import ListNotations.
Open Scope nat_scope.

Arguments numbered : simpl never.
Arguments half_done : simpl never.
Section PublishFacts.
Context {T E : Type}.
Notation st := (pall T E).

Definition unaccepted (f : nat * T * fut) : bool := match snd f with FNew | FWait false _ => true | _ => false end.
Definition unacc (l : list (nat * T * fut)) : list (nat * T) := map fst (filter unaccepted l).
Definition bad (f : nat * T * fut) : bool := match snd f with FReady false => true | _ => false end.
Definition err_part (r : option (pa_result E)) : list (res E T) := match r with Some (PaInput e) => [RErr e] | _ => [] end.

Arguments unacc : simpl never.
Record pinv (inp : list (res E T)) (s : st) : Prop := {
  pi_split : inp = map ROk (pa_pulled s) ++ err_part (pa_ret s) ++ pa_arr s ++ pa_late s;
  pi_count : exists rest, Permutation (numbered (pa_pulled s)) (pa_acc s ++ unacc (pa_futs s) ++ pa_dropped s ++ rest)
               /\ (rest <> [] -> existsb bad (pa_futs s) = true \/ exists r, pa_ret s = Some r /\ r <> PaOk);
  pi_limit : forall l, pa_limit s = Some l -> length (pa_futs s) <= l;
  pi_limit0 : pa_limit s <> Some 0;
  pi_end : pa_end s = true -> pa_late s = [];
  pi_closed : pa_open s = false -> (pa_arr s = [] /\ pa_end s = true) \/ exists r, pa_ret s = Some r /\ r <> PaOk;
  pi_open : pa_open s = true -> pa_ret s = None;
  pi_ret : pa_ret s <> None -> pa_futs s = [];
  pi_drop : pa_ret s = None -> pa_dropped s = [];
  pi_ok : pa_ret s = Some PaOk -> pa_arr s = [] /\ pa_end s = true /\ pa_dropped s = [];
  pi_reg : pa_inreg s = true -> pa_ret s = None -> pa_open s = true /\ pa_arr s = [] /\ pa_end s = false
}.

Lemma unacc_app : forall a b, unacc (a ++ b) = unacc a ++ unacc b.
Proof. intros. unfold unacc. now rewrite filter_app, map_app. Qed.
Lemma unacc_cons : forall f l, unacc (f :: l) = (if unaccepted f then [fst f] else []) ++ unacc l.
Proof. intros. unfold unacc. cbn [filter]. now destruct (unaccepted f). Qed.
Lemma unacc_pick : forall i l f r, pick i l = Some (f, r) -> Permutation (unacc l) (unacc (f :: r)).
Proof.
  intros i l f r H. apply pick_perm in H. unfold unacc. apply Permutation_map.
  assert (G : forall (A : Type) (p : A -> bool) l1 l2, Permutation l1 l2 -> Permutation (filter p l1) (filter p l2)).
  { intros A p l1 l2 P. induction P; cbn; auto.
    - destruct (p x); auto.
    - destruct (p x), (p y); auto. apply perm_swap.
    - eapply Permutation_trans; eauto. }
  now apply G.
Qed.
Lemma half_unacc : forall l, exists rest, Permutation (unacc l) (half_done l ++ rest).
Proof.
  induction l as [|f l (rest & IH)].
  - exists []. constructor.
  - rewrite unacc_cons. unfold unaccepted, half_done. cbn [filter]. fold (half_done l).
    destruct (snd f) as [|a b|b]; [|destruct a|]; cbn [map app]; fold (half_done l).
    + exists (fst f :: rest). eapply Permutation_trans; [|apply Permutation_middle]. now constructor.
    + exists rest. exact IH.
    + exists rest. now constructor.
    + exists rest. exact IH.
Qed.
Lemma numbered_snoc : forall (l : list T) x, numbered (l ++ [x]) = numbered l ++ [(length l, x)].
Proof.
  intros l x. unfold numbered. rewrite app_length. cbn [length]. rewrite Nat.add_1_r, seq_S. cbn [Nat.add].
  assert (G : forall (a : list nat) (b : list T) u v, length a = length b -> combine (a ++ [u]) (b ++ [v]) = combine a b ++ [(u, v)]).
  { induction a as [|p a IH]; intros [|q b] u v L; cbn in *; try lia; [reflexivity|]. f_equal. apply IH. lia. }
  apply G. apply seq_length.
Qed.
Lemma bad_pick : forall i (l : list (nat * T * fut)) f r, pick i l = Some (f, r) -> bad f = false -> existsb bad l = true -> existsb bad r = true.
Proof.
  intros i l f r P B X. apply existsb_exists in X as (y & Y1 & Y2). apply existsb_exists. exists y. split; [|exact Y2].
  apply pick_perm in P. pose proof (Permutation_in _ P Y1) as [->|]; [congruence|assumption].
Qed.
Lemma bad_upd : forall i (l : list (nat * T * fut)) f g, nth_error l i = Some f -> bad f = false -> existsb bad l = true -> existsb bad (upd i g l) = true.
Proof.
  intros i l f g N B X. destruct (upd_split _ _ _ _ N) as (a & b & -> & _ & U). rewrite U.
  rewrite existsb_app in *. cbn [existsb] in *. rewrite B in X. cbn in X.
  apply orb_true_iff in X as [X|X]; rewrite X; cbn; [reflexivity|]. now rewrite !orb_true_r.
Qed.
Lemma unacc_upd : forall i l f g, nth_error l i = Some f -> fst f = fst g -> unaccepted f = unaccepted g ->
  unacc (upd i g l) = unacc l.
Proof.
  intros i l f g N F U. destruct (upd_split _ _ _ _ N) as (a & b & -> & _ & W). rewrite W, !unacc_app, !unacc_cons, F, U. reflexivity.
Qed.
Lemma unacc_upd_gone : forall i l f g, nth_error l i = Some f -> unaccepted f = true -> unaccepted g = false ->
  Permutation (unacc l) (fst f :: unacc (upd i g l)).
Proof.
  intros i l f g N F U. destruct (upd_split _ _ _ _ N) as (a & b & -> & _ & W). rewrite W, !unacc_app, !unacc_cons, F, U. cbn [app].
  symmetry. apply Permutation_middle.
Qed.

Lemma upd_nonempty : forall (A : Type) i (l : list A) x, l <> [] -> upd i x l <> [].
Proof. intros A i [|y l] x H; [congruence|]. destruct i; discriminate. Qed.

Ltac no_ret := let K := fresh in intros K; exfalso; apply K; reflexivity.

Lemma pinv_step : forall inp s e s', pinv inp s -> pa_step s e = Some s' -> pinv inp s'.
Proof.
  intros inp s e s' [SP (rest & CT & RS) LM L0 EN CL OP RT DR OK RG] H.
  unfold pa_step in H. destruct (pa_ret s) as [r|] eqn:R.
  - destruct e; try discriminate. destruct (pick i (pa_dropped s)) as [[m d]|] eqn:P; [|discriminate]. injection H as <-.
    constructor; cbn; rewrite ?R; auto; try discriminate.
    + exists rest. split.
      * eapply Permutation_trans; [exact CT|]. rewrite <- !app_assoc. apply Permutation_app_head. cbn [app].
        rewrite (RT ltac:(discriminate)). change (unacc []) with (@nil (nat * T)). cbn [app].
        apply pick_perm in P. apply (Permutation_app_tail rest P).
      * intros X. right. destruct (RS X) as [B|B]; [|exact B]. rewrite (RT ltac:(discriminate)) in B. discriminate B.
    + intros X. destruct (OK X) as (O1 & O2 & O3). rewrite O3 in P. destruct i; discriminate P.
  - specialize (DR eq_refl). rewrite DR in CT. cbn [app] in CT.
    assert (RS' : rest <> [] -> existsb bad (pa_futs s) = true).
    { intros X. destruct (RS X) as [B|(r & B & _)]; [exact B|discriminate]. }
    destruct e as [|i|i|i|i| | | |i|i ok|i]; try discriminate.
    + destruct (pa_open s && may_pull s) eqn:G; [|discriminate]. apply andb_true_iff in G as [G1 G2].
      destruct (pa_arr s) as [|[x|x] arr] eqn:A.
      * destruct (pa_end s) eqn:EE; injection H as <-; constructor; cbn; rewrite ?DR; auto; try discriminate;
          try (exists rest; split; [exact CT|]; intros X; left; auto); try no_ret.
      * injection H as <-. constructor; cbn; rewrite ?DR; auto; try discriminate.
        -- rewrite SP. cbn. rewrite map_app. cbn. now rewrite <- app_assoc.
        -- exists rest. split.
           ++ rewrite numbered_snoc. rewrite unacc_app, unacc_cons. unfold unaccepted. change (unacc []) with (@nil (nat * T)). cbn [fst snd app].
              eapply Permutation_trans; [apply Permutation_app_tail; exact CT|].
              rewrite <- !app_assoc. do 2 apply Permutation_app_head. apply Permutation_app_comm.
           ++ intros X. left. rewrite existsb_app, (RS' X). reflexivity.
        -- intros l Hl. rewrite app_length. cbn [length]. unfold may_pull in G2. rewrite Hl in G2. apply Nat.ltb_lt in G2. lia.
        -- no_ret.
      * injection H as <-. constructor; cbn; auto; try discriminate; try lia.
        -- destruct (half_unacc (pa_futs s)) as (more & HM). exists (more ++ rest). split.
           ++ eapply Permutation_trans; [exact CT|]. apply Permutation_app_head.
              eapply Permutation_trans; [apply Permutation_app_tail; exact HM|]. rewrite <- app_assoc. reflexivity.
           ++ intros _. right. eexists; split; [reflexivity|discriminate].
        -- intros _. right. eexists; split; [reflexivity|discriminate].
    + destruct (nth_error (pa_futs s) i) as [[[n x] [|a b|b]]|] eqn:N; try discriminate. injection H as <-.
      constructor; cbn; rewrite ?R, ?DR; auto; try discriminate.
      * exists rest. split; [rewrite (unacc_upd _ _ _ _ N); auto|]. intros X. left. eapply bad_upd; eauto.
      * intros l Hl. rewrite upd_length. auto.
      * no_ret.
    + destruct (nth_error (pa_futs s) i) as [[[n x] [|a b|b]]|] eqn:N; try discriminate. injection H as <-.
      constructor; cbn; rewrite ?R, ?DR; auto; try discriminate.
      * exists ((n, x) :: rest). split.
        -- eapply Permutation_trans; [exact CT|]. apply Permutation_app_head. cbn [app].
           eapply Permutation_trans; [apply Permutation_app_tail; apply (unacc_upd_gone _ _ _ (n, x, FReady false) N); reflexivity|].
           cbn [fst app]. apply Permutation_middle.
        -- intros _. left. apply existsb_exists. eexists. split; [eapply In_upd_new; eauto|reflexivity].
      * intros l Hl. rewrite upd_length. auto.
      * no_ret.
    + destruct (nth_error (pa_futs s) i) as [[[n x] [|a [|]|b]]|] eqn:N; try discriminate. injection H as <-.
      constructor; cbn; rewrite ?R, ?DR; auto; try discriminate.
      * exists rest. split; [rewrite (unacc_upd _ _ _ _ N); auto; now destruct a|]. intros X. left. eapply bad_upd; eauto.
      * intros l Hl. rewrite upd_length. auto.
      * no_ret.
    + destruct (pick i (pa_futs s)) as [[[[n x] [|a b|[|]]] r]|] eqn:P; try discriminate; injection H as <-.
      * constructor; cbn; rewrite ?R, ?DR; auto; try discriminate.
        -- exists rest. split.
           ++ eapply Permutation_trans; [exact CT|]. apply Permutation_app_head. cbn [app].
              apply Permutation_app_tail. eapply Permutation_trans; [apply (unacc_pick _ _ _ _ P)|]. rewrite unacc_cons. reflexivity.
           ++ intros X. left. eapply bad_pick; eauto.
        -- intros l Hl. specialize (LM l Hl). apply pick_length in P. lia.
        -- no_ret.
      * constructor; cbn; auto; try discriminate; try lia.
        -- destruct (half_unacc (pa_futs s)) as (more & HM). exists (more ++ rest). split.
           ++ eapply Permutation_trans; [exact CT|]. apply Permutation_app_head.
              eapply Permutation_trans; [apply Permutation_app_tail; exact HM|]. rewrite <- app_assoc. reflexivity.
           ++ intros _. right. eexists; split; [reflexivity|discriminate].
        -- intros _. right. eexists; split; [reflexivity|discriminate].
    + destruct (pa_open s) eqn:O; [discriminate|]. destruct (pa_futs s) as [|f fs] eqn:F; [|discriminate]. injection H as <-.
      destruct (CL eq_refl) as [[A1 A2]|(r & X & _)]; [|discriminate].
      constructor; cbn; rewrite ?F; auto; try discriminate; try lia.
      exists rest. split; [exact CT|]. intros X. specialize (RS' X). discriminate RS'.
    + destruct (pa_late s) as [|x lt] eqn:L; [discriminate|]. injection H as <-. constructor; cbn; rewrite ?DR; auto; try discriminate.
      * rewrite SP. cbn. now rewrite <- app_assoc.
      * exists rest. split; [exact CT|]. auto.
      * intros X. specialize (EN X). discriminate.
      * intros X. destruct (CL X) as [[X1 X2]|(r & X1 & _)]; [specialize (EN X2); discriminate|discriminate].
    + destruct (pa_late s) as [|x lt] eqn:L; [|discriminate]. destruct (pa_end s) eqn:EE; [discriminate|]. injection H as <-.
      constructor; cbn; rewrite ?DR; auto; try discriminate.
      * exists rest. split; [exact CT|]. auto.
      * intros X. destruct (CL X) as [[X1 X2]|(r & X1 & _)]; discriminate.
    + destruct (nth_error (pa_futs s) i) as [[[n x] [|[|] b|b]]|] eqn:N; try discriminate. injection H as <-.
      constructor; cbn; rewrite ?DR; auto; try discriminate.
      * exists rest. split.
        -- eapply Permutation_trans; [exact CT|].
           eapply Permutation_trans; [apply Permutation_app_head, Permutation_app_tail; apply (unacc_upd_gone _ _ _ (n, x, FWait true b) N); reflexivity|].
           cbn [fst app]. rewrite <- app_assoc. reflexivity.
        -- intros X. left. eapply bad_upd; eauto.
      * intros l Hl. rewrite upd_length. auto.
      * no_ret.
    + destruct (nth_error (pa_futs s) i) as [[[n x] [|a b|b]]|] eqn:N; try discriminate.
      destruct (negb ok || a) eqn:G; [|discriminate]. injection H as <-.
      constructor; cbn; rewrite ?R, ?DR; auto; try discriminate.
      * destruct a.
        -- exists rest. split; [rewrite (unacc_upd _ _ _ _ N); auto; now destruct ok|]. intros X. left. eapply bad_upd; eauto.
        -- destruct ok; [discriminate|]. exists ((n, x) :: rest). split.
           ++ eapply Permutation_trans; [exact CT|]. apply Permutation_app_head. cbn [app].
              eapply Permutation_trans; [apply Permutation_app_tail; apply (unacc_upd_gone _ _ _ (n, x, FReady false) N); reflexivity|].
              cbn [fst app]. apply Permutation_middle.
           ++ intros _. left. apply existsb_exists. eexists. split; [eapply In_upd_new; eauto|reflexivity].
      * intros l Hl. rewrite upd_length. auto.
      * no_ret.
Qed.

Lemma pinv_init : forall limit arr late ended, pinv (arr ++ late) (pa_init limit arr late ended).
Proof.
  intros. constructor; cbn; auto; try discriminate; try lia.
  - exists []. split; [constructor|]. congruence.
  - destruct limit as [[|l]|]; discriminate.
  - now destruct late.
Qed.

Lemma pinv_run : forall limit arr late ended tr s,
  run_from pa_step (pa_init limit arr late ended) tr = Some s -> pinv (arr ++ late) s.
Proof.
  intros limit arr late ended tr s H.
  refine (run_from_inv _ _ pa_step (pinv (arr ++ late)) _ tr _ s (pinv_init limit arr late ended) H).
  intros; eapply pinv_step; eauto.
Qed.

(** Failures stick. *)
Lemma bad_stays : forall (s : st) e s', pa_step s e = Some s' ->
  existsb bad (pa_futs s) = true \/ (exists r, pa_ret s = Some r /\ r <> PaOk) \/ is_failure e = true ->
  existsb bad (pa_futs s') = true \/ (exists r, pa_ret s' = Some r /\ r <> PaOk).
Proof.
  intros s e s' H B. unfold pa_step in H. destruct (pa_ret s) as [r|] eqn:R.
  - destruct e; try discriminate. destruct (pick i (pa_dropped s)) as [[m d]|]; [|discriminate]. injection H as <-. cbn.
    destruct B as [B|[(r' & B1 & B2)|B]]; [auto| |discriminate]. right. exists r. injection B1 as ->. auto.
  - assert (B' : existsb bad (pa_futs s) = true \/ is_failure e = true).
    { destruct B as [B|[(r' & B1 & B2)|B]]; [auto|discriminate|auto]. }
    clear B. destruct e as [|i|i|i|i| | | |i|i ok|i]; try discriminate; cbn [is_failure] in B'.
    + destruct B' as [B|B]; [|discriminate]. destruct (pa_open s && may_pull s); [|discriminate].
      destruct (pa_arr s) as [|[x|x] arr]; [destruct (pa_end s)| |]; injection H as <-; cbn; auto.
      * left. rewrite existsb_app, B. reflexivity.
      * right. eexists; split; [reflexivity|discriminate].
    + destruct B' as [B|B]; [|discriminate].
      destruct (nth_error (pa_futs s) i) as [[[n x] [|a b|b]]|] eqn:N; try discriminate. injection H as <-. cbn. left. eapply bad_upd; eauto.
    + destruct (nth_error (pa_futs s) i) as [[[n x] [|a b|b]]|] eqn:N; try discriminate. injection H as <-. cbn. left.
      apply existsb_exists. eexists. split; [eapply In_upd_new; eauto|reflexivity].
    + destruct B' as [B|B]; [|discriminate].
      destruct (nth_error (pa_futs s) i) as [[[n x] [|a [|]|b]]|] eqn:N; try discriminate. injection H as <-. cbn. left. eapply bad_upd; eauto.
    + destruct B' as [B|B]; [|discriminate].
      destruct (pick i (pa_futs s)) as [[[[n x] [|a b|[|]]] r]|] eqn:P; try discriminate; injection H as <-; cbn.
      * left. eapply bad_pick; eauto.
      * right. eexists; split; [reflexivity|discriminate].
    + destruct B' as [B|B]; [|discriminate]. destruct (pa_open s); [discriminate|]. destruct (pa_futs s); [discriminate B|discriminate].
    + destruct B' as [B|B]; [|discriminate]. destruct (pa_late s); [discriminate|]. injection H as <-. auto.
    + destruct B' as [B|B]; [|discriminate]. destruct (pa_late s); [|discriminate]. destruct (pa_end s); [discriminate|]. injection H as <-. auto.
    + destruct B' as [B|B]; [|discriminate].
      destruct (nth_error (pa_futs s) i) as [[[n x] [|[|] b|b]]|] eqn:N; try discriminate. injection H as <-. cbn. left. eapply bad_upd; eauto.
    + destruct (nth_error (pa_futs s) i) as [[[n x] [|a b|b]]|] eqn:N; try discriminate.
      destruct (negb ok || a); [|discriminate]. injection H as <-. cbn. left.
      destruct ok.
      * destruct B' as [B|B]; [eapply bad_upd; eauto|discriminate].
      * apply existsb_exists. eexists. split; [eapply In_upd_new; eauto|reflexivity].
Qed.

(** Conversely a failed future, and the error returned for it, come from a failing event. *)
Lemma bad_origin : forall tr (s0 s : st), pa_futs s0 = [] -> pa_ret s0 = None -> run_from pa_step s0 tr = Some s ->
  forall n, (exists x, In (n, x, FReady false) (pa_futs s)) \/ pa_ret s = Some (PaPublish n) ->
  exists t1 e t2 s1 i x f, tr = t1 ++ e :: t2 /\ is_failure e = true /\ run_from pa_step s0 t1 = Some s1 /\
    (e = PaRefuse i \/ e = PaReply i false) /\ nth_error (pa_futs s1) i = Some (n, x, f).
Proof.
  intros tr. induction tr as [|e tr IH] using rev_ind; intros s0 s F R H n B.
  - cbn in H. injection H as <-. rewrite F, R in B. destruct B as [(x & [])|B]; discriminate.
  - apply run_from_app in H as (s1 & H1 & H2). cbn in H2. destruct (pa_step s1 e) as [s2|] eqn:S; [|discriminate]. injection H2 as ->.
    assert (OLD : (exists x, In (n, x, FReady false) (pa_futs s1)) \/ pa_ret s1 = Some (PaPublish n) ->
      exists t1 e0 t2 s1 i x f, tr ++ [e] = t1 ++ e0 :: t2 /\ is_failure e0 = true /\ run_from pa_step s0 t1 = Some s1 /\
        (e0 = PaRefuse i \/ e0 = PaReply i false) /\ nth_error (pa_futs s1) i = Some (n, x, f)).
    { intros O. destruct (IH s0 s1 F R H1 n O) as (t1 & e0 & t2 & s3 & i & x & f & -> & X1 & X2 & X3 & X4).
      exists t1, e0, (t2 ++ [e]), s3, i, x, f. rewrite <- app_assoc. auto. }
    assert (NEW : forall i x f, (e = PaRefuse i \/ e = PaReply i false) -> nth_error (pa_futs s1) i = Some (n, x, f) ->
      exists t1 e0 t2 s1 i x f, tr ++ [e] = t1 ++ e0 :: t2 /\ is_failure e0 = true /\ run_from pa_step s0 t1 = Some s1 /\
        (e0 = PaRefuse i \/ e0 = PaReply i false) /\ nth_error (pa_futs s1) i = Some (n, x, f)).
    { intros i x f Ee Ne. exists tr, e, [], s1, i, x, f. repeat split; auto. destruct Ee as [-> | ->]; reflexivity. }
    clear IH. unfold pa_step in S. destruct (pa_ret s1) as [r|] eqn:R1.
    + destruct e; try discriminate. destruct (pick i (pa_dropped s1)) as [[m d]|]; [|discriminate]. injection S as <-. cbn in B. auto.
    + destruct e as [|i|i|i|i| | | |i|i ok|i]; try discriminate.
      * destruct (pa_open s1 && may_pull s1); [|discriminate].
        destruct (pa_arr s1) as [|[x|x] arr]; [destruct (pa_end s1)| |]; injection S as <-; cbn in B; auto.
        -- apply OLD. destruct B as [(y & B)|B]; [|discriminate]. left. exists y. apply in_app_iff in B as [B|[B|[]]]; [exact B|discriminate].
        -- destruct B as [(y & [])|B]; discriminate.
      * destruct (nth_error (pa_futs s1) i) as [[[m x] [|a b|b]]|] eqn:N; try discriminate. injection S as <-. cbn in B. rewrite R1 in B.
        apply OLD. destruct B as [(y & B)|B]; [|auto]. left. exists y. apply nth_In_upd in B as [B|B]; [discriminate|exact B].
      * destruct (nth_error (pa_futs s1) i) as [[[m x] [|a b|b]]|] eqn:N; try discriminate. injection S as <-. cbn in B. rewrite R1 in B.
        destruct B as [(y & B)|B]; [|auto]. apply nth_In_upd in B as [B|B]; [|apply OLD; eauto]. injection B as -> ->.
        eapply NEW; [left; reflexivity|exact N].
      * destruct (nth_error (pa_futs s1) i) as [[[m x] [|a [|]|b]]|] eqn:N; try discriminate. injection S as <-. cbn in B. rewrite R1 in B.
        apply OLD. destruct B as [(y & B)|B]; [|auto]. left. exists y. apply nth_In_upd in B as [B|B]; [discriminate|exact B].
      * destruct (pick i (pa_futs s1)) as [[[[m x] [|a b|[|]]] r]|] eqn:P; try discriminate; injection S as <-; cbn in B.
        -- rewrite R1 in B. apply OLD. destruct B as [(y & B)|B]; [|auto]. left. exists y. eapply pick_in_rest; eauto.
        -- destruct B as [(y & [])|B]. injection B as ->. apply OLD. left. exists x. eapply pick_in; eauto.
      * destruct (pa_open s1); [discriminate|]. destruct (pa_futs s1); [|discriminate]. injection S as <-. cbn in B.
        destruct B as [(y & [])|B]; discriminate.
      * destruct (pa_late s1); [discriminate|]. injection S as <-. cbn in B. apply OLD. destruct B as [B|B]; [auto|discriminate].
      * destruct (pa_late s1); [|discriminate]. destruct (pa_end s1); [discriminate|]. injection S as <-. cbn in B. apply OLD. destruct B as [B|B]; [auto|discriminate].
      * destruct (nth_error (pa_futs s1) i) as [[[m x] [|[|] b|b]]|] eqn:N; try discriminate. injection S as <-. cbn in B.
        apply OLD. destruct B as [(y & B)|B]; [|discriminate]. left. exists y. apply nth_In_upd in B as [B|B]; [discriminate|exact B].
      * destruct (nth_error (pa_futs s1) i) as [[[m x] [|a b|b]]|] eqn:N; try discriminate.
        destruct (negb ok || a); [|discriminate]. injection S as <-. cbn in B. rewrite R1 in B.
        destruct B as [(y & B)|B]; [|auto]. apply nth_In_upd in B as [B|B]; [|apply OLD; eauto]. injection B as B1 B2 B3. subst n ok.
        eapply NEW; [right; reflexivity|exact N].
Qed.

(** Progress. *)
Definition weight (f : nat * T * fut) : nat :=
  match snd f with FNew => 6 | FWait a r => (if a then 0 else 2) + (if r then 0 else 1) + 2 | FReady _ => 1 end.
Definition mu (s : st) : nat :=
  (match pa_ret s with None => 1 | Some _ => 0 end) + 8 * length (pa_arr s) + 9 * length (pa_late s) + list_sum (map weight (pa_futs s))
  + (if pa_open s then 1 else 0) + (if pa_end s then 0 else 1) + length (pa_dropped s).

Lemma half_sum : forall l, length (half_done l) <= list_sum (map weight l).
Proof.
  induction l as [|[x f] l IH]; [reflexivity|]. unfold half_done in *. cbn [filter snd map list_sum].
  change (list_sum (weight (x, f) :: map weight l)) with (weight (x, f) + list_sum (map weight l)).
  destruct f as [|[|] r|b]; cbn [map length weight snd fst] in *; lia.
Qed.
Lemma sum_upd : forall i l f g, nth_error l i = Some f -> list_sum (map weight (upd i g l)) + weight f = list_sum (map weight l) + weight g.
Proof.
  intros i l f g N. destruct (upd_split _ _ _ _ N) as (a & b & -> & _ & U). rewrite U, !map_app, !list_sum_app. cbn [map].
  change (list_sum (weight g :: map weight b)) with (weight g + list_sum (map weight b)).
  change (list_sum (weight f :: map weight b)) with (weight f + list_sum (map weight b)). lia.
Qed.
Lemma sum_pick : forall i l f r, pick i l = Some (f, r) -> list_sum (map weight l) = weight f + list_sum (map weight r).
Proof.
  intros i l f r P. apply pick_perm in P. apply (Permutation_map weight) in P.
  assert (G : forall a b, Permutation a b -> list_sum a = list_sum b).
  { intros a b Q. induction Q; unfold list_sum in *; cbn [fold_right] in *; lia. }
  apply G in P. exact P.
Qed.

Lemma mu_step : forall (s : st) e s', pa_step s e = Some s' -> pa_open s = true \/ pa_dropped s = [] \/ pa_ret s <> None ->
  (pa_ret s = None -> pa_dropped s = []) ->
  if idle_pull s e then mu s' = mu s else mu s' < mu s.
Proof.
  intros s e s' H _ DR. unfold pa_step in H. unfold mu. destruct (pa_ret s) as [r|] eqn:R.
  - destruct e; try discriminate. destruct (pick i (pa_dropped s)) as [[m d]|] eqn:P; [|discriminate]. injection H as <-.
    cbn [idle_pull pa_ret pa_arr pa_late pa_futs pa_open pa_end pa_dropped]. apply pick_length in P. lia.
  - rewrite (DR eq_refl). destruct e as [|i|i|i|i| | | |i|i ok|i]; try discriminate; cbn [idle_pull].
    + destruct (pa_open s && may_pull s) eqn:G; [|discriminate]. apply andb_true_iff in G as [G1 G2]. rewrite G1.
      destruct (pa_arr s) as [|[x|x] arr] eqn:A; [destruct (pa_end s) eqn:EE| |]; injection H as <-; cbn [negb pa_ret pa_arr pa_late pa_futs pa_open pa_end pa_dropped pa_return length]; rewrite ?(DR eq_refl); cbn [length]; try lia.
      * rewrite map_app, list_sum_app. change (list_sum (map weight [(length (pa_pulled s), x, FNew)])) with 6. lia.
      * pose proof (half_sum (pa_futs s)). change (list_sum (map weight [])) with 0. lia.
    + destruct (nth_error (pa_futs s) i) as [[[m x] [|a b|b]]|] eqn:N; try discriminate. injection H as <-.
      cbn [negb pa_ret pa_arr pa_late pa_futs pa_open pa_end pa_dropped set_futs]. rewrite R, (DR eq_refl). pose proof (sum_upd _ _ _ (m, x, FWait false false) N) as Q. cbn [weight snd] in Q. lia.
    + destruct (nth_error (pa_futs s) i) as [[[m x] [|a b|b]]|] eqn:N; try discriminate. injection H as <-.
      cbn [negb pa_ret pa_arr pa_late pa_futs pa_open pa_end pa_dropped set_futs]. rewrite R, (DR eq_refl). pose proof (sum_upd _ _ _ (m, x, FReady false) N) as Q. cbn [weight snd] in Q. lia.
    + destruct (nth_error (pa_futs s) i) as [[[m x] [|a [|]|b]]|] eqn:N; try discriminate. injection H as <-.
      cbn [negb pa_ret pa_arr pa_late pa_futs pa_open pa_end pa_dropped set_futs]. rewrite R, (DR eq_refl). pose proof (sum_upd _ _ _ (m, x, FWait a true) N) as Q. cbn [weight snd] in Q. destruct a; lia.
    + destruct (pick i (pa_futs s)) as [[[[m x] [|a b|[|]]] r]|] eqn:P; try discriminate; injection H as <-;
        cbn [negb pa_ret pa_arr pa_late pa_futs pa_open pa_end pa_dropped set_futs pa_return].
      * rewrite R, (DR eq_refl). pose proof (sum_pick _ _ _ _ P) as Q. cbn [weight snd] in Q. lia.
      * pose proof (half_sum (pa_futs s)). change (list_sum (map weight [])) with 0. lia.
    + destruct (pa_open s); [discriminate|]. destruct (pa_futs s) as [|f fs] eqn:F; [|discriminate]. injection H as <-. cbn [negb idle_pull pa_ret pa_arr pa_late pa_futs pa_open pa_end pa_dropped set_futs set_woken pa_return length app]. rewrite F. change (half_done []) with (@nil (nat * T)). cbn [map length]. lia.
    + destruct (pa_late s) as [|x lt] eqn:L; [discriminate|]. injection H as <-. cbn [negb idle_pull pa_ret pa_arr pa_late pa_futs pa_open pa_end pa_dropped set_futs set_woken pa_return length app]. rewrite app_length, (DR eq_refl). cbn [length]. lia.
    + destruct (pa_late s) as [|x lt] eqn:L; [|discriminate]. destruct (pa_end s); [discriminate|]. injection H as <-. cbn [negb idle_pull pa_ret pa_arr pa_late pa_futs pa_open pa_end pa_dropped set_futs set_woken pa_return length app]. rewrite (DR eq_refl). cbn [length]. lia.
    + destruct (nth_error (pa_futs s) i) as [[[m x] [|[|] b|b]]|] eqn:N; try discriminate. injection H as <-.
      cbn [negb pa_ret pa_arr pa_late pa_futs pa_open pa_end pa_dropped set_futs]. rewrite (DR eq_refl). pose proof (sum_upd _ _ _ (m, x, FWait true b) N) as Q. cbn [weight snd] in Q. destruct b; lia.
    + destruct (nth_error (pa_futs s) i) as [[[m x] [|a b|b]]|] eqn:N; try discriminate.
      destruct (negb ok || a); [|discriminate]. injection H as <-.
      cbn [negb pa_ret pa_arr pa_late pa_futs pa_open pa_end pa_dropped set_futs set_woken]. rewrite R, (DR eq_refl). pose proof (sum_upd _ _ _ (m, x, FReady ok) N) as Q. cbn [weight snd] in Q. destruct a, b; lia.
Qed.

Lemma mu_run : forall inp tr s s', pinv inp s -> run_from pa_step s tr = Some s' -> length tr <= mu s + idle_pulls s tr.
Proof.
  intros inp tr; induction tr as [|e tr IH]; intros s s' I H; cbn in *; [lia|].
  destruct (pa_step s e) as [s1|] eqn:S; [|discriminate].
  assert (I1 : pinv inp s1) by (eapply pinv_step; eauto). specialize (IH s1 s' I1 H).
  pose proof (mu_step s e s1 S) as M. destruct I. specialize (M ltac:(destruct (pa_ret s) eqn:R; [right; right; discriminate|right; left; auto]) pi_drop0).
  destruct (idle_pull s e); lia.
Qed.

(** While the call has not returned, something other than an idle poll can happen. *)
Lemma can_step : forall inp s, pinv inp s -> pa_ret s = None -> exists e s', pa_step s e = Some s' /\ idle_pull s e = false.
Proof.
  intros inp s I R. destruct (pa_futs s) as [|[[n x] f] fs] eqn:F.
  - destruct (pa_open s) eqn:O.
    + assert (MP : may_pull s = true).
      { unfold may_pull. rewrite F. destruct (pa_limit s) as [[|l]|] eqn:L; auto. destruct I. congruence. }
      destruct (pa_arr s) as [|y arr] eqn:A.
      * destruct (pa_end s) eqn:EE.
        -- exists PaPull. unfold pa_step, idle_pull. rewrite R, O, MP, A, EE. cbn. eauto.
        -- destruct (pa_late s) as [|y lt] eqn:L.
           ++ exists PaEnd. unfold pa_step, idle_pull. rewrite R, L, EE. eauto.
           ++ exists PaArrive. unfold pa_step, idle_pull. rewrite R, L. eauto.
      * exists PaPull. unfold pa_step, idle_pull. rewrite R, O, MP, A. cbn. destruct y; eauto.
    + exists PaReturn. unfold pa_step, idle_pull. rewrite R, O, F. eauto.
  - destruct f as [|[|] r|[|]].
    + exists (PaStart 0). unfold pa_step, idle_pull. rewrite R, F. cbn. eauto.
    + exists (PaReply 0 true). unfold pa_step, idle_pull. rewrite R, F. cbn. eauto.
    + exists (PaAccept 0). unfold pa_step, idle_pull. rewrite R, F. cbn. eauto.
    + exists (PaFinish 0). unfold pa_step, idle_pull. rewrite R, F. cbn. eauto.
    + exists (PaFinish 0). unfold pa_step, idle_pull. rewrite R, F. cbn. eauto.
Qed.
End PublishFacts.
