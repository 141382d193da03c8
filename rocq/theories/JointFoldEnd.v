(** C99, continued: the fold returns. *)
From Coq Require Import List Arith NArith Lia Bool Permutation.
From Verif Require Import Base BaseFacts PublishModel PublishSpec MapModel MapSpec ContiguousModel ContiguousSpec ContiguousProofs FoldModel FoldSpec FoldProofs FoldLive FoldProps RetryModel
  WorkerModel WorkerSpec WorkerProofs WorkerFacts WorkerInv WorkerProps SystemModel SystemSpec SystemProofs SystemProps JointModel JointProofs JointInv JointProps PoolLive PoolProps JointLive JointEnd JointFold.
Import ListNotations.
Open Scope nat_scope.

(** * The fold alone *)
Section Alone.
Variables A E O : Type.
Variable comb : O -> A -> A -> Base.res E A.
Variable empty : A.
Variable base : N.
Variable l : list A.
Hypothesis bound : (base + N.of_nat (length l) <= usize_max)%N.
Hypothesis comb_total : forall o a b, exists c, comb o a b = ROk c.
Notation pinv := (pinv A E O comb empty base l).
Notation full := (full A base l).
(** One item of the assembler covers all the input. *)
Definition parked (s : fstate A E) : Prop := 2 <= length l /\ exists it, In it (map snd (f_asm s)) /\ full it.

Lemma fold_progress : forall (orc : O) (s : fstate A E), (exists e s', nofault e = true /\ fold_step comb empty s e = Some s') \/ forall e, nofault e = true -> fold_step comb empty s e = None.
Proof.
  intros orc s. destruct (f_ret s) eqn:R; [right; intros e _; unfold fold_step; now rewrite R|].
  destruct (f_inp s) as [|r rest] eqn:FI.
  - destruct (f_ended s) eqn:FE.
    + destruct (f_chan s) as [|t c] eqn:FC.
      * destruct (f_tasks s) as [|t ts] eqn:FT.
        -- destruct (f_final s) as [it|] eqn:FF; [left; exists (EvFinal true); eexists; split; [reflexivity|]; unfold fold_step; rewrite R, FF; reflexivity|].
           destruct (f_results s) as [|r rs] eqn:FR; [|destruct (2 <=? f_count s)%N eqn:C2].
           ++ right. intros e N. unfold fold_step. rewrite R, FI, FE, FC, FT, FF, FR. destruct e as [| |[|i] ok|[|i] o|[|i] ack|ok|[|i]|[|i]|[|i]|[|i]]; try reflexivity; cbn; destruct (2 <=? f_count s)%N; reflexivity.
           ++ left. exists (EvResult 0 true). eexists. split; [reflexivity|]. unfold fold_step. rewrite R, C2, FR. reflexivity.
           ++ right. intros e N. unfold fold_step. rewrite R, FI, FE, FC, FT, FF, C2. destruct e as [| |[|i] ok|[|i] o|[|i] ack|ok|i|i|i|i]; try reflexivity; discriminate N.
        -- left. exists (EvWork 0 orc). eexists. split; [reflexivity|]. unfold fold_step. rewrite R, FT. reflexivity.
      * left. exists (EvPublish 0 true). eexists. split; [reflexivity|]. unfold fold_step. rewrite R, FC. reflexivity.
    + left. exists EvInputEnd. eexists. split; [reflexivity|]. unfold fold_step. rewrite R, FI, FE. reflexivity.
  - left. exists EvInput. unfold fold_step. rewrite R, FI. destruct r; eexists; split; reflexivity.
Qed.
(** Reading an item does not park the result. *)
Lemma read_asm : forall s s', pinv s -> fold_step comb empty s EvInput = Some s' -> forall it, In it (map snd (f_asm s')) -> it_lo it = it_hi it \/ In it (map snd (f_asm s)).
Proof.
  intros s s' I H it IN. unfold fold_step in H. rewrite (p_ret _ _ _ _ _ _ _ _ I) in H. destruct (v_inp _ _ _ _ _ _ _ _ (p_v _ _ _ _ _ _ _ _ I)) as (arr & EA & HA). destruct arr as [|[ix x] arr]; cbn in EA; rewrite EA in H; [discriminate|]. injection H as <-.
  assert (VI : vitem A E O comb base l (mkItem ix ix x)) by (apply input_vitem; [exact bound|apply HA; now left]).
  unfold on_input in IN. cbn [f_count set_inp fst snd] in IN. destruct (N.ltb_spec (f_count s + 1) 2) as [C|C].
  - cbn [f_asm set_count set_inp set_asm] in IN. rewrite (p_zero _ _ _ _ _ _ _ _ I) in IN by lia. cbn in IN. destruct IN as [<-|[]]. left. reflexivity.
  - unfold try_dispatch in IN. cbn [f_asm set_count set_inp] in IN.
    pose proof (acquire_safe A (f_asm s) (mkItem ix ix x) (v_sorted _ _ _ _ _ _ _ _ (p_v _ _ _ _ _ _ _ _ I)) (v_keyed _ _ _ _ _ _ _ _ (p_v _ _ _ _ _ _ _ _ I))
      (asm_proper A E O comb base l bound _ (v_asm _ _ _ _ _ _ _ _ (p_v _ _ _ _ _ _ _ _ I))) (vitem_proper A E O comb base l bound _ VI)) as AS.
    destruct (cq_acquire item_key is_contiguous (f_asm s) (mkItem ix ix x)) as [[[a b]|] q']; cbn in IN.
    + right. apply AS. exact IN.
    + apply AS in IN. destruct IN as [->|IN]; [now left|now right].
Qed.
(** When the result is parked there is nothing else. *)
Lemma parked_rest : forall s, pinv s -> parked s -> f_inp s = [] /\ f_chan s = [] /\ f_tasks s = [] /\ f_results s = [] /\ f_final s = None.
Proof.
  intros s I (_ & it & IN & F1 & F2). apply in_split in IN. destruct IN as (a & b & EQ).
  pose proof (p_cov _ _ _ _ _ _ _ _ I) as PC. pose proof (pool_bounds A E O comb empty base l bound s (p_v _ _ _ _ _ _ _ _ I)) as PB. unfold pool, contents in PC, PB. rewrite EQ, map_app in PC, PB. cbn [map] in PC, PB.
  set (rest := map trng (f_chan s) ++ map trng (f_tasks s) ++ flat_map rrng (f_results s) ++ frng (f_final s)) in *.
  assert (PC' : forall i, holders ((flat_map inrng (f_inp s) ++ map irng a) ++ irng it :: (map irng b ++ rest)) i = expected A base l i).
  { intros i. rewrite <- (PC i). f_equal. rewrite <- !app_assoc. reflexivity. }
  destruct (full_alone A base l bound _ _ _ PC' F1 F2) as [Z1 Z2].
  { intros r' Hr. apply PB. rewrite !in_app_iff in *. cbn. rewrite ?in_app_iff. tauto. }
  apply app_eq_nil in Z1. destruct Z1 as [Z1 _]. apply app_eq_nil in Z2. destruct Z2 as [_ Z2].
  unfold rest in Z2. apply app_eq_nil in Z2. destruct Z2 as [Z2 Z3]. apply app_eq_nil in Z3. destruct Z3 as [Z3 Z4]. apply app_eq_nil in Z4. destruct Z4 as [Z4 Z5]. apply map_eq_nil in Z2, Z3.
  split; [|split; [exact Z2|split; [exact Z3|split]]].
  - destruct (v_inp _ _ _ _ _ _ _ _ (p_v _ _ _ _ _ _ _ _ I)) as (arr & EA & _). destruct arr as [|[i x] arr]; [exact EA|]. rewrite EA in Z1. discriminate Z1.
  - pose proof (p_ok _ _ _ _ _ _ _ _ I) as OK. destruct (f_results s) as [|r rs]; [reflexivity|]. inversion OK as [|? ? (x & ->) _]; subst. discriminate.
  - destruct (f_final s); [discriminate|reflexivity].
Qed.
Lemma parked_step : forall s e s', pinv s -> parked s -> nofault e = true -> fold_step comb empty s e = Some s' -> pinv s' /\ parked s'.
Proof.
  intros s e s' I PK NF H. destruct (parked_rest s I PK) as (E1 & E2 & E3 & E4 & E5). destruct (live_step A E O comb empty base l bound comb_total s e s' I NF H) as [L _].
  pose proof (v_count _ _ _ _ _ _ _ _ (p_v _ _ _ _ _ _ _ _ I)) as HC. rewrite E1 in HC. cbn in HC.
  assert (S : s' = set_ended s).
  { unfold fold_step in H. rewrite (p_ret _ _ _ _ _ _ _ _ I), E1, E2, E3, E4, E5 in H. destruct e as [| |[|i] ok|[|i] o|[|i] ack|ok|i|i|i|i]; try discriminate; try (destruct (2 <=? f_count s)%N; discriminate).
    destruct (f_ended s); [discriminate|]. injection H as <-. unfold on_input_end. cbn [f_count set_ended]. destruct PK as [L2 _]. destruct (N.eqb_spec (f_count s) 0); [lia|]. destruct (N.eqb_spec (f_count s) 1); [lia|reflexivity]. }
  subst s'. destruct L as [L|[(v & L & _)|(L & _)]].
  - split; [exact L|exact PK].
  - cbn in L. rewrite (p_ret _ _ _ _ _ _ _ _ I) in L. discriminate.
  - cbn in L. rewrite (p_ret _ _ _ _ _ _ _ _ I) in L. discriminate.
Qed.
Lemma parked_run : forall tr s s', pinv s -> parked s -> fault_free tr -> run_from (fold_step comb empty) s tr = Some s' -> pinv s' /\ parked s'.
Proof.
  intros tr. induction tr as [|e tr IH]; intros s s' I PK F H; cbn in H; [injection H as <-; auto|]. inversion F as [|? ? Fe F']; subst. destruct (fold_step comb empty s e) as [s1|] eqn:S; [|discriminate].
  destruct (parked_step _ _ _ I PK Fe S) as [I1 P1]. eauto.
Qed.
Lemma end_read : forall s s', pinv s -> ~ parked s -> fold_step comb empty s EvInputEnd = Some s' -> FoldLive.jinv A E O comb empty base l s' \/ fin A E base l s'.
Proof.
  intros s s' I NP H. destruct (live_step A E O comb empty base l bound comb_total s EvInputEnd s' I eq_refl H) as [[I'|I'] _]; [left|now right].
  pose proof (v_count _ _ _ _ _ _ _ _ (p_v _ _ _ _ _ _ _ _ I)) as HC. unfold fold_step in H. rewrite (p_ret _ _ _ _ _ _ _ _ I) in H. destruct (f_inp s) eqn:FI; [|discriminate]. destruct (f_ended s); [discriminate|]. injection H as H.
  pose proof (p_ret _ _ _ _ _ _ _ _ I') as RN. unfold on_input_end in H. cbn [f_count set_ended] in H. cbn in HC.
  destruct (N.eqb_spec (f_count s) 0); [subst s'; discriminate RN|]. destruct (N.eqb_spec (f_count s) 1); [destruct (cq_dequeue _ _) as [[it|] q]; subst s'; discriminate RN|].
  subst s'. split; [exact I'|]. split; [reflexivity|]. intros it IN FU. apply NP. split; [lia|]. exists it. split; [exact IN|exact FU].
Qed.
End Alone.

Section End2.
Variable f : nat -> nat -> nat.
Variable g : nat -> nat -> nat -> nat.
Variable empty : nat -> nat.
Variable dead : nat -> bool.
Notation step := (j_step f g empty).
Notation may := (may f g).

(** Workers that are not gone go on without failures, what gone workers had not settled may come back, and the operations of fold [d] itself do not fail. *)
Inductive steadyf (d : nat) : joint -> list j_event -> joint -> Prop :=
| sf_nil : forall s, steadyf d s [] s
| sf_sys : forall s e s1 tr s2, calm dead (j_sys s) e -> step s (JSys e) = Some s1 -> steadyf d s1 tr s2 -> steadyf d s (JSys e :: tr) s2
| sf_own : forall s e s1 tr s2, nofault e = true -> step s (JOfFold d e) = Some s1 -> steadyf d s1 tr s2 -> steadyf d s (JOfFold d e :: tr) s2.
Lemma steadyf_app : forall d s tr s1 tr2 s2, steadyf d s tr s1 -> steadyf d s1 tr2 s2 -> steadyf d s (tr ++ tr2) s2.
Proof. intros d s tr s1 tr2 s2 H K. induction H as [s|s e s1 tr s0 C S _ IH|s e s1 tr s0 C S _ IH]; [exact K| |]; cbn [app]; [eapply sf_sys|eapply sf_own]; eauto. Qed.

Record fready (s : joint) (d op : nat) (inp : list (Base.res nat (N * nat))) (x : fstate nat nat) : Prop := {
  fr_run : exists tr, j_run f g empty tr = Some s;
  fr_fold : fold_at s d op inp x;
  fr_back : noback (j_sys s) d;
  fr_open : exists dd, nth_error (y_dirs (j_sys s)) d = Some dd /\ d_open dd = true;
  fr_clean : clean dead (j_sys s);
  fr_able : some_able dead (j_sys s);
  fr_tidy : tidy dead d (j_sys s)
}.
Lemma quiet : forall y, sinv may y -> clean dead y -> forall er, ~ reported y er.
Proof. intros y SI CL er (w & ws & tm & i & k & W & L). destruct (si_work _ _ SI _ _ W) as (ident & wtr & WR). exact (no_err_run _ _ _ WR (proj1 (CL _ _ W)) _ _ _ _ L). Qed.

(** A step of the fold itself. *)
Lemma ready_own : forall s d op inp x e x', fready s d op inp x -> fold_step (comb g op) (empty op) x e = Some x' -> own e -> exists s', step s (JOfFold d e) = Some s' /\ fready s' d op inp x'.
Proof.
  intros s d op inp x e x' [(tr & R) C NB (dd & D & O) CL AB TI] M F.
  destruct (C66_fold_free f g empty tr s d op inp x e x' dd R C D O M) as (s' & S & C'); [destruct e; exact F|]. exists s'. split; [exact S|].
  pose proof (jinv_run f g empty tr s R) as (SI & _ & _).
  destruct (jsys_step f g empty _ _ _ S) as [E|(ye & [(y & ->)|(j & ->)] & Y)].
  - constructor; try rewrite E; auto; [exists (tr ++ [JOfFold d e]); exact (one_step _ _ _ _ _ _ _ R S)|exists dd; auto].
  - cbn [y_step] in Y. rewrite D in Y. injection Y as Y. constructor; try rewrite <- Y; auto.
    + exists (tr ++ [JOfFold d e]). exact (one_step _ _ _ _ _ _ _ R S).
    + intros n x0 Z. cbn [y_sent y_back] in *. destruct (Nat.lt_ge_cases n (length (y_sent (j_sys s)))) as [L|L].
      * rewrite nth_error_app1 in Z by exact L. exact (NB _ _ Z).
      * apply cnt_zero. intros [[w i] n0] I. unfold back_n. cbn [snd]. pose proof (si_back _ _ SI _ _ _ I). apply Nat.eqb_neq. lia.
    + exists dd. auto.
    + intros w ws i n x0 W G T DS. cbn [y_workers] in W. destruct T as (tm & t & I & E). destruct (si_take _ _ SI _ _ _ _ _ W I) as (d1 & x1 & _ & S1 & _). rewrite E in S1. unfold dispatched in DS. cbn [y_sent] in DS.
      rewrite nth_error_app1 in DS by (apply nth_error_Some; congruence). exact (TI _ _ _ _ _ W G (ex_intro _ tm (ex_intro _ t (conj I E))) DS).
  - cbn [y_step] in Y. rewrite D in Y. destruct (pick j (y_results (j_sys s))) as [[r rest]|]; [|discriminate]. destruct (_ && _); [|discriminate]. injection Y as Y. constructor; try rewrite <- Y; auto.
    + exists (tr ++ [JOfFold d e]). exact (one_step _ _ _ _ _ _ _ R S).
    + eexists. cbn [y_dirs]. rewrite upd_nth_same by (apply nth_error_Some; congruence). split; reflexivity.
Qed.
(** A step of a worker. *)
Lemma ready_sys : forall s d op inp x e s', fready s d op inp x -> calm dead (j_sys s) e -> step s (JSys e) = Some s' -> exists x', fready s' d op inp x'.
Proof.
  intros s d op inp x e s' [(tr & R) C NB (dd & D & O) CL AB TI] P S. pose proof (jinv_run f g empty tr s R) as J. pose proof J as (SI & _ & _). destruct (fold_step_of f g empty _ _ _ _ _ _ _ J S C) as (x' & C' & _). exists x'.
  destruct (jsys_step f g empty _ _ _ S) as [E|(ye & OE & Y)]; [constructor; try rewrite E; auto; [exists (tr ++ [JSys e]); exact (one_step _ _ _ _ _ _ _ R S)|exists dd; auto]|]. cbn in OE. subst ye.
  destruct (calm_keeps f g dead _ _ _ d SI CL AB TI NB P Y) as (_ & CL1 & AB1 & TI1 & NB1). destruct (calm_dirs _ _ _ _ _ P Y) as [_ DK]. destruct (DK _ _ D) as (dd1 & D1 & _ & O1).
  constructor; auto; [exists (tr ++ [JSys e]); exact (one_step _ _ _ _ _ _ _ R S)|exists dd1; split; [exact D1|congruence]].
Qed.
Lemma ready_any : forall s d op inp x e s', fready s d op inp x -> step s (JOfFold d e) = Some s' -> exists x', fready s' d op inp x'.
Proof.
  intros s d op inp x e s' FR S. pose proof FR as [(tr & R) C _ _ _ _ _]. pose proof (jinv_run f g empty tr s R) as J. destruct (fold_step_of f g empty _ _ _ _ _ _ _ J S C) as (x' & C' & FF).
  assert (K : own e /\ fold_step (comb g op) (empty op) x e = Some x').
  { destruct FF as [_ NE _|fe Q OW M _ _|i t c Q _ M _ _ _|w we r p t dd Q]; [destruct (NE e eq_refl)|injection Q as <-; auto|injection Q as ->; split; [exact Logic.I|exact M]|discriminate Q]. }
  destruct (ready_own _ _ _ _ _ _ _ FR (proj2 K) (proj1 K)) as (s1 & S1 & FR1). rewrite S in S1. injection S1 as <-. eauto.
Qed.
Notation twin := (twin g empty).
(** The twin goes along. *)
Lemma twin_go : forall s d op inp x e s' x' ftr x0, fready s d op inp x -> step s e = Some s' -> fready s' d op inp x' -> (forall fe, e = JOfFold d fe -> nofault fe = true) -> twin (j_sys s) d op inp x ftr x0 ->
  exists new x0', twin (j_sys s') d op inp x' (ftr ++ new) x0' /\ run_from (fold_step (sure g op) (empty op)) x0 new = Some x0' /\
    ((exists fe, e = JOfFold d fe /\ new = [plain_of fe]) \/ (forall fe, e <> JOfFold d fe) /\ (new = [] \/ exists i, new = [EvWork i tt])).
Proof.
  intros s d op inp x e s' x' ftr x0 [(tr & R) C NB _ _ _ _] S [(tr' & R') C' _ _ CL' _ _] NF TW. pose proof (jinv_run f g empty tr s R) as J. pose proof (jinv_run f g empty tr' s' R') as (SI' & _ & _).
  exact (twin_joint f g empty s e s' d op inp x x' ftr x0 J S C C' NB (quiet _ SI' CL') NF TW).
Qed.
Definition given (e : fevent unit) : fevent (option nat) :=
  match e with
  | EvInput => EvInput | EvInputEnd => EvInputEnd | EvPublish i ok => EvPublish i ok | EvWork i _ => EvWork i None | EvResult i ack => EvResult i ack | EvFinal ok => EvFinal ok
  | EvDropTask i => EvDropTask i | EvDropResult i => EvDropResult i | EvDupTask i => EvDupTask i | EvDupResult i => EvDupResult i
  end.
Lemma twin_back : forall op x x0 e x0', alike x x0 -> own (given e) -> fold_step (sure g op) (empty op) x0 e = Some x0' -> exists x', fold_step (comb g op) (empty op) x (given e) = Some x'.
Proof.
  intros op x x0 e x0' AL OW H. unfold alike in AL. assert (ER : f_ret x = f_ret x0) by now rewrite AL. assert (EI : f_inp x = f_inp x0) by now rewrite AL. assert (EE : f_ended x = f_ended x0) by now rewrite AL.
  assert (EC : f_count x = f_count x0) by now rewrite AL. assert (ECH : f_chan x = f_chan x0) by now rewrite AL. assert (ERS : f_results x = f_results x0) by now rewrite AL. assert (EF : f_final x = f_final x0) by now rewrite AL. clear AL.
  unfold fold_step in *. rewrite ER, EI, EE, EC, ECH, ERS, EF. destruct (f_ret x0); [discriminate|]. destruct e as [| |i ok|i o|i ack|ok|i|i|i|i]; try (destruct OW; fail); cbn [given].
  - destruct (f_inp x0) as [|[]]; try discriminate; eauto.
  - destruct (f_inp x0); [|discriminate]. destruct (f_ended x0); [discriminate|eauto].
  - destruct (pick i (f_chan x0)) as [[]|]; [|discriminate]. destruct ok; eauto.
  - destruct (2 <=? f_count x0)%N; [|discriminate]. destruct (pick i (f_results x0)) as [[]|]; [|discriminate]. destruct ack; eauto.
  - destruct (f_final x0); [|discriminate]. destruct ok; eauto.
Qed.
Lemma own_go : forall s d op inp x ftr x0 e x0', fready s d op inp x -> twin (j_sys s) d op inp x ftr x0 -> own (given e) -> nofault e = true -> fold_step (sure g op) (empty op) x0 e = Some x0' ->
  exists s' x', step s (JOfFold d (given e)) = Some s' /\ fready s' d op inp x' /\ twin (j_sys s') d op inp x' (ftr ++ [e]) x0'.
Proof.
  intros s d op inp x ftr x0 e x0' FR TW OW NF M. destruct (twin_back _ _ _ _ _ (tw_like _ _ _ _ _ _ _ _ _ TW) OW M) as (x' & M'). destruct (ready_own _ _ _ _ _ _ _ FR M' OW) as (s' & S & FR'). exists s', x'. split; [exact S|]. split; [exact FR'|].
  assert (PG : plain_of (given e) = e) by (destruct e; try reflexivity; destruct OW).
  destruct (twin_go _ _ _ _ _ _ _ _ _ _ FR S FR' ltac:(intros fe Q; injection Q as <-; destruct e; exact NF) TW) as (new & x1 & TW' & RN & [(fe & Q & ->)|[NE _]]); [|destruct (NE _ eq_refl)].
  injection Q as <-. rewrite PG in *. cbn [run_from] in RN. rewrite M in RN. injection RN as <-. exact TW'.
Qed.
(** Steps of the workers. *)
Lemma sys_go : forall y tr y', calmly may dead y tr y' -> forallb (fun e => negb (is_recv e)) tr = true -> forall s d op inp x ftr x0, j_sys s = y -> fready s d op inp x -> twin (j_sys s) d op inp x ftr x0 ->
  exists s' x' new x0', steadyf d s (map JSys tr) s' /\ j_sys s' = y' /\ fready s' d op inp x' /\ twin (j_sys s') d op inp x' (ftr ++ new) x0' /\ run_from (fold_step (sure g op) (empty op)) x0 new = Some x0' /\
    forall e, In e new -> exists i, e = EvWork i tt.
Proof.
  intros y tr y' C. induction C as [y|y e y1 tr y2 P S _ IH]; intros NR s d op inp x ftr x0 E FR TW.
  - exists s, x, [], x0. split; [constructor|]. split; [exact E|]. split; [exact FR|]. rewrite app_nil_r. split; [exact TW|]. split; [reflexivity|]. intros e [].
  - cbn [forallb] in NR. apply andb_prop in NR. destruct NR as [NR1 NR2]. subst y.
    assert (ST : exists s1, step s (JSys e) = Some s1 /\ j_sys s1 = y1).
    { unfold j_step. destruct e as [k|d0 z|ident|w j|w e|w i|d0 j|d0]; try (destruct P; fail); try discriminate NR1; rewrite S; cbn [option_map]; eexists; split; reflexivity. }
    destruct ST as (s1 & ST & E1). destruct (ready_sys _ _ _ _ _ _ _ FR P ST) as (x1 & FR1). destruct (twin_go _ _ _ _ _ _ _ _ _ _ FR ST FR1 ltac:(discriminate) TW) as (new & x01 & TW1 & RN & [(fe & Q & _)|[_ NW]]); [discriminate Q|].
    destruct (IH NR2 s1 d op inp x1 _ x01 E1 FR1 TW1) as (s' & x' & new' & x0' & SD & E2 & FR2 & TW2 & RN2 & W). exists s', x', (new ++ new'), x0'. split; [cbn [map]; exact (sf_sys _ _ _ _ _ _ P ST SD)|]. split; [exact E2|]. split; [exact FR2|].
    rewrite app_assoc. split; [exact TW2|]. split; [apply run_from_app; eauto|]. intros e0 I. apply in_app_or in I. destruct I as [I|I]; [|auto]. destruct NW as [->|(i & ->)]; [destruct I|]. destruct I as [<-|[]]. eauto.
Qed.
(** The workers do what there is to do for the fold. *)
Lemma tasks_go : forall s d op inp x ftr x0, fready s d op inp x -> twin (j_sys s) d op inp x ftr x0 ->
  exists tr s' x' new x0', steadyf d s tr s' /\ fready s' d op inp x' /\ twin (j_sys s') d op inp x' (ftr ++ new) x0' /\ run_from (fold_step (sure g op) (empty op)) x0 new = Some x0' /\
    (forall e, In e new -> exists i, e = EvWork i tt) /\ (f_ret x0' = None -> f_tasks x0' = []).
Proof.
  intros s d op inp x ftr x0 FR TW. pose proof FR as [(tr0 & R) _ _ _ _ AB _]. pose proof (jinv_run f g empty tr0 s R) as (SI & _ & _).
  destruct (catch_up may dead (total f g) (j_sys s) SI AB) as (tr & y' & C & NR & WO). destruct (sys_go _ _ _ C NR s d op inp x ftr x0 eq_refl FR TW) as (s' & x' & new & x0' & SD & E & FR' & TW' & RN & W).
  exists (map JSys tr), s', x', new, x0'. split; [exact SD|]. split; [exact FR'|]. split; [exact TW'|]. split; [exact RN|]. split; [exact W|]. intros RT.
  destruct FR' as [(tr1 & R1) _ _ (dd & D & O) CL1 _ _]. pose proof (jinv_run f g empty tr1 s' R1) as (SI1 & _ & _).
  assert (RX : f_ret x' = None) by (rewrite (tw_like _ _ _ _ _ _ _ _ _ TW'); exact RT). destruct (tw_out _ _ _ _ _ _ _ _ _ TW' dd D O RX) as (ns & _ & NT & NI).
  destruct ns as [|n ns]; [apply Permutation_sym, Permutation_nil in NT; exact NT|exfalso]. rewrite <- E in WO. pose proof (proj1 (NI n) (or_introl eq_refl)) as K. destruct K as [(z & S) Z].
  exact (caught_up f g dead _ _ _ _ SI1 (jwinv_run f g empty _ _ R1) CL1 WO S Z).
Qed.

Variable base : N.
Variable l : list nat.
Hypothesis bound : (base + N.of_nat (length l) <= usize_max)%N.
Lemma sure_total : forall op o a b, exists c, sure g op o a b = ROk c.
Proof. intros. eexists. reflexivity. Qed.
Notation jf op := (FoldLive.jinv nat nat unit (sure g op) (empty op) base l).
Notation fin := (fin nat nat base l).
Lemma jf_run : forall op tr x x', jf op x \/ fin x -> fault_free tr -> run_from (fold_step (sure g op) (empty op)) x tr = Some x' -> (jf op x' \/ fin x') /\ length tr + weight nat nat x' <= weight nat nat x.
Proof.
  intros op tr. induction tr as [|e tr IH]; intros x x' I F H; cbn in H; [injection H as <-; split; [exact I|cbn; lia]|]. inversion F as [|? ? Fe F']; subst. destruct (fold_step _ _ x e) as [x1|] eqn:S; [|discriminate].
  destruct I as [I|I]; [|rewrite (fin_stuck nat nat unit (sure g op) (empty op) base l x e I) in S; discriminate].
  pose proof (FoldLive.jinv_step nat nat unit (sure g op) (empty op) base l bound (sure_total op) x e x1 I Fe S) as I1. destruct (live_step nat nat unit (sure g op) (empty op) base l bound (sure_total op) x e x1 (proj1 I) Fe S) as [_ W].
  destruct (IH _ _ I1 F' H) as [I2 W2]. split; [exact I2|]. cbn [length]. lia.
Qed.
(** Once the input is read, the fold comes to its end. *)
Lemma finish : forall w s d op inp x ftr x0, weight nat nat x0 = w -> fready s d op inp x -> twin (j_sys s) d op inp x ftr x0 -> jf op x0 \/ fin x0 ->
  exists tr s' x' ftr' x0', steadyf d s tr s' /\ fready s' d op inp x' /\ twin (j_sys s') d op inp x' ftr' x0' /\ fin x0'.
Proof.
  intros w. induction w as [w IH] using lt_wf_ind. intros s d op inp x ftr x0 W FR TW I. destruct I as [I|I]; [|exists [], s, x, ftr, x0; split; [constructor|auto]].
  destruct (fold_progress nat nat unit (sure g op) (empty op) tt x0) as [(e & x1 & NF & M)|NO].
  - assert (K : (exists i, e = EvWork i tt) \/ own (given e)) by (destruct e as [| |i ok|i []|i ack|ok|i|i|i|i]; try discriminate NF; try (right; exact Logic.I); left; eauto). destruct K as [(i & ->)|OW].
    + destruct (tasks_go _ _ _ _ _ _ _ FR TW) as (tr & s1 & x2 & new & x02 & SD & FR1 & TW1 & RN & WK & TE).
      assert (FF : fault_free new) by (apply Forall_forall; intros e E; destruct (WK e E) as (j & ->); reflexivity). destruct (jf_run op new x0 x02 (or_introl I) FF RN) as [I2 W2].
      assert (NZ : 0 < length new). { destruct new as [|z new]; [exfalso|cbn; lia]. cbn in RN. injection RN as <-. unfold fold_step in M. rewrite (p_ret _ _ _ _ _ _ _ _ (proj1 I)), (TE (p_ret _ _ _ _ _ _ _ _ (proj1 I))) in M. destruct i; discriminate M. }
      destruct (IH (weight nat nat x02) ltac:(lia) s1 d op inp x2 _ x02 eq_refl FR1 TW1 I2) as (tr2 & s2 & x3 & ftr3 & x03 & SD2 & FR2 & TW2 & FI). exists (tr ++ tr2), s2, x3, ftr3, x03. split; [exact (steadyf_app _ _ _ _ _ _ SD SD2)|auto].
    + destruct (own_go _ _ _ _ _ _ _ _ _ FR TW OW NF M) as (s1 & x2 & S & FR1 & TW1). destruct (jf_run op [e] x0 x1 (or_introl I) ltac:(constructor; [exact NF|constructor]) ltac:(cbn [run_from]; now rewrite M)) as [I2 W2]. cbn [length] in W2.
      destruct (IH (weight nat nat x1) ltac:(lia) s1 d op inp x2 _ x1 eq_refl FR1 TW1 I2) as (tr2 & s2 & x3 & ftr3 & x03 & SD2 & FR2 & TW2 & FI). exists (JOfFold d (given e) :: tr2), s2, x3, ftr3, x03. split; [|auto].
      eapply sf_own; [|exact S|exact SD2]. destruct e; exact NF.
  - exfalso. destruct (maximal_cases nat nat unit (sure g op) (empty op) base l bound tt x0 (or_introl (proj1 I)) NO) as [FI|(_ & _ & _ & (k & it & EA & FU) & _)].
    + pose proof (p_ret _ _ _ _ _ _ _ _ (proj1 I)) as Q. destruct FI as [(v & Q' & _)|(Q' & _)]; congruence.
    + destruct I as (_ & _ & NP). apply (NP it); [rewrite EA; now left|exact FU].
Qed.
(** The input is read. *)
Lemma read_all : forall k s d op inp x ftr x0, length (f_inp x0) = k -> fready s d op inp x -> twin (j_sys s) d op inp x ftr x0 -> pinv nat nat unit (sure g op) (empty op) base l x0 -> ~ parked nat nat base l x0 ->
  exists tr s' x' ftr' x0', steadyf d s tr s' /\ fready s' d op inp x' /\ twin (j_sys s') d op inp x' ftr' x0' /\ (jf op x0' \/ fin x0').
Proof.
  intros k. induction k as [|k IH]; intros s d op inp x ftr x0 LK FR TW PI NP.
  - destruct (f_ended x0) eqn:EN.
    + exists [], s, x, ftr, x0. split; [constructor|]. split; [exact FR|]. split; [exact TW|]. left. split; [exact PI|]. split; [exact EN|]. intros it IN FU. apply NP. split; [|exists it; auto].
      pose proof (p_ended _ _ _ _ _ _ _ _ PI EN) as Q. pose proof (v_count _ _ _ _ _ _ _ _ (p_v _ _ _ _ _ _ _ _ PI)) as HC. rewrite LK in HC. lia.
    + assert (M : exists x1, fold_step (sure g op) (empty op) x0 EvInputEnd = Some x1) by (unfold fold_step; rewrite (p_ret _ _ _ _ _ _ _ _ PI), EN; destruct (f_inp x0); [eauto|discriminate LK]). destruct M as (x1 & M).
      destruct (own_go _ _ _ _ _ _ _ (ltac:(match type of M with fold_step _ _ _ ?e = _ => exact e end)) _ FR TW Logic.I eq_refl M) as (s1 & x2 & S & FR1 & TW1). exists [JOfFold d EvInputEnd], s1, x2, (ftr ++ [EvInputEnd]), x1. split; [eapply sf_own; [|exact S|constructor]; reflexivity|]. split; [exact FR1|]. split; [exact TW1|].
      exact (end_read nat nat unit (sure g op) (empty op) base l bound (sure_total op) x0 x1 PI NP M).
  - assert (M : exists x1, fold_step (sure g op) (empty op) x0 EvInput = Some x1) by (unfold fold_step; rewrite (p_ret _ _ _ _ _ _ _ _ PI); destruct (f_inp x0) as [|[]]; [discriminate LK|eauto|eauto]). destruct M as (x1 & M).
    destruct (own_go _ _ _ _ _ _ _ (ltac:(match type of M with fold_step _ _ _ ?e = _ => exact e end)) _ FR TW Logic.I eq_refl M) as (s1 & x2 & S & FR1 & TW1). pose proof (read_asm nat nat unit (sure g op) (empty op) base l bound x0 x1 PI M) as RA.
    destruct (live_step nat nat unit (sure g op) (empty op) base l bound (sure_total op) x0 EvInput x1 PI eq_refl M) as [[PI1|FI] _].
    + assert (LK1 : length (f_inp x1) = k).
      { pose proof (v_count _ _ _ _ _ _ _ _ (p_v _ _ _ _ _ _ _ _ PI)) as H0. pose proof (v_count _ _ _ _ _ _ _ _ (p_v _ _ _ _ _ _ _ _ PI1)) as H1.
        clear -LK M PI H0 H1. unfold fold_step in M. rewrite (p_ret _ _ _ _ _ _ _ _ PI) in M. destruct (f_inp x0) as [|[it|er] r]; [discriminate LK| |]; injection M as <-; cbn [length] in LK; unfold on_input, try_dispatch, f_return; cbn [f_count set_inp fst snd].
        - destruct (_ <? 2)%N; [cbn; lia|]. destruct (cq_acquire _ _ _ _) as [[[]|] ?]; cbn; lia.
        - cbn. lia. }
      assert (NP1 : ~ parked nat nat base l x1). { intros (L2 & it & IN & F1 & F2). destruct (RA _ IN) as [Q|Q]; [|apply NP; split; [exact L2|exists it; repeat split; auto]]. rewrite <- Q, F1 in F2. lia. }
      destruct (IH s1 d op inp x2 _ x1 LK1 FR1 TW1 PI1 NP1) as (tr2 & s2 & x3 & ftr3 & x03 & SD2 & K). exists (JOfFold d EvInput :: tr2), s2, x3, ftr3, x03. split; [eapply sf_own; [|exact S|exact SD2]; reflexivity|exact K].
    + exists [JOfFold d EvInput], s1, x2, (ftr ++ [EvInput]), x1. split; [eapply sf_own; [|exact S|constructor]; reflexivity|]. split; [exact FR1|]. split; [exact TW1|]. now right.
Qed.
(** A continuation, seen from the twin. *)
Lemma steady_twin : forall d s tr s', steadyf d s tr s' -> forall op inp x ftr x0, fready s d op inp x -> twin (j_sys s) d op inp x ftr x0 ->
  exists x' new x0', fready s' d op inp x' /\ twin (j_sys s') d op inp x' (ftr ++ new) x0' /\ run_from (fold_step (sure g op) (empty op)) x0 new = Some x0'.
Proof.
  intros d s tr s' H. induction H as [s|s e s1 tr s2 C S _ IH|s e s1 tr s2 C S _ IH]; intros op inp x ftr x0 FR TW; [exists x, [], x0; rewrite app_nil_r; auto| |].
  - destruct (ready_sys _ _ _ _ _ _ _ FR C S) as (x1 & FR1). destruct (twin_go _ _ _ _ _ _ _ _ _ _ FR S FR1 ltac:(discriminate) TW) as (new & x01 & TW1 & RN & _).
    destruct (IH _ _ _ _ _ FR1 TW1) as (x' & new' & x0' & FR2 & TW2 & RN2). exists x', (new ++ new'), x0'. split; [exact FR2|]. rewrite app_assoc. split; [exact TW2|]. apply run_from_app. eauto.
  - destruct (ready_any _ _ _ _ _ _ _ FR S) as (x1 & FR1). destruct (twin_go _ _ _ _ _ _ _ _ _ _ FR S FR1 ltac:(intros fe Q; injection Q as <-; exact C) TW) as (new & x01 & TW1 & RN & _).
    destruct (IH _ _ _ _ _ FR1 TW1) as (x' & new' & x0' & FR2 & TW2 & RN2). exists x', (new ++ new'), x0'. split; [exact FR2|]. rewrite app_assoc. split; [exact TW2|]. apply run_from_app. eauto.
Qed.
End End2.
