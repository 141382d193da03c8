(** C99: a fold that the system runs returns as long as its workers go on, unless its only item is already parked. What a fold did, in its own model. *)
From Coq Require Import List Arith NArith Lia Bool Permutation.
From Verif Require Import Base BaseFacts PublishModel PublishSpec MapModel MapSpec ContiguousModel FoldModel FoldSpec RetryModel
  WorkerModel WorkerSpec WorkerProofs WorkerFacts WorkerInv WorkerProps SystemModel SystemSpec SystemProofs SystemProps JointModel JointProofs JointInv JointProps PoolLive PoolProps JointLive.
Import ListNotations.
Open Scope nat_scope.

Section Live.
Variable f : nat -> nat -> nat.
Variable g : nat -> nat -> nat -> nat.
Variable empty : nat -> nat.
Notation step := (j_step f g empty).
Notation may := (may f g).
Notation jinv := (jinv f g empty).

(** * Which tasks of a directive have no result yet *)
Definition still (y y' : sys) (d : nat) : Prop :=
  (forall n x, nth_error (y_sent y') n = Some (d, x) <-> nth_error (y_sent y) n = Some (d, x)) /\
  forall n x, nth_error (y_sent y) n = Some (d, x) -> cnt (of_n n) (all_res y') = cnt (of_n n) (all_res y).
Lemma still_same : forall y y' d, y_sent y' = y_sent y -> (forall h, cnt h (all_res y') = cnt h (all_res y)) -> still y y' d.
Proof. intros y y' d S A. split; [intros n x; now rewrite S|auto]. Qed.
Lemma release_all : forall y d dd h, nth_error (y_dirs y) d = Some dd ->
  cnt h (all_res (mkY (upd d (mkD (d_key dd) false (d_got dd)) (y_dirs y)) (y_sent y) (y_queue y) (y_workers y)
    (filter (fun r => negb (Nat.eqb (r_key r) (d_key dd))) (y_results y)) (y_lost y ++ filter (fun r => Nat.eqb (r_key r) (d_key dd)) (y_results y)) (y_back y))) = cnt h (all_res y).
Proof.
  intros y d dd h D. unfold all_res. cbn. rewrite !cnt_app. pose proof (flat_got_upd d dd (mkD (d_key dd) false (d_got dd)) (y_dirs y) h D) as Q. cbn [d_got] in Q.
  assert (SP : forall p l, cnt h (filter (fun r => negb (p r)) l) + cnt h (filter p l) = cnt h l).
  { clear. intros p l. induction l as [|r l IH]; [reflexivity|]. cbn [filter]. destruct (p r); cbn [negb]; rewrite !cnt_cons; lia. }
  specialize (SP (fun r => Nat.eqb (r_key r) (d_key dd)) (y_results y)). cbn beta in SP. lia.
Qed.
(** A step of the system that neither dispatches a task of [d] nor publishes a result of one. *)
Lemma still_step : forall y e y' d, y_step may y e = Some y' -> (forall x, e <> YSend d x) ->
  still y y' d \/ exists w e0 r x, e = YWork w e0 /\ y_dirs y' = y_dirs y /\ y_sent y' = y_sent y /\ y_lost y' = y_lost y /\ y_back y' = y_back y /\ y_results y' = y_results y ++ [r] /\ nth_error (y_sent y) (r_n r) = Some (d, x).
Proof.
  intros y e y' d H NS. destruct e as [k|d0 x|ident|w j|w e|w i|d0 j|d0].
  - left. cbn [y_step] in H. destruct (existsb _ _); [discriminate|]. injection H as <-. apply still_same; [reflexivity|]. intros h. unfold all_res. cbn. rewrite !cnt_app, flat_map_app. cbn. rewrite app_nil_r. reflexivity.
  - left. cbn [y_step] in H. destruct (nth_error (y_dirs y) d0); [|discriminate]. injection H as <-. assert (NE : d0 <> d) by (intros ->; exact (NS x eq_refl)). split; [|reflexivity]. cbn. intros n z. split; intros Q.
    + destruct (nth_app_new _ _ _ _ _ Q) as [[_ Z]|Z]; [injection Z as -> _; congruence|exact Z].
    + now apply nth_app_old.
  - left. cbn [y_step] in H. injection H as <-. now apply still_same.
  - left. cbn [y_step] in H. destruct (nth_error (y_workers y) w) as [ws|]; [|discriminate]. destruct (pick j (y_queue y)) as [[n q]|]; [|discriminate]. destruct (nth_error (y_sent y) n) as [[d1 x]|]; [|discriminate].
    destruct (nth_error (y_dirs y) d1) as [dd|]; [|discriminate]. destruct (w_step ws _) as [ws'|]; [|discriminate]. injection H as <-. now apply still_same.
  - destruct (work_results f g _ _ _ _ H) as (E1 & E2 & E3 & E4 & [E5|(r & E5)]).
    + left. apply still_same; [exact E2|]. intros h. unfold all_res. now rewrite E1, E3, E5.
    + destruct (nth_error (y_sent y) (r_n r)) as [[d1 x]|] eqn:S.
      * destruct (Nat.eq_dec d1 d) as [->|NE]; [right; exists w, e, r, x; auto 10|left]. split; [intros n z; now rewrite E2|]. intros n z Q. unfold all_res. rewrite E1, E3, E5, !cnt_app, cnt_one. unfold of_n at 2.
        destruct (Nat.eqb_spec (r_n r) n) as [E|_]; [exfalso; rewrite E in S; congruence|]. cbn. lia.
      * left. split; [intros n z; now rewrite E2|]. intros n z Q. unfold all_res. rewrite E1, E3, E5, !cnt_app, cnt_one. unfold of_n at 2. destruct (Nat.eqb_spec (r_n r) n) as [E|_]; [exfalso; rewrite E in S; congruence|]. cbn. lia.
  - left. cbn [y_step] in H. destruct (nth_error (y_workers y) w) as [ws|]; [|discriminate]. destruct (body_of i (w_log ws)) as [n|]; [|discriminate]. destruct (_ || _); [discriminate|]. injection H as <-. now apply still_same.
  - left. cbn [y_step] in H. destruct (nth_error (y_dirs y) d0) as [dd|] eqn:D; [|discriminate]. destruct (pick j (y_results y)) as [[r rest]|] eqn:P; [|discriminate]. destruct (_ && _); [|discriminate]. injection H as <-.
    apply still_same; [reflexivity|]. intros h. exact (recv_all _ _ _ _ _ _ h D P).
  - left. cbn [y_step] in H. destruct (nth_error (y_dirs y) d0) as [dd|] eqn:D; [|discriminate]. destruct (d_open dd); [|discriminate]. injection H as <-. apply still_same; [reflexivity|]. intros h. exact (release_all _ _ _ h D).
Qed.
(** A channel once closed stays closed. *)
Lemma reopen : forall y e y' d dd', y_step may y e = Some y' -> d < length (y_dirs y) -> nth_error (y_dirs y') d = Some dd' -> d_open dd' = true -> exists dd, nth_error (y_dirs y) d = Some dd /\ d_open dd = true.
Proof.
  intros y e y' d dd' H LT D' O'. destruct e as [k|d0 x|ident|w j|w e|w i|d0 j|d0]; cbn [y_step] in H.
  - destruct (existsb _ _); [discriminate|]. injection H as <-. cbn in D'. rewrite nth_error_app1 in D' by exact LT. eauto.
  - destruct (nth_error (y_dirs y) d0); [|discriminate]. injection H as <-. eauto.
  - injection H as <-. eauto.
  - destruct (nth_error (y_workers y) w) as [ws|]; [|discriminate]. destruct (pick j (y_queue y)) as [[n q]|]; [|discriminate]. destruct (nth_error (y_sent y) n) as [[d1 x]|]; [|discriminate].
    destruct (nth_error (y_dirs y) d1) as [dd|]; [|discriminate]. destruct (w_step ws _) as [ws'|]; [|discriminate]. injection H as <-. eauto.
  - destruct (nth_error (y_workers y) w) as [ws|]; [|discriminate]. destruct (possible may y ws e); [|discriminate]. destruct (w_step ws e); [|discriminate]. injection H as <-. eauto.
  - destruct (nth_error (y_workers y) w) as [ws|]; [|discriminate]. destruct (body_of i (w_log ws)) as [n|]; [|discriminate]. destruct (_ || _); [discriminate|]. injection H as <-. eauto.
  - destruct (nth_error (y_dirs y) d0) as [dd|] eqn:D; [|discriminate]. destruct (pick j (y_results y)) as [[r rest]|]; [|discriminate]. destruct (d_open dd) eqn:O; [|discriminate]. destruct (_ && _); [|discriminate]. injection H as <-. cbn in D'.
    destruct (upd_nth _ _ _ _ _ _ D') as [[<- _]|[_ Q]]; eauto.
  - destruct (nth_error (y_dirs y) d0) as [dd|] eqn:D; [|discriminate]. destruct (d_open dd) eqn:O; [|discriminate]. injection H as <-. cbn in D'. destruct (upd_nth _ _ _ _ _ _ D') as [[<- _]|[_ Q]]; eauto.
Qed.

(** * What a step of the whole system does to one fold *)
Definition own (e : fevent (option nat)) : Prop := match e with EvWork _ _ | EvDropTask _ | EvDropResult _ | EvDupTask _ | EvDupResult _ => False | _ => True end.
Inductive ffol (s s' : joint) (d op : nat) (inp : list (Base.res nat (N * nat))) (x : fstate nat nat) (e : j_event) (x' : fstate nat nat) : Prop :=
| ff_same : x' = x -> (forall fe, e <> JOfFold d fe) -> still (j_sys s) (j_sys s') d -> ffol s s' d op inp x e x'
| ff_own : forall fe, e = JOfFold d fe -> own fe -> fold_step (comb g op) (empty op) x fe = Some x' -> (forall i, fe <> EvPublish i true) -> still (j_sys s) (j_sys s') d -> ffol s s' d op inp x e x'
| ff_send : forall i t c, e = JOfFold d (EvPublish i true) -> pick i (f_chan x) = Some (t, c) -> fold_step (comb g op) (empty op) x (EvPublish i true) = Some x' ->
    y_sent (j_sys s') = y_sent (j_sys s) ++ [(d, code (JobFold op t))] -> all_res (j_sys s') = all_res (j_sys s) -> y_back (j_sys s') = y_back (j_sys s) -> ffol s s' d op inp x e x'
| ff_result : forall w we r p t dd, e = JSys (YWork w we) -> y_dirs (j_sys s') = y_dirs (j_sys s) -> y_sent (j_sys s') = y_sent (j_sys s) -> y_lost (j_sys s') = y_lost (j_sys s) -> y_back (j_sys s') = y_back (j_sys s) ->
    y_results (j_sys s') = y_results (j_sys s) ++ [r] -> nth_error (y_sent (j_sys s)) (r_n r) = Some (d, p) -> decode p = JobFold op t -> nth_error (y_dirs (j_sys s)) d = Some dd ->
    CFold op inp x' = (if d_open dd then answer (CFold op inp x) (JobFold op t) (r_out r) else CFold op inp x) -> ffol s s' d op inp x e x'.
Lemma fold_step_of : forall s e s' d op inp x, jinv s -> step s e = Some s' -> fold_at s d op inp x -> exists x', fold_at s' d op inp x' /\ ffol s s' d op inp x e x'.
Proof.
  intros [y cl] e s' d0 op0 inp0 x0 J H C. destruct (dir_of _ _ _ _ _ _ J C) as (dd0 & D0). pose proof J as (SI & LN & KN).
  pose proof (jsys_step f g empty _ _ _ H) as JS. unfold j_step in H. cbn [j_sys j_cl] in *. unfold fold_at in *. cbn [j_cl] in C.
  assert (LT : d0 < length cl) by (apply nth_error_Some; congruence).
  assert (STL : (forall ye, of_event e ye -> forall z, ye <> YSend d0 z) -> (forall w we, e <> JSys (YWork w we)) -> still y (j_sys s') d0).
  { intros NS NW. destruct JS as [->|(ye & OE & Y)]; [now apply still_same|]. destruct (still_step _ _ _ d0 Y (NS _ OE)) as [S|(w & we & r & z & -> & _)]; [exact S|exfalso]. destruct e as [| | | |e]; cbn in OE; try discriminate OE; try (destruct OE as [(? & ?)|(? & ?)]; discriminate). subst e. exact (NW _ _ eq_refl). }
  assert (OM : forall ye (h : sys -> list client), option_map (fun y' => mkJ y' (h y')) (y_step may y ye) = Some s' -> exists y1, y_step may y ye = Some y1 /\ s' = mkJ y1 (h y1)).
  { intros ye h Q. destruct (y_step may y ye) as [y1|]; [|discriminate]. injection Q as <-. eauto. }
  destruct e as [op k arr late en|op k inp|d e|d e|e].
  - destruct (OM _ (fun _ => _) H) as (y1 & _ & ->). exists x0. cbn [j_cl j_sys]. split; [now rewrite nth_error_app1|]. apply ff_same; [reflexivity|discriminate|]. apply STL; [|discriminate]. intros ye -> z. discriminate.
  - destruct (OM _ (fun _ => _) H) as (y1 & _ & ->). exists x0. cbn [j_cl j_sys]. split; [now rewrite nth_error_app1|]. apply ff_same; [reflexivity|discriminate|]. apply STL; [|discriminate]. intros ye -> z. discriminate.
  - destruct (open_dir y d) as [dd|]; [|discriminate]. destruct (nth_error cl d) as [[op arr late en m|]|] eqn:CD; try discriminate. assert (NE : d <> d0) by (intros ->; congruence). destruct (m_step (exec f op) m e) as [m'|] eqn:M; [|discriminate].
    assert (G : j_cl s' = upd d (CMap op arr late en m') cl -> exists x', nth_error (j_cl s') d0 = Some (CFold op0 inp0 x') /\ ffol (mkJ y cl) s' d0 op0 inp0 x0 (JOfMap d e) x').
    { intros ->. exists x0. split; [rewrite upd_nth_other; auto|]. apply ff_same; [reflexivity|discriminate|]. apply STL; [|discriminate]. intros ye [(z & ->)|(z & ->)] z'; congruence. }
    apply G.
    assert (ACC : match skipn (length (m_tasks m)) (m_tasks m') with [(i, a)] => send f g y d (CMap op arr late en m') cl (JobMap op i a) | _ => None end = Some s' -> j_cl s' = upd d (CMap op arr late en m') cl).
    { intros Q. destruct (skipn _ _) as [|[i a] [|]]; try discriminate. destruct (OM _ (fun _ => upd d (CMap op arr late en m') cl) Q) as (y1 & _ & ->). reflexivity. }
    destruct e as [|e0| | | | | | | |e0|ok|i o|i|i|i|i]; try discriminate; try (injection H as <-; reflexivity).
    + unfold recv in H. destruct (place _ _ _) as [j|]; [|discriminate]. destruct (OM _ (fun _ => upd d (CMap op arr late en m') cl) H) as (y1 & _ & ->). reflexivity.
    + destruct (place _ _ _); [discriminate|]. injection H as <-. reflexivity.
    + destruct e0; first [exact (ACC H) | injection H as <-; reflexivity].
  - destruct (open_dir y d) as [dd|]; [|discriminate]. destruct (nth_error cl d) as [[|op inp x]|] eqn:CD; try discriminate. destruct (fold_step (comb g op) (empty op) x e) as [x'|] eqn:M; [|discriminate].
    assert (CL : j_cl s' = upd d (CFold op inp x') cl /\ own e).
    { destruct e as [| |i ok| |i ack| | | | |]; try discriminate; try (injection H as <-; split; [reflexivity|exact Logic.I]).
      - destruct ok; [|injection H as <-; split; [reflexivity|exact Logic.I]]. destruct (pick i (f_chan x)) as [[t r]|]; [|discriminate]. destruct (OM _ (fun _ => upd d (CFold op inp x') cl) H) as (y1 & _ & ->). split; [reflexivity|exact Logic.I].
      - unfold recv in H. destruct (place _ _ _) as [j|]; [|discriminate]. destruct (OM _ (fun _ => upd d (CFold op inp x') cl) H) as (y1 & _ & ->). split; [reflexivity|exact Logic.I]. }
    destruct CL as [CL OW]. destruct (Nat.eq_dec d d0) as [->|NE].
    + rewrite C in CD. injection CD as <- <- <-. exists x'. split; [rewrite CL; now apply upd_nth_same|].
      assert (SE : (exists i, e = EvPublish i true) \/ forall i, e <> EvPublish i true) by (destruct e as [| |i [|]| | | | | | |]; try (right; discriminate); left; eauto).
      destruct SE as [(i & ->)|NP].
      * destruct (pick i (f_chan x0)) as [[t r]|] eqn:P; [|discriminate]. unfold send in H. remember (code (JobFold op0 t)) as cj eqn:CJ. cbn [y_step] in H. rewrite D0 in H. cbn [option_map] in H. injection H as <-.
        eapply (ff_send _ _ _ _ _ _ _ _ i t r); [reflexivity|exact P|exact M|subst cj; reflexivity|reflexivity|reflexivity].
      * eapply (ff_own _ _ _ _ _ _ _ _ e); [reflexivity|exact OW|exact M|exact NP|]. destruct e as [| |i ok| |i ack| | | | |]; try discriminate; try (injection H as <-; now apply still_same).
        -- destruct ok; [destruct (NP i eq_refl)|]. injection H as <-. now apply still_same.
        -- unfold recv in H. destruct (place _ _ _) as [j|]; [|discriminate]. destruct (OM _ (fun _ => upd d0 (CFold op0 inp0 x') cl) H) as (y1 & Y & ->). destruct (still_step _ _ _ d0 Y) as [S|(w & we & r & z & Q & _)]; [discriminate|exact S|discriminate Q].
    + exists x0. split; [rewrite CL, upd_nth_other; auto|]. apply ff_same; [reflexivity|congruence|]. apply STL; [|discriminate]. intros ye [(z & ->)|(z & ->)] z'; congruence.
  - assert (SIMPLE : (forall w we, e <> YWork w we) -> (forall z, e <> YSend d0 z) -> j_cl s' = cl -> exists x', nth_error (j_cl s') d0 = Some (CFold op0 inp0 x') /\ ffol (mkJ y cl) s' d0 op0 inp0 x0 (JSys e) x').
    { intros NW NS ->. exists x0. split; [exact C|]. apply ff_same; [reflexivity|discriminate|]. apply STL; [|congruence]. intros ye ->. exact NS. }
    destruct e as [k|d x|ident|w j|w e|w i|d j|d]; try discriminate; try (apply SIMPLE; [discriminate|discriminate|]; destruct (OM _ (fun _ => cl) H) as (y1 & _ & ->); reflexivity).
    destruct (y_step may y (YWork w e)) as [y'|] eqn:Y; [|discriminate]. injection H as <-. cbn [j_sys j_cl] in *. destruct (work_results f g _ _ _ _ Y) as (E1 & E2 & E3 & E4 & [E5|(r & E5)]).
    + rewrite E5, skipn_all in *. cbn [fold_left] in *. exists x0. split; [exact C|]. apply ff_same; [reflexivity|discriminate|]. cbn [j_sys]. apply still_same; [exact E2|]. intros h. unfold all_res. now rewrite E1, E3, E5.
    + rewrite E5, skipn_app, skipn_all, Nat.sub_diag in *. cbn [skipn app fold_left] in *.
      assert (ST : (forall z, nth_error (y_sent y) (r_n r) <> Some (d0, z)) -> still y y' d0).
      { intros N. split; [intros n z; now rewrite E2|]. intros n z Q. unfold all_res. rewrite E1, E3, E5, !cnt_app, cnt_one. unfold of_n at 2. destruct (Nat.eqb_spec (r_n r) n) as [E|_]; [exfalso; rewrite <- E in Q; exact (N _ Q)|]. cbn. lia. }
      unfold arrive. rewrite E2. destruct (nth_error (y_sent y) (r_n r)) as [[d p]|] eqn:S1; [|exists x0; split; [exact C|]; apply ff_same; [reflexivity|discriminate|]; cbn [j_sys]; apply ST; discriminate].
      destruct (Nat.eq_dec d d0) as [->|NE].
      * destruct (KN _ _ _ D0 C) as [K1 _]. destruct (K1 _ _ S1) as (t & DC). rewrite E1, D0, C, DC.
        assert (X : exists x', CFold op0 inp0 x' = if d_open dd0 then answer (CFold op0 inp0 x0) (JobFold op0 t) (r_out r) else CFold op0 inp0 x0). { destruct (d_open dd0); [|eauto]. cbn [answer]. destruct (f_ret x0); eauto. }
        destruct X as (x' & X). exists x'. split.
        -- destruct (d_open dd0); [rewrite <- X; now apply upd_nth_same|congruence].
        -- eapply (ff_result _ _ _ _ _ _ _ _ w e r p t dd0); cbn [j_sys]; auto.
      * exists x0. split; [|apply ff_same; [reflexivity|discriminate|]; cbn [j_sys]; apply ST; congruence]. rewrite E1. destruct (nth_error (y_dirs y) d) as [dd|]; [|exact C]. destruct (nth_error cl d) as [c|]; [|exact C].
        destruct (d_open dd); [|exact C]. rewrite upd_nth_other; auto.
Qed.

(** * A fold's own run *)
(** The monoid's operation when it does not fail. *)
Definition sure (op : nat) (_ : unit) (a b : nat) : Base.res nat nat := ROk (g op a b).
Definition plain_of (e : fevent (option nat)) : fevent unit :=
  match e with
  | EvInput => EvInput | EvInputEnd => EvInputEnd | EvPublish i ok => EvPublish i ok | EvWork i _ => EvWork i tt | EvResult i ack => EvResult i ack | EvFinal ok => EvFinal ok
  | EvDropTask i => EvDropTask i | EvDropResult i => EvDropResult i | EvDupTask i => EvDupTask i | EvDupResult i => EvDupResult i
  end.
(** The same but for the published tasks, of which the client keeps a list of all there ever were. *)
Definition alike (x x0 : fstate nat nat) : Prop := x = set_tasks x0 (f_tasks x).
Definition more (x : fstate nat nat) (e : fevent (option nat)) : list (ftask nat) :=
  match e with EvPublish i true => match pick i (f_chan x) with Some (t, _) => [t] | None => [] end | _ => [] end.
Lemma try_alike : forall x x0 it, alike x x0 -> alike (try_dispatch x it) (try_dispatch x0 it) /\ f_tasks (try_dispatch x0 it) = f_tasks x0 /\ f_tasks (try_dispatch x it) = f_tasks x.
Proof. intros x [a b c q e t h i j k] it ->. unfold try_dispatch. cbn [f_asm set_tasks]. destruct (cq_acquire item_key is_contiguous q it) as [[[l r]|] q']; repeat split; reflexivity. Qed.
Ltac same_fields := unfold alike, set_tasks, set_asm, set_count, set_inp, set_results, set_chan, set_final, set_ended, f_return; cbn [f_inp f_ended f_count f_asm f_chan f_tasks f_results f_final f_ret f_disp]; congruence.
Lemma twin_step : forall op x x0 e x', alike x x0 -> own e -> fold_step (comb g op) (empty op) x e = Some x' ->
  exists x0', fold_step (sure op) (empty op) x0 (plain_of e) = Some x0' /\ alike x' x0' /\ f_tasks x0' = f_tasks x0 ++ more x e.
Proof.
  intros op x x0 e x' AL OW H. pose proof AL as AL0. unfold alike in AL. assert (ER : f_ret x = f_ret x0) by now rewrite AL. assert (EI : f_inp x = f_inp x0) by now rewrite AL. assert (EE : f_ended x = f_ended x0) by now rewrite AL.
  assert (EC : f_count x = f_count x0) by now rewrite AL. assert (ECH : f_chan x = f_chan x0) by now rewrite AL. assert (ERS : f_results x = f_results x0) by now rewrite AL. assert (EF : f_final x = f_final x0) by now rewrite AL.
  assert (EA : f_asm x = f_asm x0) by now rewrite AL. assert (ED : f_disp x = f_disp x0) by now rewrite AL. clear AL.
  unfold fold_step in *. rewrite ER in H. destruct (f_ret x0) eqn:FR; [discriminate|]. destruct e as [| |i ok|i o|i ack|ok|i|i|i|i]; try contradiction; cbn [plain_of more].
  - rewrite EI in H. destruct (f_inp x0) as [|[it|er] rest] eqn:FI; [discriminate| |].
    + injection H as <-. eexists. split; [reflexivity|]. unfold on_input. cbn [f_count set_inp fst snd]. rewrite EC. destruct (f_count x0 + 1 <? 2)%N.
      * split; [|now rewrite app_nil_r]. same_fields.
      * assert (A1 : alike (set_count (set_inp x rest) (f_count x0 + 1)%N) (set_count (set_inp x0 rest) (f_count x0 + 1)%N)) by (same_fields).
        destruct (try_alike _ _ (mkItem (fst it) (fst it) (snd it)) A1) as (A2 & A3 & _). split; [exact A2|]. rewrite app_nil_r. exact A3.
    + injection H as <-. eexists. split; [reflexivity|]. split; [|now rewrite app_nil_r]. same_fields.
  - rewrite EI, EE in H. destruct (f_inp x0) eqn:FI; [|discriminate]. destruct (f_ended x0) eqn:FE; [discriminate|]. injection H as <-. eexists. split; [reflexivity|]. unfold on_input_end. cbn [f_count set_ended f_asm]. rewrite EC, EA.
    destruct (f_count x0 =? 0)%N; [split; [|now rewrite app_nil_r]; same_fields|].
    destruct (f_count x0 =? 1)%N; [|split; [|now rewrite app_nil_r]; same_fields].
    destruct (cq_dequeue (f_asm x0) 0) as [[it|] q]; (split; [|now rewrite app_nil_r]); same_fields.
  - rewrite ECH in *. destruct (pick i (f_chan x0)) as [[t c]|]; [|discriminate]. destruct ok; injection H as <-; eexists; (split; [reflexivity|]); (split; [same_fields|]); [reflexivity|now rewrite app_nil_r].
  - rewrite EC, ERS in H. destruct (2 <=? f_count x0)%N; [|discriminate]. destruct (pick i (f_results x0)) as [[r rs]|]; [|discriminate]. injection H as <-. eexists. split; [reflexivity|].
    assert (A1 : alike (set_results x rs) (set_results x0 rs)) by (same_fields).
    unfold on_result. destruct r as [it|er]; [|split; [same_fields|now rewrite app_nil_r]]. cbn [f_ended set_results f_count f_final]. rewrite EE, EC, EF. destruct (f_ended x0 && is_final it (f_count x0)).
    + destruct ack; [destruct (f_final x0) eqn:FF|]; (split; [same_fields|now rewrite app_nil_r]).
    + destruct (try_alike _ _ it A1) as (A2 & A3 & A4). destruct ack; (split; [|rewrite app_nil_r; exact A3]); [exact A2|]. unfold alike in *. cbn [f_return f_tasks]. rewrite A2 at 1. reflexivity.
  - rewrite EF in H. destruct (f_final x0) eqn:FF; [|discriminate]. injection H as <-. eexists. split; [reflexivity|]. split; [|now rewrite app_nil_r]. same_fields.
Qed.

Definition ftask_of (y : sys) (n : nat) : ftask nat := match job_of y n with JobFold _ t => t | JobMap _ _ _ => mkTask 0%N 0%N 0 0 end.
Definition outstanding (y : sys) (d : nat) (ts : list (ftask nat)) : Prop :=
  exists ns, NoDup ns /\ Permutation ts (map (ftask_of y) ns) /\ forall n, In n ns <-> (exists p, nth_error (y_sent y) n = Some (d, p)) /\ cnt (of_n n) (all_res y) = 0.
Lemma ftask_sent : forall y n d p op t, nth_error (y_sent y) n = Some (d, p) -> decode p = JobFold op t -> ftask_of y n = t.
Proof. intros y n d p op t S D. unfold ftask_of, job_of. now rewrite S, D. Qed.
Lemma outstanding_still : forall y y' d ts, still y y' d -> outstanding y d ts -> outstanding y' d ts.
Proof.
  intros y y' d ts [S A] (ns & N1 & N2 & N3). exists ns. split; [exact N1|]. split.
  - rewrite N2. apply Permutation_refl'. apply map_ext_in. intros n I. apply N3 in I. destruct I as [(p & Q) _]. unfold ftask_of, job_of. rewrite Q. apply S in Q. now rewrite Q.
  - intros n. rewrite N3. split; intros [(p & Q) Z]; (split; [exists p; now apply S|]).
    + now rewrite (A _ _ Q).
    + apply S in Q. now rewrite <- (A _ _ Q).
Qed.
Lemma outstanding_sent : forall y y' d op t ts, sinv may y -> y_sent y' = y_sent y ++ [(d, code (JobFold op t))] -> all_res y' = all_res y -> outstanding y d ts -> outstanding y' d (ts ++ [t]).
Proof.
  intros y y' d op t ts SI S A (ns & N1 & N2 & N3). remember (code (JobFold op t)) as cj eqn:CJ. assert (DC : decode cj = JobFold op t) by (subst cj; apply decode_code).
  assert (NEW : nth_error (y_sent y') (length (y_sent y)) = Some (d, cj)) by (rewrite S, nth_error_app2, Nat.sub_diag by lia; reflexivity).
  assert (OLD : forall n z, nth_error (y_sent y) n = Some z -> nth_error (y_sent y') n = Some z) by (intros n z Q; rewrite S; now apply nth_app_old).
  assert (FR : ~ In (length (y_sent y)) ns). { intros I. apply N3 in I. destruct I as [(p & Q) _]. assert (length (y_sent y) < length (y_sent y)) by (apply nth_error_Some; congruence). lia. }
  exists (ns ++ [length (y_sent y)]). split; [|split].
  - apply (Permutation_NoDup (Permutation_cons_append ns _)). constructor; assumption.
  - rewrite map_app. cbn [map]. rewrite (ftask_sent _ _ _ _ _ _ NEW DC). apply Permutation_app_tail. rewrite N2. apply Permutation_refl'. apply map_ext_in. intros n I. apply N3 in I. destruct I as [(p & Q) _]. unfold ftask_of, job_of. now rewrite Q, (OLD _ _ Q).
  - intros n. rewrite in_app_iff, N3, A. split.
    + intros [[(p & Q) Z]|[<-|[]]]; [split; [exists p; auto|exact Z]|]. split; [eauto|]. destruct (cnt (of_n (length (y_sent y))) (all_res y)) eqn:Z; [reflexivity|exfalso]. assert (length (y_sent y) < length (y_sent y)) by (apply (old_sent f g y _ SI); lia). lia.
    + intros [(p & Q) Z]. rewrite S in Q. destruct (nth_app_new _ _ _ _ _ Q) as [[-> _]|Q']; [right; now left|left; eauto].
Qed.
Lemma outstanding_done : forall y y' d p op t r ts, sinv may y -> sinv may y' -> noback y d -> y_dirs y' = y_dirs y -> y_sent y' = y_sent y -> y_lost y' = y_lost y -> y_back y' = y_back y -> y_results y' = y_results y ++ [r] ->
  nth_error (y_sent y) (r_n r) = Some (d, p) -> decode p = JobFold op t -> outstanding y d ts -> exists i ts', pick i ts = Some (t, ts') /\ outstanding y' d ts'.
Proof.
  intros y y' d p op t r ts SI SI' NB DS S L B R SN DC (ns & N1 & N2 & N3).
  assert (CA : forall h, cnt h (all_res y') = cnt h (all_res y) + b2n (h r)). { intros h. unfold all_res. rewrite R, DS, L, !cnt_app, cnt_one. lia. }
  assert (Z : cnt (of_n (r_n r)) (all_res y) = 0).
  { assert (cnt (of_n (r_n r)) (all_res y') <= 1). { apply (once f g _ _ SI'). rewrite B. exact (NB _ _ SN). } rewrite CA in H. unfold of_n at 2 in H. rewrite Nat.eqb_refl in H. cbn in H. lia. }
  assert (IN : In (r_n r) ns) by (apply N3; eauto). apply in_split in IN. destruct IN as (a & b & ->).
  assert (PM : Permutation ts (t :: map (ftask_of y) (a ++ b))). { rewrite N2. rewrite !map_app. cbn [map]. rewrite (ftask_sent _ _ _ _ _ _ SN DC). symmetry. apply Permutation_middle. }
  assert (IT : In t ts) by (apply (Permutation_in _ (Permutation_sym PM)); now left).
  assert (PK : exists i ts', pick i ts = Some (t, ts')). { clear -IT. induction ts as [|z ts IH]; [destruct IT|]. destruct IT as [->|IT]; [exists 0, ts; reflexivity|]. destruct (IH IT) as (i & ts' & P). exists (S i), (z :: ts'). cbn. now rewrite P. }
  destruct PK as (i & ts' & PK). exists i, ts'. split; [exact PK|]. exists (a ++ b). split; [exact (NoDup_remove_1 _ _ _ N1)|]. split.
  - assert (P2 : Permutation (t :: ts') (t :: map (ftask_of y) (a ++ b))) by (rewrite <- PM; symmetry; exact (pick_perm _ _ _ _ _ PK)). apply Permutation_cons_inv in P2. rewrite P2. apply Permutation_refl'. apply map_ext. intros n. unfold ftask_of, job_of. now rewrite S.
  - intros n. rewrite S, CA. assert (K : In n (a ++ r_n r :: b) <-> n = r_n r \/ In n (a ++ b)) by (rewrite !in_app_iff; cbn; split; intros [?|[?|?]]; auto 10; tauto).
    assert (NI : ~ In (r_n r) (a ++ b)) by exact (NoDup_remove_2 _ _ _ N1). specialize (N3 n). rewrite K in N3. unfold of_n at 2. destruct (Nat.eqb_spec (r_n r) n) as [<-|NE]; cbn [b2n].
    + split; [intros I; contradiction|]. intros [_ Q]. lia.
    + rewrite Nat.add_0_r. split; [intros I; apply N3; now right|]. intros Q. apply N3 in Q. destruct Q as [->|Q]; [congruence|exact Q].
Qed.

Record twin (y : sys) (d op : nat) (inp : list (Base.res nat (N * nat))) (x : fstate nat nat) (ftr : list (fevent unit)) (x0 : fstate nat nat) : Prop := {
  tw_run : fold_run (sure op) (empty op) inp ftr = Some x0;
  tw_like : alike x x0;
  tw_good : fault_free ftr;
  tw_out : forall dd, nth_error (y_dirs y) d = Some dd -> d_open dd = true -> f_ret x = None -> outstanding y d (f_tasks x0)
}.
Lemma plain_good : forall e, nofault e = true -> nofault (plain_of e) = true.
Proof. intros [| |i [|]|i o|i [|]|[|]|i|i|i|i] H; try discriminate; reflexivity. Qed.
Lemma twin_joint : forall s e s' d op inp x x' ftr x0, jinv s -> step s e = Some s' -> fold_at s d op inp x -> fold_at s' d op inp x' -> noback (j_sys s) d -> (forall er, ~ reported (j_sys s') er) ->
  (forall fe, e = JOfFold d fe -> nofault fe = true) -> twin (j_sys s) d op inp x ftr x0 ->
  exists new x0', twin (j_sys s') d op inp x' (ftr ++ new) x0' /\ run_from (fold_step (sure op) (empty op)) x0 new = Some x0' /\ ((exists fe, e = JOfFold d fe /\ new = [plain_of fe]) \/ (forall fe, e <> JOfFold d fe) /\ (new = [] \/ exists i, new = [EvWork i tt])).
Proof.
  intros s e s' d op inp x x' ftr x0 J H C C' NB NR NF [T1 T2 T3 T4]. pose proof (jinv_step f g empty _ _ _ J H) as J'. pose proof (proj1 J) as SI. pose proof (proj1 J') as SI'.
  destruct (dir_of _ _ _ _ _ _ J C) as (dd0 & D0). destruct (fold_step_of _ _ _ _ _ _ _ J H C) as (x1 & C1 & FO). unfold fold_at in *. rewrite C' in C1. injection C1 as <-.
  assert (LT0 : d < length (y_dirs (j_sys s))) by (apply nth_error_Some; congruence).
  assert (RO : forall dd', nth_error (y_dirs (j_sys s')) d = Some dd' -> d_open dd' = true -> d_open dd0 = true).
  { intros dd' D' O'. destruct (jsys_step f g empty _ _ _ H) as [E|(ye & _ & Y)]; [rewrite E in D'; congruence|]. destruct (reopen _ _ _ _ _ Y LT0 D' O') as (dd & D & O). congruence. }
  assert (ONE : forall e0 x0', fold_step (sure op) (empty op) x0 e0 = Some x0' -> run_from (fold_step (sure op) (empty op)) x0 [e0] = Some x0' /\ fold_run (sure op) (empty op) inp (ftr ++ [e0]) = Some x0').
  { intros e0 x0' Q. split; [cbn [run_from]; now rewrite Q|]. unfold fold_run. exact (one_more _ _ _ _ _ _ _ _ T1 Q). }
  destruct FO as [-> NE ST|fe -> OW M NP ST|i t c -> P M S A B|w we r p t dd -> DS S L B R SN DC D X].
  - exists [], x0. rewrite app_nil_r. split; [|split; [reflexivity|right; auto]]. constructor; auto. intros dd' D' O' FR. apply (outstanding_still _ _ _ _ ST). exact (T4 _ D0 (RO _ D' O') FR).
  - destruct (twin_step _ _ _ _ _ T2 OW M) as (x0' & M0 & A0 & TK). destruct (ONE _ _ M0) as [R1 R2]. exists [plain_of fe], x0'. split; [|split; [exact R1|left; eauto]]. constructor; auto.
    + apply Forall_app. split; [exact T3|]. constructor; [|constructor]. exact (plain_good _ (NF _ eq_refl)).
    + intros dd' D' O' FR. apply (outstanding_still _ _ _ _ ST). assert (MO : more x fe = []) by (destruct fe as [| |i [|]| | | | | | |]; try reflexivity; destruct (NP i eq_refl)). rewrite TK, MO, app_nil_r.
      apply (T4 _ D0 (RO _ D' O')). unfold fold_step in M. destruct (f_ret x); [discriminate|reflexivity].
  - destruct (twin_step op x x0 (EvPublish i true) x' T2 Logic.I M) as (x0' & M0 & A0 & TK). destruct (ONE _ _ M0) as [R1 R2]. exists [EvPublish i true], x0'. split; [|split; [exact R1|left; eexists; split; reflexivity]]. constructor; auto.
    + apply Forall_app. split; [exact T3|]. constructor; [reflexivity|constructor].
    + intros dd' D' O' FR. rewrite TK. cbn [more]. rewrite P. apply (outstanding_sent _ _ _ _ _ _ SI S A). apply (T4 _ D0 (RO _ D' O')). unfold fold_step in M. destruct (f_ret x); [discriminate|reflexivity].
  - assert (dd = dd0) by congruence. subst dd. destruct (d_open dd0) eqn:O.
    + cbn [answer] in X. destruct (f_ret x) eqn:FR.
      * injection X as ->. exists [], x0. rewrite app_nil_r. split; [|split; [reflexivity|right; split; [discriminate|auto]]]. constructor; auto. intros dd' _ _ Q. congruence.
      * injection X as ->. assert (RI : In r (y_results (j_sys s'))) by (rewrite R; apply in_or_app; right; now left). assert (SN' : nth_error (y_sent (j_sys s')) (r_n r) = Some (d, p)) by now rewrite S.
        pose proof (queue_value f g _ r d p SI' RI SN') as V. destruct (r_out r) as [v|er] eqn:RO1.
        2: { exfalso. destruct (si_res _ _ SI' r) as (ws & W & _ & tm & I); [apply in_all; now left|]. unfold act_of in I. rewrite RO1 in I. apply (NR er). exists (r_w r), ws, tm, (r_i r), (r_key r). auto. }
        rewrite DC in V. cbn [value] in V. subst v. destruct (outstanding_done _ _ _ _ _ _ _ _ SI SI' NB DS S L B R SN DC (T4 _ D0 O eq_refl)) as (i & ts' & PK & OUT).
        assert (FR0 : f_ret x0 = None) by (rewrite <- FR, T2; reflexivity). assert (ER : f_results x = f_results x0) by now rewrite T2.
        assert (M0 : fold_step (sure op) (empty op) x0 (EvWork i tt) = Some (set_results (set_tasks x0 ts') (f_results x0 ++ [ROk (mkItem (ft_lo t) (ft_hi t) (g op (ft_l t) (ft_r t)))]))) by (unfold fold_step; rewrite FR0, PK; reflexivity).
        destruct (ONE _ _ M0) as [R1 R2]. eexists [EvWork i tt], _. split; [|split; [exact R1|right; split; [discriminate|eauto]]]. constructor; [exact R2| | |].
        -- unfold alike. rewrite T2. reflexivity.
        -- apply Forall_app. split; [exact T3|]. constructor; [reflexivity|constructor].
        -- intros dd' _ _ _. exact OUT.
    + injection X as ->. exists [], x0. rewrite app_nil_r. split; [|split; [reflexivity|right; split; [discriminate|auto]]]. constructor; auto. intros dd' D' O' _. rewrite DS in D'. congruence.
Qed.
(** Every fold without failures has such a run. *)
Lemma twin_run : forall tr s d op inp x, j_run f g empty tr = Some s -> fold_at s d op inp x -> noback (j_sys s) d -> (forall er, ~ reported (j_sys s) er) -> (forall e, In (JOfFold d e) tr -> nofault e = true) ->
  exists ftr x0, twin (j_sys s) d op inp x ftr x0.
Proof.
  intros tr. induction tr as [|e tr IH] using rev_ind; intros s d op inp x R C NB NR NF.
  - cbn in R. injection R as <-. unfold fold_at in C. cbn in C. destruct d; discriminate.
  - unfold j_run in R. apply run_from_app in R. destruct R as (s1 & R1 & S). cbn [run_from] in S. destruct (step s1 e) as [s2|] eqn:ST; [|discriminate]. injection S as ->.
    pose proof (jinv_run f g empty tr s1 R1) as J. pose proof (jinv_step f g empty _ _ _ J ST) as J'. pose proof (noback_step f g empty _ _ _ _ ST NB) as NB1.
    destruct (nth_error (j_cl s1) d) as [c|] eqn:C1.
    + assert (X : exists x1, c = CFold op inp x1).
      { unfold fold_at in C. destruct (kind_step f g empty _ _ _ ST) as [[_ K]|[(op1 & k & arr1 & late1 & en1 & _ & E)|(op1 & k & inp1 & _ & E)]].
        - destruct (K _ _ C1) as (c' & C' & SK). rewrite C in C'. injection C' as <-. destruct c as [|op1 inp1 x1]; [destruct SK|]. cbn in SK. destruct SK as (-> & ->). eauto.
        - rewrite E, nth_error_app1 in C by (apply nth_error_Some; congruence). rewrite C1 in C. injection C as ->. eauto.
        - rewrite E, nth_error_app1 in C by (apply nth_error_Some; congruence). rewrite C1 in C. injection C as ->. eauto. }
      destruct X as (x1 & ->). destruct (IH s1 d op inp x1 R1 C1 NB1) as (ftr & x0 & TW).
      * intros er Q. exact (NR er (reported_kept f g empty _ _ _ _ ST Q)).
      * intros e0 I. apply NF, in_or_app. now left.
      * assert (NF1 : forall fe, e = JOfFold d fe -> nofault fe = true) by (intros fe ->; apply NF, in_or_app; right; now left). destruct (twin_joint _ _ _ _ _ _ _ _ _ _ J ST C1 C NB1 NR NF1 TW) as (new & x0' & TW' & _). eauto.
    + destruct (kind_step f g empty _ _ _ ST) as [[L K]|[(op1 & k & arr1 & late1 & en1 & _ & E)|(op1 & k & inp1 & EE & E)]]; unfold fold_at in C; apply nth_error_None in C1.
      * exfalso. assert (nth_error (j_cl s) d <> None) by congruence. apply nth_error_Some in H. lia.
      * rewrite E, nth_error_app2 in C by exact C1. destruct (d - length (j_cl s1)) as [|z]; [|cbn in C; destruct z; discriminate]. discriminate C.
      * rewrite E, nth_error_app2 in C by exact C1. destruct (d - length (j_cl s1)) as [|z] eqn:Z; [|cbn in C; destruct z; discriminate]. cbn in C. injection C as -> -> <-. exists [], (fold_init inp).
        constructor; [reflexivity|reflexivity|constructor|]. intros dd D O _. exists []. split; [constructor|]. split; [reflexivity|]. intros n. split; [intros []|]. intros [(p & Q) _]. exfalso.
        subst e. unfold j_step in ST. destruct (y_step may (j_sys s1) (YLease k)) as [y'|] eqn:Y; [|discriminate]. cbn [option_map] in ST. injection ST as <-. cbn [j_sys] in *. cbn [y_step] in Y. destruct (existsb _ _); [discriminate|]. injection Y as <-. cbn [y_sent] in Q.
        destruct J as (SI & LN & _). pose proof (si_sent _ _ SI _ _ _ Q). lia.
Qed.
End Live.
