(** C98: a mapped stream that the system runs comes to its end as long as its workers go on. *)
From Coq Require Import List Arith NArith Lia Bool Permutation.
From Verif Require Import Base BaseFacts PublishModel PublishSpec MapModel MapSpec MapProofs MapLive MapMeasure MapProps MapEndProps ContiguousModel FoldModel RetryModel
  WorkerModel WorkerSpec WorkerProofs WorkerFacts WorkerInv WorkerProps SystemModel SystemSpec SystemProofs SystemProps JointModel JointProofs JointInv JointProps PoolLive PoolProps.
Import ListNotations.
Open Scope nat_scope.

Section Live.
Variable f : nat -> nat -> nat.
Variable g : nat -> nat -> nat -> nat.
Variable empty : nat -> nat.
Notation step := (j_step f g empty).
Notation may := (may f g).
Notation jinv := (jinv f g empty).

(** * What a step of the whole system does to one directive *)
(** The event of the system behind an event. *)
Definition of_event (e : j_event) (ye : y_event) : Prop :=
  match e with
  | JMap _ k _ _ _ | JFold _ k _ => ye = YLease k
  | JOfMap d _ | JOfFold d _ => (exists x, ye = YSend d x) \/ exists j, ye = YRecv d j
  | JSys e => ye = e
  end.
Lemma jsys_step : forall s e s', step s e = Some s' -> j_sys s' = j_sys s \/ exists ye, of_event e ye /\ y_step may (j_sys s) ye = Some (j_sys s').
Proof.
  intros [y cl] e s' H. unfold j_step in H. cbn [j_sys j_cl] in *.
  assert (Q : forall ye (h : sys -> list client), of_event e ye -> option_map (fun y' => mkJ y' (h y')) (y_step may y ye) = Some s' -> j_sys s' = y \/ exists ye, of_event e ye /\ y_step may y ye = Some (j_sys s')).
  { intros ye h OE Q. destruct (y_step may y ye) as [y'|] eqn:Y; [|discriminate]. injection Q as <-. right. exists ye. split; [exact OE|exact Y]. }
  assert (SD : forall d c j, of_event e (YSend d (code j)) -> send f g y d c cl j = Some s' -> j_sys s' = y \/ exists ye, of_event e ye /\ y_step may y ye = Some (j_sys s')) by (intros d c j OE Z; exact (Q _ (fun _ => upd d c cl) OE Z)).
  assert (RV : forall d dd c i, (forall j, of_event e (YRecv d j)) -> recv f g y d dd c cl i = Some s' -> j_sys s' = y \/ exists ye, of_event e ye /\ y_step may y ye = Some (j_sys s')).
  { intros d dd c i OE Z. unfold recv in Z. destruct (place _ _ _) as [j|]; [|discriminate]. exact (Q _ (fun _ => upd d c cl) (OE j) Z). }
  destruct e as [op k arr late en|op k inp|d e|d e|e].
  - exact (Q _ (fun _ => _) eq_refl H).
  - exact (Q _ (fun _ => _) eq_refl H).
  - destruct (open_dir y d) as [dd|]; [|discriminate]. destruct (nth_error cl d) as [[op arr late en m|]|]; try discriminate. destruct (m_step (exec f op) m e) as [m'|]; [|discriminate].
    assert (ACC : match skipn (length (m_tasks m)) (m_tasks m') with [(i, a)] => send f g y d (CMap op arr late en m') cl (JobMap op i a) | _ => None end = Some s' -> j_sys s' = y \/ exists ye, of_event (JOfMap d e) ye /\ y_step may y ye = Some (j_sys s')).
    { destruct (skipn _ _) as [|[i a] [|]]; try discriminate. apply SD. left. eauto. }
    destruct e as [|e0| | | | | | | |e0|ok|i o|i|i|i|i]; try discriminate; try (injection H as <-; now left).
    + eapply RV; [|exact H]. intros j. right. eauto.
    + destruct (place _ _ _); [discriminate|]. injection H as <-. now left.
    + destruct e0; try (injection H as <-; now left); exact (ACC H).
  - destruct (open_dir y d) as [dd|]; [|discriminate]. destruct (nth_error cl d) as [[|op inp x]|]; try discriminate. destruct (fold_step (comb g op) (empty op) x e) as [x'|]; [|discriminate].
    destruct e as [| |i ok| |i ack| | | | |]; try discriminate; try (injection H as <-; now left).
    + destruct ok; [|injection H as <-; now left]. destruct (pick i (f_chan x)) as [[t r]|]; [|discriminate]. eapply SD; [|exact H]. left. eauto.
    + eapply RV; [|exact H]. intros j. right. eauto.
  - destruct e as [k|d x|ident|w j|w e|w i|d j|d]; try discriminate; try exact (Q _ (fun _ => cl) eq_refl H).
    destruct (y_step may y (YWork w e)) as [y'|] eqn:Y; [|discriminate]. injection H as <-. right. exists (YWork w e). split; [reflexivity|exact Y].
Qed.
Lemma jwinv_run : forall tr s, j_run f g empty tr = Some s -> winv2 (j_sys s).
Proof.
  intros tr s R. assert (K : sinv may (j_sys s) /\ winv2 (j_sys s)); [|exact (proj2 K)].
  apply (run_from_inv _ _ step (fun s => sinv may (j_sys s) /\ winv2 (j_sys s))) with (tr := tr) (s := j_init) (s' := s); [|exact (conj (sinv_init may) winv2_init)|exact R].
  intros s0 e s1 K H. destruct (jsys_step _ _ _ H) as [->|(ye & _ & Y)]; [exact K|]. exact (winv2_step may _ _ _ K Y).
Qed.
(** What was dispatched or came back stays so. *)
Lemma ysent_step : forall y e y', y_step may y e = Some y' -> (forall n d x, nth_error (y_sent y) n = Some (d, x) -> nth_error (y_sent y') n = Some (d, x)) /\ forall h, cnt h (y_back y) <= cnt h (y_back y').
Proof.
  intros y e y' H. destruct e as [k|d x|ident|w j|w e|w i|d j|d]; cbn [y_step] in H.
  - destruct (existsb _ _); [discriminate|]. injection H as <-. cbn. auto.
  - destruct (nth_error (y_dirs y) d); [|discriminate]. injection H as <-. cbn. split; [|auto]. intros n dz xz S. rewrite nth_error_app1; [exact S|]. apply nth_error_Some. congruence.
  - injection H as <-. cbn. auto.
  - destruct (nth_error (y_workers y) w) as [ws|]; [|discriminate]. destruct (pick j (y_queue y)) as [[n q]|]; [|discriminate]. destruct (nth_error (y_sent y) n) as [[d x]|]; [|discriminate].
    destruct (nth_error (y_dirs y) d) as [dd|]; [|discriminate]. destruct (w_step ws _) as [ws'|]; [|discriminate]. injection H as <-. cbn. auto.
  - destruct (nth_error (y_workers y) w) as [ws|]; [|discriminate]. destruct (possible may y ws e); [|discriminate]. destruct (w_step ws e); [|discriminate]. injection H as <-. cbn. auto.
  - destruct (nth_error (y_workers y) w) as [ws|]; [|discriminate]. destruct (body_of i (w_log ws)) as [n|]; [|discriminate]. destruct (_ || _); [discriminate|]. injection H as <-. cbn [y_sent y_back]. split; [auto|]. intros h. rewrite cnt_cons. lia.
  - destruct (nth_error (y_dirs y) d) as [dd|]; [|discriminate]. destruct (pick j (y_results y)) as [[r rest]|]; [|discriminate]. destruct (_ && _); [|discriminate]. injection H as <-. cbn. auto.
  - destruct (nth_error (y_dirs y) d) as [dd|]; [|discriminate]. destruct (d_open dd); [|discriminate]. injection H as <-. cbn. auto.
Qed.
Lemma noback_step : forall s e s' d, step s e = Some s' -> noback (j_sys s') d -> noback (j_sys s) d.
Proof.
  intros s e s' d H NB. destruct (jsys_step _ _ _ H) as [E|(ye & _ & Y)]; [now rewrite <- E|]. destruct (ysent_step _ _ _ Y) as [S B]. intros n x Z. specialize (NB n x (S _ _ _ Z)). specialize (B (back_n n)). lia.
Qed.

(** A result that arrives is an execution of MapModel. *)
Lemma answer_step : forall y y' d dd op arr late en m r x, sinv may y -> sinv may y' -> nth_error (y_dirs y) d = Some dd -> d_open dd = true -> knows f g empty y d dd (CMap op arr late en m) -> noback y d ->
  y_dirs y' = y_dirs y -> y_sent y' = y_sent y -> y_lost y' = y_lost y -> y_back y' = y_back y -> y_results y' = y_results y ++ [r] -> nth_error (y_sent y) (r_n r) = Some (d, x) ->
  exists m' j o, answer (CMap op arr late en m) (decode x) (r_out r) = CMap op arr late en m' /\ m_step (exec f op) m (MWork j o) = Some m' /\ (forall er, o = Some er -> r_out r = inr er).
Proof.
  intros y y' d dd op arr late en m r x SI SI' D O (K1 & K2) NB DS S L B R SN. destruct (K1 _ _ SN) as (i & a & DC). rewrite DC. cbn [answer].
  destruct (K2 NB) as (mtr & N1 & N2 & RN & M). destruct (M O) as (RS & ns & D1 & D2 & D3).
  assert (CA : forall h, cnt h (all_res y') = cnt h (all_res y) + b2n (h r)). { intros h. unfold all_res. rewrite R, DS, L, !cnt_app, cnt_one. lia. }
  assert (Z : cnt (of_n (r_n r)) (all_res y) = 0).
  { assert (cnt (of_n (r_n r)) (all_res y') <= 1). { apply (once f g _ _ SI'). rewrite B. exact (NB _ _ SN). } rewrite CA in H. unfold of_n at 2 in H. rewrite Nat.eqb_refl in H. cbn in H. lia. }
  assert (IN : In (r_n r) ns) by (apply D3; eauto).
  assert (MT : mtask y (r_n r) = (i, a)) by (eapply mtask_sent; eauto).
  assert (IT : In (i, a) (m_tasks m)). { rewrite D2, <- MT. now apply in_map. }
  destruct (first_pick _ _ _ IT) as (j & PJ).
  assert (EX : exists o, exec f op o a = answer_of (r_out r) /\ (forall er, o = Some er -> r_out r = inr er)).
  { assert (RI : In r (y_results y')) by (rewrite R; apply in_or_app; right; now left). assert (SN' : nth_error (y_sent y') (r_n r) = Some (d, x)) by now rewrite S.
    pose proof (queue_value f g y' r d x SI' RI SN') as V. destruct (r_out r) as [v|er]; [exists None; rewrite DC in V; cbn in *; rewrite V; split; [reflexivity|discriminate] | exists (Some er); split; [reflexivity|congruence]]. }
  destruct EX as (o & EX & EO). eexists. exists j, o. split; [reflexivity|]. split; [|exact EO]. cbn [m_step]. rewrite PJ. cbn [snd]. now rewrite EX.
Qed.

Definition fresh_event (e : m_event (option nat)) : Prop := match e with MWork _ _ | MLose _ | MLoseResult _ | MDupTask _ | MDupResult _ => False | _ => True end.
(** A step leaves a map alone, is one of its own, or brings it a result. *)
Inductive follows (s' : joint) (op : nat) (m : mstate nat nat nat) (d : nat) (e : j_event) (m' : mstate nat nat nat) : Prop :=
| fo_same : m' = m -> (forall me, e <> JOfMap d me) -> follows s' op m d e m'
| fo_own : forall me, e = JOfMap d me -> fresh_event me -> m_step (exec f op) m me = Some m' -> follows s' op m d e m'
| fo_result : forall ye j o, e = JSys ye -> m_step (exec f op) m (MWork j o) = Some m' -> (forall er, o = Some er -> exists r, In r (y_results (j_sys s')) /\ r_out r = inr er) -> follows s' op m d e m'.
Lemma map_step : forall s e s' d op arr late en m, jinv s -> step s e = Some s' -> map_at s d op arr late en m -> noback (j_sys s) d ->
  exists m', map_at s' d op arr late en m' /\ follows s' op m d e m'.
Proof.
  intros [y cl] e s' d0 op0 arr0 late0 en0 m0 J H C NB. pose proof (jinv_step f g empty _ _ _ J H) as J'. pose proof J as (SI & LN & KN). unfold j_step in H. cbn [j_sys j_cl] in *. unfold map_at in *. cbn [j_cl] in C.
  assert (LT : d0 < length cl) by (apply nth_error_Some; congruence).
  assert (OT : forall d c, d <> d0 -> nth_error (upd d c cl) d0 = Some (CMap op0 arr0 late0 en0 m0)) by (intros d c NE; rewrite upd_nth_other; auto).
  assert (CASE : forall d c y1, s' = mkJ y1 (upd d c cl) -> (d = d0 -> exists m' me, c = CMap op0 arr0 late0 en0 m' /\ e = JOfMap d me /\ fresh_event me /\ m_step (exec f op0) m0 me = Some m') -> (forall me, e = JOfMap d0 me -> d = d0) ->
    exists m', nth_error (j_cl s') d0 = Some (CMap op0 arr0 late0 en0 m') /\ follows s' op0 m0 d0 e m').
  { intros d c y1 -> Q U. cbn [j_cl]. destruct (Nat.eq_dec d d0) as [->|NE].
    - destruct (Q eq_refl) as (m' & me & -> & -> & F & M). exists m'. split; [now apply upd_nth_same|]. exact (fo_own _ _ _ _ _ _ me eq_refl F M).
    - exists m0. split; [now apply OT|]. apply fo_same; [reflexivity|]. intros me E. exact (NE (U _ E)). }
  assert (SAME : forall y1 l, s' = mkJ y1 (cl ++ l) -> (forall me, e <> JOfMap d0 me) -> exists m', nth_error (j_cl s') d0 = Some (CMap op0 arr0 late0 en0 m') /\ follows s' op0 m0 d0 e m').
  { intros y1 l -> N. exists m0. cbn [j_cl]. rewrite nth_error_app1 by exact LT. split; [exact C|]. now apply fo_same. }
  assert (SAME0 : forall y1, s' = mkJ y1 cl -> (forall me, e <> JOfMap d0 me) -> exists m', nth_error (j_cl s') d0 = Some (CMap op0 arr0 late0 en0 m') /\ follows s' op0 m0 d0 e m').
  { intros y1 -> N. exists m0. cbn [j_cl]. split; [exact C|]. now apply fo_same. }
  assert (OM : forall ye (h : sys -> list client), option_map (fun y' => mkJ y' (h y')) (y_step may y ye) = Some s' -> exists y1, s' = mkJ y1 (h y1)).
  { intros ye h Q. destruct (y_step may y ye) as [y1|]; [|discriminate]. injection Q as <-. eauto. }
  destruct e as [op k arr late en|op k inp|d e|d e|e].
  - destruct (OM _ (fun _ => _) H) as (y1 & E). eapply SAME; [exact E|discriminate].
  - destruct (OM _ (fun _ => _) H) as (y1 & E). eapply SAME; [exact E|discriminate].
  - destruct (open_dir y d) as [dd|]; [|discriminate]. destruct (nth_error cl d) as [[op arr late en m|]|] eqn:CD; try discriminate. destruct (m_step (exec f op) m e) as [m'|] eqn:M; [|discriminate].
    assert (OWN : fresh_event e -> d = d0 -> exists m1 me, CMap op arr late en m' = CMap op0 arr0 late0 en0 m1 /\ JOfMap d e = JOfMap d me /\ fresh_event me /\ m_step (exec f op0) m0 me = Some m1).
    { intros F ->. rewrite C in CD. injection CD as <- <- <- <- <-. exists m', e. auto. }
    assert (UN : forall me, JOfMap d e = JOfMap d0 me -> d = d0) by congruence.
    assert (LOC : fresh_event e -> Some (mkJ y (upd d (CMap op arr late en m') cl)) = Some s' -> exists m', nth_error (j_cl s') d0 = Some (CMap op0 arr0 late0 en0 m') /\ follows s' op0 m0 d0 (JOfMap d e) m').
    { intros F Q. injection Q as Q. exact (CASE d _ _ (eq_sym Q) (OWN F) UN). }
    assert (ACC : fresh_event e -> match skipn (length (m_tasks m)) (m_tasks m') with [(i, a)] => send f g y d (CMap op arr late en m') cl (JobMap op i a) | _ => None end = Some s' ->
      exists m', nth_error (j_cl s') d0 = Some (CMap op0 arr0 late0 en0 m') /\ follows s' op0 m0 d0 (JOfMap d e) m').
    { intros F Q. destruct (skipn _ _) as [|[i a] [|]]; try discriminate. destruct (OM _ (fun _ => upd d (CMap op arr late en m') cl) Q) as (y1 & E). exact (CASE d _ _ E (OWN F) UN). }
    destruct e as [|e0| | | | | | | |e0|ok|i o|i|i|i|i]; try discriminate; try (apply LOC; [exact Logic.I|exact H]).
    + unfold recv in H. destruct (place _ _ _) as [j|]; [|discriminate]. destruct (OM _ (fun _ => upd d (CMap op arr late en m') cl) H) as (y1 & E). exact (CASE d _ _ E (OWN Logic.I) UN).
    + destruct (place _ _ _); [discriminate|]. apply LOC; [exact Logic.I|exact H].
    + destruct e0; first [apply ACC; [exact Logic.I|exact H] | apply LOC; [exact Logic.I|exact H]].
  - destruct (open_dir y d) as [dd|]; [|discriminate]. destruct (nth_error cl d) as [[|op inp x]|] eqn:CD; try discriminate. destruct (fold_step (comb g op) (empty op) x e) as [x'|] eqn:M; [|discriminate].
    assert (NE : d = d0 -> exists m1 me, CFold op inp x' = CMap op0 arr0 late0 en0 m1 /\ JOfFold d e = JOfMap d me /\ fresh_event me /\ m_step (exec f op0) m0 me = Some m1) by (intros ->; congruence).
    assert (UN : forall me, JOfFold d e = JOfMap d0 me -> d = d0) by discriminate.
    assert (LOC : forall y1, Some (mkJ y1 (upd d (CFold op inp x') cl)) = Some s' -> exists m', nth_error (j_cl s') d0 = Some (CMap op0 arr0 late0 en0 m') /\ follows s' op0 m0 d0 (JOfFold d e) m').
    { intros y1 Q. injection Q as Q. exact (CASE d _ _ (eq_sym Q) NE UN). }
    destruct e as [| |i ok| |i ack| | | | |]; try discriminate; try (exact (LOC _ H)).
    + destruct ok; [|exact (LOC _ H)]. destruct (pick i (f_chan x)) as [[t r]|]; [|discriminate]. destruct (OM _ (fun _ => upd d (CFold op inp x') cl) H) as (y1 & E). exact (CASE d _ _ E NE UN).
    + unfold recv in H. destruct (place _ _ _) as [j|]; [|discriminate]. destruct (OM _ (fun _ => upd d (CFold op inp x') cl) H) as (y1 & E). exact (CASE d _ _ E NE UN).
  - destruct e as [k|d x|ident|w j|w e|w i|d j|d]; try discriminate; try (destruct (OM _ (fun _ => cl) H) as (y1 & E); eapply SAME0; [exact E|discriminate]).
    destruct (y_step may y (YWork w e)) as [y'|] eqn:Y; [|discriminate]. injection H as <-. pose proof (proj1 J') as SI'. cbn [j_sys] in SI'. destruct (work_results f g _ _ _ _ Y) as (E1 & E2 & E3 & E4 & [E5|(r & E5)]); rewrite E5 in *.
    + rewrite skipn_all in *. cbn [fold_left j_cl] in *. exists m0. split; [exact C|]. apply fo_same; [reflexivity|discriminate].
    + rewrite skipn_app, skipn_all, Nat.sub_diag in *. cbn [skipn app fold_left j_cl] in *. unfold arrive. rewrite E2. assert (RI : In r (y_results y')) by (rewrite E5; apply in_or_app; right; now left).
      destruct (nth_error (y_sent y) (r_n r)) as [[d x]|] eqn:S1; [|exists m0; split; [exact C|]; apply fo_same; [reflexivity|discriminate]].
      rewrite E1. destruct (nth_error (y_dirs y) d) as [dd|] eqn:D1; [|exists m0; split; [exact C|]; apply fo_same; [reflexivity|discriminate]].
      destruct (nth_error cl d) as [c|] eqn:CD; [|exists m0; split; [exact C|]; apply fo_same; [reflexivity|discriminate]].
      destruct (d_open dd) eqn:O; [|exists m0; split; [exact C|]; apply fo_same; [reflexivity|discriminate]].
      destruct (Nat.eq_dec d d0) as [->|NE]; [|exists m0; split; [now apply OT|]; apply fo_same; [reflexivity|discriminate]].
      rewrite C in CD. injection CD as <-. destruct (answer_step y y' d0 dd op0 arr0 late0 en0 m0 r x SI SI' D1 O (KN _ _ _ D1 C) NB E1 E2 E3 E4 E5 S1) as (m' & j & o & A & M & EO).
      exists m'. rewrite A. split; [now apply upd_nth_same|]. eapply (fo_result _ _ _ _ _ _ _ j o); [reflexivity|exact M|]. intros er Q. exists r. cbn [j_sys]. split; [exact RI|exact (EO _ Q)].
Qed.

(** Kinds do not change; a new map is at its beginning. *)
Definition same_kind (c c' : client) : Prop :=
  match c, c' with
  | CMap op arr late en _, CMap op' arr' late' en' _ => op' = op /\ arr' = arr /\ late' = late /\ en' = en
  | CFold op inp _, CFold op' inp' _ => op' = op /\ inp' = inp
  | _, _ => False
  end.
Definition like (cl cl' : list client) : Prop := length cl' = length cl /\ forall d c, nth_error cl d = Some c -> exists c', nth_error cl' d = Some c' /\ same_kind c c'.
Lemma same_refl : forall c, same_kind c c.
Proof. intros [|]; cbn; auto. Qed.
Lemma same_trans : forall a b c, same_kind a b -> same_kind b c -> same_kind a c.
Proof. intros [|] [|] [|] H K; cbn in *; try contradiction; intuition congruence. Qed.
Lemma like_refl : forall cl, like cl cl.
Proof. intros cl. split; [reflexivity|]. intros d c H. exists c. split; [exact H|apply same_refl]. Qed.
Lemma like_trans : forall a b c, like a b -> like b c -> like a c.
Proof.
  intros a b c [L1 K1] [L2 K2]. split; [congruence|]. intros d x H. destruct (K1 _ _ H) as (y & H1 & S1). destruct (K2 _ _ H1) as (z & H2 & S2). exists z. split; [exact H2|exact (same_trans _ _ _ S1 S2)].
Qed.
Lemma like_upd : forall cl d c c', nth_error cl d = Some c -> same_kind c c' -> like cl (upd d c' cl).
Proof.
  intros cl d c c' H S. split; [apply upd_length|]. intros d0 c0 H0. destruct (nth_upd_cases _ _ _ _ c' _ _ H H0) as [(-> & -> & U)|(_ & U)]; [exists c'; auto|exists c0; split; [exact U|apply same_refl]].
Qed.
Lemma answer_kind : forall c j o, same_kind c (answer c j o).
Proof. intros [op arr late en m|op inp x] [op' i a|op' t] o; cbn [answer]; try apply same_refl; [cbn; auto|]. destruct (f_ret x); cbn; auto. Qed.
Lemma arrive_like : forall y l cl, like cl (fold_left (arrive y) l cl).
Proof.
  intros y l. induction l as [|r l IH]; intros cl; [apply like_refl|]. cbn [fold_left]. apply (like_trans _ (arrive y cl r)); [|apply IH]. unfold arrive.
  destruct (nth_error (y_sent y) (r_n r)) as [[d x]|]; [|apply like_refl]. destruct (nth_error (y_dirs y) d) as [dd|]; [|apply like_refl]. destruct (nth_error cl d) as [c|] eqn:C; [|apply like_refl].
  destruct (d_open dd); [|apply like_refl]. apply (like_upd _ _ c); [exact C|apply answer_kind].
Qed.
Lemma kind_step : forall s e s', step s e = Some s' -> like (j_cl s) (j_cl s') \/
  (exists op k arr late en, e = JMap op k arr late en /\ j_cl s' = j_cl s ++ [CMap op arr late en (m_init arr late en)]) \/ exists op k inp, e = JFold op k inp /\ j_cl s' = j_cl s ++ [CFold op inp (fold_init inp)].
Proof.
  intros [y cl] e s' H. unfold j_step in H. cbn [j_sys j_cl] in *.
  assert (OM : forall ye (h : sys -> list client), option_map (fun y' => mkJ y' (h y')) (y_step may y ye) = Some s' -> exists y1, s' = mkJ y1 (h y1)).
  { intros ye h Q. destruct (y_step may y ye) as [y1|]; [|discriminate]. injection Q as <-. eauto. }
  destruct e as [op k arr late en|op k inp|d e|d e|e].
  - right. left. destruct (OM _ (fun _ => _) H) as (y1 & ->). exists op, k, arr, late, en. auto.
  - right. right. destruct (OM _ (fun _ => _) H) as (y1 & ->). exists op, k, inp. auto.
  - left. destruct (open_dir y d) as [dd|]; [|discriminate]. destruct (nth_error cl d) as [[op arr late en m|]|] eqn:CD; try discriminate. destruct (m_step (exec f op) m e) as [m'|] eqn:M; [|discriminate].
    assert (U : like cl (upd d (CMap op arr late en m') cl)) by (apply (like_upd _ _ _ _ CD); cbn; auto).
    assert (ACC : match skipn (length (m_tasks m)) (m_tasks m') with [(i, a)] => send f g y d (CMap op arr late en m') cl (JobMap op i a) | _ => None end = Some s' -> like cl (j_cl s')).
    { intros Q. destruct (skipn _ _) as [|[i a] [|]]; try discriminate. destruct (OM _ (fun _ => upd d (CMap op arr late en m') cl) Q) as (y1 & ->). exact U. }
    destruct e as [|e0| | | | | | | |e0|ok|i o|i|i|i|i]; try discriminate; try (injection H as <-; exact U).
    + unfold recv in H. destruct (place _ _ _) as [j|]; [|discriminate]. destruct (OM _ (fun _ => upd d (CMap op arr late en m') cl) H) as (y1 & ->). exact U.
    + destruct (place _ _ _); [discriminate|]. injection H as <-. exact U.
    + destruct e0; first [exact (ACC H) | injection H as <-; exact U].
  - left. destruct (open_dir y d) as [dd|]; [|discriminate]. destruct (nth_error cl d) as [[|op inp x]|] eqn:CD; try discriminate. destruct (fold_step (comb g op) (empty op) x e) as [x'|] eqn:M; [|discriminate].
    assert (U : like cl (upd d (CFold op inp x') cl)) by (apply (like_upd _ _ _ _ CD); cbn; auto).
    destruct e as [| |i ok| |i ack| | | | |]; try discriminate; try (injection H as <-; exact U).
    + destruct ok; [|injection H as <-; exact U]. destruct (pick i (f_chan x)) as [[t r]|]; [|discriminate]. destruct (OM _ (fun _ => upd d (CFold op inp x') cl) H) as (y1 & ->). exact U.
    + unfold recv in H. destruct (place _ _ _) as [j|]; [|discriminate]. destruct (OM _ (fun _ => upd d (CFold op inp x') cl) H) as (y1 & ->). exact U.
  - left. destruct e as [k|d x|ident|w j|w e|w i|d j|d]; try discriminate; try (destruct (OM _ (fun _ => cl) H) as (y1 & ->); apply like_refl).
    destruct (y_step may y (YWork w e)) as [y'|] eqn:Y; [|discriminate]. injection H as <-. apply arrive_like.
Qed.

(** Logs of workers only grow. *)
Lemma log_kept : forall y e y' w ws p, y_step may y e = Some y' -> nth_error (y_workers y) w = Some ws -> In p (w_log ws) -> exists ws', nth_error (y_workers y') w = Some ws' /\ In p (w_log ws').
Proof.
  intros y e y' w0 ws0 p H W0 I. destruct e as [k|d x|ident|w j|w e|w i|d j|d]; cbn [y_step] in H.
  - destruct (existsb _ _); [discriminate|]. injection H as <-. eauto.
  - destruct (nth_error (y_dirs y) d); [|discriminate]. injection H as <-. eauto.
  - injection H as <-. exists ws0. split; [|exact I]. cbn. rewrite nth_error_app1; [exact W0|]. apply nth_error_Some. congruence.
  - destruct (nth_error (y_workers y) w) as [ws|] eqn:W; [|discriminate]. destruct (pick j (y_queue y)) as [[n q]|]; [|discriminate]. destruct (nth_error (y_sent y) n) as [[d x]|]; [|discriminate].
    destruct (nth_error (y_dirs y) d) as [dd|]; [|discriminate]. destruct (w_step ws _) as [ws'|] eqn:WS; [|discriminate]. injection H as <-. cbn [y_workers].
    destruct (nth_upd_cases _ _ _ _ ws' _ _ W W0) as [(-> & -> & U)|(_ & U)]; [|eauto]. exists ws'. split; [exact U|]. destruct (step_acts _ _ _ WS) as (new & L & _). rewrite L. apply in_or_app. now right.
  - destruct (nth_error (y_workers y) w) as [ws|] eqn:W; [|discriminate]. destruct (possible may y ws e); [|discriminate]. destruct (w_step ws e) as [ws'|] eqn:WS; [|discriminate]. injection H as <-. cbn [y_workers].
    destruct (nth_upd_cases _ _ _ _ ws' _ _ W W0) as [(-> & -> & U)|(_ & U)]; [|eauto]. exists ws'. split; [exact U|]. destruct (step_acts _ _ _ WS) as (new & L & _). rewrite L. apply in_or_app. now right.
  - destruct (nth_error (y_workers y) w) as [ws|]; [|discriminate]. destruct (body_of i (w_log ws)) as [n|]; [|discriminate]. destruct (_ || _); [discriminate|]. injection H as <-. eauto.
  - destruct (nth_error (y_dirs y) d) as [dd|]; [|discriminate]. destruct (pick j (y_results y)) as [[r rest]|]; [|discriminate]. destruct (_ && _); [|discriminate]. injection H as <-. eauto.
  - destruct (nth_error (y_dirs y) d) as [dd|]; [|discriminate]. destruct (d_open dd); [|discriminate]. injection H as <-. eauto.
Qed.
(** Some worker reported this error. *)
Definition reported (y : sys) (er : nat) : Prop := exists w ws tm i k, nth_error (y_workers y) w = Some ws /\ In (tm, AErr i k er) (w_log ws).
Lemma reported_kept : forall s e s' er, step s e = Some s' -> reported (j_sys s) er -> reported (j_sys s') er.
Proof.
  intros s e s' er H (w & ws & tm & i & k & W & I). destruct (jsys_step _ _ _ H) as [->|(ye & _ & Y)]; [exists w, ws, tm, i, k; auto|]. destruct (log_kept _ _ _ _ _ _ Y W I) as (ws' & W' & I'). exists w, ws', tm, i, k. auto.
Qed.
(** What a map did, in its own model: it did nothing else, and its failures are those of the run. *)
Lemma follow_all : forall tr s d op arr late en m, j_run f g empty tr = Some s -> map_at s d op arr late en m -> noback (j_sys s) d ->
  exists mtr, run_from (m_step (exec f op)) (m_init arr late en) mtr = Some m /\
    forall e, In e mtr -> duplicates e = false /\ loses e = false /\ (fresh_event e -> In (JOfMap d e) tr) /\ (forall j er, e = MWork j (Some er) -> reported (j_sys s) er).
Proof.
  intros tr. induction tr as [|e tr IH] using rev_ind; intros s d op arr late en m R C NB.
  - cbn in R. injection R as <-. unfold map_at in C. cbn in C. destruct d; discriminate.
  - pose proof R as R0. unfold j_run in R. apply run_from_app in R. destruct R as (s1 & R1 & S). cbn [run_from] in S. destruct (step s1 e) as [s2|] eqn:ST; [|discriminate]. injection S as ->.
    pose proof (jinv_run f g empty tr s1 R1) as J. pose proof (jinv_step f g empty _ _ _ J ST) as J'. pose proof (noback_step _ _ _ _ ST NB) as NB1.
    destruct (nth_error (j_cl s1) d) as [c|] eqn:C1.
    + assert (X : exists m1, c = CMap op arr late en m1).
      { unfold map_at in C. destruct (kind_step _ _ _ ST) as [[_ K]|[(op1 & k & arr1 & late1 & en1 & _ & E)|(op1 & k & inp & _ & E)]].
        - destruct (K _ _ C1) as (c' & C' & SK). rewrite C in C'. injection C' as <-. destruct c as [op1 arr1 late1 en1 m1|]; [|destruct SK]. cbn in SK. destruct SK as (-> & -> & -> & ->). eauto.
        - rewrite E, nth_error_app1 in C by (apply nth_error_Some; congruence). rewrite C1 in C. injection C as ->. eauto.
        - rewrite E, nth_error_app1 in C by (apply nth_error_Some; congruence). rewrite C1 in C. injection C as ->. eauto. }
      destruct X as (m1 & ->). destruct (IH s1 d op arr late en m1 R1 C1 NB1) as (mtr & MR & P). destruct (map_step _ _ _ _ _ _ _ _ _ J ST C1 NB1) as (m' & C' & FO). unfold map_at in *. rewrite C in C'. injection C' as <-.
      assert (P' : forall e0, In e0 mtr -> duplicates e0 = false /\ loses e0 = false /\ (fresh_event e0 -> In (JOfMap d e0) (tr ++ [e])) /\ (forall j er, e0 = MWork j (Some er) -> reported (j_sys s) er)).
      { intros e0 I. destruct (P _ I) as (P1 & P2 & P3 & P4). split; [exact P1|]. split; [exact P2|]. split; [intros F; apply in_or_app; left; auto|]. intros j er E. exact (reported_kept _ _ _ _ ST (P4 _ _ E)). }
      assert (SN : forall me, m_step (exec f op) m1 me = Some m -> run_from (m_step (exec f op)) (m_init arr late en) (mtr ++ [me]) = Some m).
      { intros me M. apply run_from_app. exists m1. split; [exact MR|]. cbn [run_from]. now rewrite M. }
      destruct FO as [-> _|me E F M|ye j o E M EO].
      * exists mtr. auto.
      * exists (mtr ++ [me]). split; [exact (SN _ M)|]. intros e0 I. apply in_app_or in I. destruct I as [I|[<-|[]]]; [exact (P' _ I)|]. split; [destruct me; try reflexivity; destruct F|]. split; [destruct me; try reflexivity; destruct F|].
        split; [intros _; apply in_or_app; right; left; exact E|]. intros j er ->. destruct F.
      * exists (mtr ++ [MWork j o]). split; [exact (SN _ M)|]. intros e0 I. apply in_app_or in I. destruct I as [I|[<-|[]]]; [exact (P' _ I)|]. split; [reflexivity|]. split; [reflexivity|]. split; [intros []|].
        intros j0 er Q. injection Q as _ ->. destruct (EO _ eq_refl) as (r & RI & RO). destruct (si_res _ _ (proj1 J') r) as (ws & W & _ & tm & I); [apply in_all; now left|].
        unfold act_of in I. rewrite RO in I. exists (r_w r), ws, tm, (r_i r), (r_key r). auto.
    + destruct (kind_step _ _ _ ST) as [[L K]|[(op1 & k & arr1 & late1 & en1 & _ & E)|(op1 & k & inp & _ & E)]]; unfold map_at in C; apply nth_error_None in C1.
      * exfalso. assert (nth_error (j_cl s) d <> None) by congruence. apply nth_error_Some in H. lia.
      * rewrite E, nth_error_app2 in C by exact C1. destruct (d - length (j_cl s1)) as [|z]; [|cbn in C; destruct z; discriminate]. cbn in C. injection C as -> -> -> -> <-. exists []. split; [reflexivity|]. intros e0 [].
      * rewrite E, nth_error_app2 in C by exact C1. destruct (d - length (j_cl s1)) as [|z]; [|cbn in C; destruct z; discriminate]. discriminate C.
Qed.
Lemma follow_run : forall tr s d op arr late en m, j_run f g empty tr = Some s -> map_at s d op arr late en m -> noback (j_sys s) d ->
  exists mtr, run_from (m_step (exec f op)) (m_init arr late en) mtr = Some m /\
    forall e, In e mtr -> duplicates e = false /\ loses e = false /\ (MapSpec.fails e = true -> In (JOfMap d e) tr) /\ (forall j er, e = MWork j (Some er) -> reported (j_sys s) er).
Proof.
  intros tr s d op arr late en m R C NB. destruct (follow_all tr s d op arr late en m R C NB) as (mtr & MR & P). exists mtr. split; [exact MR|]. intros e I. destruct (P e I) as (P1 & P2 & P3 & P4). split; [exact P1|]. split; [exact P2|]. split; [|exact P4].
  intros F. apply P3. destruct e; try discriminate F; exact Logic.I.
Qed.
End Live.
