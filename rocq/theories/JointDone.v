(** C96: a directive that ran to its end had an answer to every task it gave out, so a task whose failure was ignored holds it up for ever. *)
From Coq Require Import List Arith NArith Lia Bool Permutation.
From Verif Require Import Base BaseFacts PublishModel PublishSpec MapModel MapSpec MapProofs MapProps MapEnd ContiguousModel FoldModel FoldSpec FoldProps FoldWeight RetryModel WorkerModel WorkerSpec WorkerInv WorkerProps
  SystemModel SystemSpec SystemProofs SystemProps JointModel JointProofs JointInv JointProps.
Import ListNotations.
Open Scope nat_scope.

Section Done.
Variable f : nat -> nat -> nat.
Variable g : nat -> nat -> nat -> nat.
Variable empty : nat -> nat.

(** Directive [d] has received a result of dispatch [n]. *)
Definition answered (s : joint) (d n : nat) : Prop := exists dd r, nth_error (y_dirs (j_sys s)) d = Some dd /\ In r (d_got dd) /\ r_n r = n.
(** An execution of dispatch [n] came to an outcome of which no result is published. *)
Definition silent (s : joint) (n : nat) : Prop := exists w ws i tm o, nth_error (y_workers (j_sys s)) w = Some ws /\ took ws i n /\ In (tm, AFinish i o) (w_log ws) /\ result_of o = None.

(** Where a result of a directive with an open channel is. *)
Lemma where_is : forall y d dd n x, sinv (may f g) y -> nth_error (y_dirs y) d = Some dd -> d_open dd = true -> nth_error (y_sent y) n = Some (d, x) -> cnt (of_n n) (all_res y) <> 0 ->
  (exists r, In r (queue_of y (d_key dd)) /\ r_n r = n) \/ exists r, In r (d_got dd) /\ r_n r = n.
Proof.
  intros y d dd n x SI D O S C. destruct (filter (of_n n) (all_res y)) as [|r l] eqn:F.
  - exfalso. apply C. apply cnt_zero. intros q I. destruct (of_n n q) eqn:Q; [exfalso|reflexivity]. assert (In q (filter (of_n n) (all_res y))) by (apply filter_In; auto). rewrite F in H. exact H.
  - assert (I : In r (filter (of_n n) (all_res y))) by (rewrite F; now left). apply filter_In in I as [I Q]. apply Nat.eqb_eq in Q.
    destruct (res_origin _ _ _ SI I) as (d' & x' & dd' & ws & o & S1 & S2 & K & _). unfold dispatched in S1. rewrite Q, S in S1. injection S1 as <- <-. assert (dd' = dd) by congruence. subst dd'.
    apply in_all in I as [I|[(d' & dd' & D' & I)|I]].
    + left. exists r. split; [|exact Q]. apply filter_In. split; [exact I|]. unfold on_key. now apply Nat.eqb_eq.
    + right. assert (d' = d) by (apply (keys_inj _ _ _ _ _ _ SI D' D); rewrite <- K; symmetry; exact (si_got _ _ SI _ _ _ D' I)). subst d'. assert (dd' = dd) by congruence. subst dd'. eauto.
    + exfalso. destruct (si_lost _ _ SI _ I) as (d' & dd' & D' & O' & K'). assert (d' = d) by (apply (keys_inj _ _ _ _ _ _ SI D' D); congruence). subst d'. congruence.
Qed.

Lemma ended_open : forall s d dd op arr late en m n x, jinv f g empty s -> map_at s d op arr late en m -> noback (j_sys s) d -> nth_error (y_dirs (j_sys s)) d = Some dd -> d_open dd = true ->
  (N.of_nat (length (arr ++ late)) < usize_max)%N -> MapSpec.ended (m_log m) = true -> nth_error (y_sent (j_sys s)) n = Some (d, x) -> In n (map r_n (d_got dd)).
Proof.
  intros s d dd op arr late en m n x J C NB D O SH EN S. destruct J as (SI & _ & KN).
  destruct (KN _ _ _ D C) as [_ K]. destruct (K NB) as (mtr & ND & _ & MR & F). destruct (F O) as (RS & ns & _ & NT & NI).
  pose proof (minv_any (exec f op) arr late en mtr m SH ND MR) as M. destruct (C95_counter (exec f op) arr late en SH mtr m ND MR) as [_ PC].
  assert (EN' : MapSpec.ended (m_log (rl m)) = true).
  { cbn. unfold MapSpec.ended in *. apply existsb_exists in EN as (r & I & Q). apply existsb_exists. exists (rl_ret r). split; [now apply in_map|]. now destruct r. }
  destruct (mi_none _ _ _ M EN') as [RD _]. destruct (mi_rdone _ _ _ M RD) as [_ PZ]. cbn in PZ. rewrite PC in PZ.
  assert (T0 : m_tasks m = []) by (destruct (m_tasks m); [reflexivity|cbn in PZ; lia]). assert (R0 : m_results m = []) by (destruct (m_results m); [reflexivity|cbn in PZ; lia]).
  rewrite T0 in NT. apply Permutation_nil in NT. apply map_eq_nil in NT. subst ns. rewrite R0 in RS. symmetry in RS. apply map_eq_nil in RS.
  destruct (where_is _ _ _ _ _ SI D O S) as [(r & I & Q)|(r & I & Q)].
  - intros Z. apply (NI n). split; [exists x; exact S|exact Z].
  - rewrite RS in I. contradiction.
  - apply in_map_iff. exists r. auto.
Qed.

(** *** What is still owed to a fold *)
Definition jsz (x : nat) : N := match decode x with JobFold _ t => tsz _ t | JobMap _ _ _ => 1%N end.
Definition due (d : nat) (got : list nat) (k d' : nat) : bool := Nat.eqb d' d && negb (existsb (Nat.eqb k) got).
Fixpoint owed (d : nat) (got : list nat) (k : nat) (l : list (nat * nat)) : N :=
  match l with [] => 0%N | (d', x) :: r => ((if due d got k d' then jsz x else 0) + owed d got (S k) r)%N end.
Lemma owed_app : forall d got a b k, owed d got k (a ++ b) = (owed d got k a + owed d got (k + length a)%nat b)%N.
Proof.
  intros d got a. induction a as [|[d' x] a IH]; intros b k; cbn [app owed length]; [now rewrite Nat.add_0_r|]. rewrite IH. replace (S k + length a) with (k + S (length a)) by lia. lia.
Qed.
Lemma owed_got : forall d got n l k d' x, nth_error l n = Some (d', x) -> d' = d -> ~ In (k + n) got -> (owed d (got ++ [(k + n)%nat]) k l + jsz x = owed d got k l)%N.
Proof.
  assert (LATER : forall d got n l k, n < k -> owed d (got ++ [n]) k l = owed d got k l).
  { intros d got n l. induction l as [|[d' x] l IH]; intros k LT; cbn [owed]; [reflexivity|]. rewrite IH by lia. unfold due. rewrite existsb_app. cbn [existsb]. destruct (Nat.eqb_spec k n); [lia|]. now rewrite !orb_false_r. }
  intros d got n l. revert n. induction l as [|[d1 x1] l IH]; intros [|n] k d' x H E NI; cbn in H; try discriminate.
  - injection H as -> ->. subst d'. cbn [owed]. rewrite Nat.add_0_r in *. rewrite LATER by lia. unfold due. rewrite Nat.eqb_refl, existsb_app. cbn [existsb]. rewrite Nat.eqb_refl, orb_true_r. cbn [andb negb].
    assert (NE : existsb (Nat.eqb k) got = false). { destruct (existsb (Nat.eqb k) got) eqn:X; [|reflexivity]. apply existsb_exists in X as (z & I & Q). apply Nat.eqb_eq in Q. subst z. contradiction. }
    rewrite NE. cbn [negb]. lia.
  - cbn [owed]. replace (k + S n) with (S k + n) in * by lia. specialize (IH n (S k) d' x H E NI). unfold due at 1. rewrite existsb_app. cbn [existsb]. destruct (Nat.eqb_spec k (S k + n)); [lia|]. rewrite !orb_false_r.
    change (Nat.eqb d1 d && negb (existsb (Nat.eqb k) got)) with (due d got k d1). lia.
Qed.
Lemma owed_more : forall d got n l k, (owed d (got ++ [n]) k l <= owed d got k l)%N.
Proof.
  intros d got n l. induction l as [|[d' x] l IH]; intros k; cbn [owed]; [lia|]. specialize (IH (S k)). unfold due. rewrite existsb_app. cbn [existsb]. destruct (Nat.eqb d' d), (existsb (Nat.eqb k) got), (Nat.eqb k n); cbn; lia.
Qed.
Lemma owed_none : forall d got l k n x, owed d got k l = 0%N -> nth_error l n = Some (d, x) -> In (k + n) got.
Proof.
  intros d got l. induction l as [|[d' x'] l IH]; intros k [|n] x Z H; cbn in H; try discriminate; cbn [owed] in Z.
  - injection H as -> ->. rewrite Nat.add_0_r. unfold due in Z. rewrite Nat.eqb_refl in Z. cbn [andb] in Z. destruct (existsb (Nat.eqb k) got) eqn:X.
    + apply existsb_exists in X as (z & I & Q). apply Nat.eqb_eq in Q. now subst z.
    + cbn [negb] in Z. assert (1 <= jsz x)%N by (unfold jsz, tsz; destruct (decode x); lia). lia.
  - replace (k + S n) with (S k + n) by lia. apply (IH (S k) n x); [lia|exact H].
Qed.
Lemma owed_nobody : forall d got l k, (forall n x, nth_error l n <> Some (d, x)) -> owed d got k l = 0%N.
Proof.
  intros d got l. induction l as [|[d' x] l IH]; intros k H; cbn [owed]; [reflexivity|]. rewrite IH by (intros n y Q; exact (H (S n) y Q)). unfold due. destruct (Nat.eqb_spec d' d) as [->|]; [|reflexivity]. exfalso. exact (H 0 x eq_refl).
Qed.

(** What a directive was answered, and what it is still owed. *)
Definition account (y : sys) (d : nat) (dd : dir) (c : client) : Prop :=
  noback y d ->
  match c with
  | CMap op arr late en m => (N.of_nat (length (arr ++ late)) < usize_max)%N -> MapSpec.ended (m_log m) = true -> forall n x, nth_error (y_sent y) n = Some (d, x) -> In n (map r_n (d_got dd))
  | CFold op inp x => Forall (iproper _ _) inp -> (owed d (map r_n (d_got dd)) 0 (y_sent y) + wt _ _ x <= f_count x)%N
  end.
Definition accounts (y : sys) (cl : list client) : Prop := forall d dd c, nth_error (y_dirs y) d = Some dd -> nth_error cl d = Some c -> account y d dd c.
Definition sent_by_others (y y' : sys) (d : nat) : Prop := y_sent y' = y_sent y \/ exists d1 x, d1 <> d /\ y_sent y' = y_sent y ++ [(d1, x)].
Lemma account_keep : forall y y' d dd dd' c, sent_by_others y y' d -> d_got dd' = d_got dd -> (forall p, In p (y_back y) -> In p (y_back y')) -> account y d dd c -> account y' d dd' c.
Proof.
  intros y y' d dd dd' c S G B A NB.
  assert (OLD : forall n x, nth_error (y_sent y) n = Some (d, x) <-> nth_error (y_sent y') n = Some (d, x)).
  { intros n x. destruct S as [->|(d1 & z & N & ->)]; [tauto|]. split; intros H; [now apply nth_app_old|]. destruct (nth_app_new _ _ _ _ _ H) as [[_ Q]|Q]; [injection Q as -> _; congruence|exact Q]. }
  assert (NB0 : noback y d).
  { intros n x H. apply OLD in H. specialize (NB n x H). rewrite cnt_zero in NB. apply cnt_zero. intros p I. apply NB. auto. }
  specialize (A NB0). destruct c as [op arr late en m|op inp x]; rewrite G.
  - intros SH EN n x H. apply (A SH EN n x). now apply OLD.
  - intros F. specialize (A F). destruct S as [->|(d1 & z & N & ->)]; [exact A|]. rewrite owed_app. cbn [owed]. unfold due. destruct (Nat.eqb_spec d1 d); [congruence|]. cbn [andb]. lia.
Qed.
Lemma answer_account : forall y d dd c j o, account y d dd c -> account y d dd (answer c j o).
Proof. intros y d dd c j o A. destruct c as [op arr late en m|op inp x], j as [jo i a|jo t]; try exact A. cbn [answer]. destruct (f_ret x) eqn:FR; exact A. Qed.
Lemma arrive_accounts : forall y cl r, accounts y cl -> accounts y (arrive y cl r).
Proof.
  intros y cl r A. unfold arrive. destruct (nth_error (y_sent y) (r_n r)) as [[d x]|]; [|exact A]. destruct (nth_error (y_dirs y) d) as [dd|] eqn:D; [|exact A]. destruct (nth_error cl d) as [c|] eqn:C; [|exact A].
  destruct (d_open dd); [|exact A]. intros d0 dd0 c0 D0 C0. destruct (Nat.eq_dec d d0) as [<-|NE].
  - rewrite upd_nth_same in C0 by (apply nth_error_Some; congruence). injection C0 as <-. apply answer_account. eauto.
  - rewrite upd_nth_other in C0 by exact NE. eauto.
Qed.
Lemma accounts_client : forall y cl y' d dd dd' c c', accounts y cl -> nth_error (y_dirs y) d = Some dd -> nth_error cl d = Some c -> y_dirs y' = upd d dd' (y_dirs y) -> (forall p, In p (y_back y) -> In p (y_back y')) ->
  (y_sent y' = y_sent y \/ exists x, y_sent y' = y_sent y ++ [(d, x)]) -> account y' d dd' c' -> accounts y' (upd d c' cl).
Proof.
  intros y cl y' d dd dd' c c' A D C DS B S AC d0 dd0 c0 D0 C0. rewrite DS in D0. destruct (Nat.eq_dec d d0) as [<-|NE].
  - rewrite upd_nth_same in D0 by (apply nth_error_Some; congruence). rewrite upd_nth_same in C0 by (apply nth_error_Some; congruence). injection D0 as <-. injection C0 as <-. exact AC.
  - rewrite upd_nth_other in D0 by exact NE. rewrite upd_nth_other in C0 by exact NE. apply (account_keep y y' d0 dd0 dd0 c0); auto. destruct S as [S|(x & S)]; [now left|right; eauto].
Qed.
Lemma client_shape : forall s d op inp x, jinv f g empty s -> nth_error (j_cl s) d = Some (CFold op inp x) -> Forall (iproper _ _) inp -> shape _ _ x.
Proof.
  intros s d op inp x J C F. destruct (dir_of _ _ _ _ _ _ J C) as (dd & D). destruct J as (_ & _ & KN). destruct (KN _ _ _ D C) as [_ (ftr & K & _)]. eapply shape_run; eauto.
Qed.

Lemma accounts_step : forall s e s', jinv f g empty s -> accounts (j_sys s) (j_cl s) -> j_step f g empty s e = Some s' -> accounts (j_sys s') (j_cl s').
Proof.
  intros s e s' J A H. pose proof (jinv_step _ _ _ _ _ _ J H) as J'. pose proof J as (SI & LN & KN). pose proof (client_shape s) as SHP. destruct s as [y cl]. cbn [j_sys j_cl] in *.
  unfold j_step in H. cbn [j_sys j_cl] in H.
  assert (NEW : forall k y' c, y_step (may f g) y (YLease k) = Some y' -> (match c with CMap op arr late en m => m = m_init arr late en | CFold op inp x => x = fold_init inp end) -> accounts y' (cl ++ [c])).
  { intros k y' c Y I. cbn [y_step] in Y. destruct (existsb _ _); [discriminate|]. injection Y as <-. intros d dd c0 D C. cbn [y_dirs] in D.
    destruct (nth_app_new _ _ _ _ _ D) as [[-> ->]|D0].
    - rewrite <- LN, nth_error_app2, Nat.sub_diag in C by lia. cbn in C. injection C as <-. intros _. cbn [y_sent d_got].
      assert (NS : forall n x, nth_error (y_sent y) n <> Some (length (y_dirs y), x)). { intros n x S. pose proof (si_sent _ _ SI _ _ _ S). lia. }
      destruct c as [op arr late en m|op inp x]; subst.
      + intros _ EN. cbn in EN. discriminate EN.
      + intros _. rewrite owed_nobody by exact NS. change (wt nat nat (fold_init inp)) with 0%N. cbn. lia.
    - assert (C0 : nth_error cl d = Some c0). { destruct (nth_app_new _ _ _ _ _ C) as [[-> _]|Q]; [|exact Q]. assert (nth_error (y_dirs y) (length cl) <> None) by congruence. apply nth_error_Some in H0. lia. }
      apply (account_keep y _ d dd dd c0); auto. now left. }
  assert (SAME : forall y' cl', y_dirs y' = y_dirs y -> y_sent y' = y_sent y -> (forall p, In p (y_back y) -> In p (y_back y')) -> accounts y cl' -> accounts y' cl').
  { intros y' cl' DS S B A' d dd c D C. rewrite DS in D. apply (account_keep y y' d dd dd c); auto. now left. }
  destruct e as [op k arr late en|op k inp|d e|d e|e].
  - destruct (y_step (may f g) y (YLease k)) as [y'|] eqn:Y; [|discriminate]. cbn [option_map] in H. injection H as <-. cbn [j_sys j_cl]. eapply NEW; [exact Y|reflexivity].
  - destruct (y_step (may f g) y (YLease k)) as [y'|] eqn:Y; [|discriminate]. cbn [option_map] in H. injection H as <-. cbn [j_sys j_cl]. eapply NEW; [exact Y|reflexivity].
  - unfold open_dir in H. destruct (nth_error (y_dirs y) d) as [dd|] eqn:D; [|discriminate]. destruct (d_open dd) eqn:O; [|discriminate]. destruct (nth_error cl d) as [c|] eqn:C; [|discriminate].
    destruct c as [op arr late en m|op inp x]; [|discriminate]. destruct (m_step (exec f op) m e) as [m'|] eqn:M; [|discriminate].
    assert (G : forall y' dd', s' = mkJ y' (upd d (CMap op arr late en m') cl) -> y_dirs y' = upd d dd' (y_dirs y) -> d_open dd' = true -> (forall p, In p (y_back y) -> In p (y_back y')) ->
      (y_sent y' = y_sent y \/ exists x, y_sent y' = y_sent y ++ [(d, x)]) -> accounts (j_sys s') (j_cl s')).
    { intros y' dd' -> DS O' B S. cbn [j_sys j_cl]. apply (accounts_client y cl y' d dd dd' _ _ A D C DS B S). intros NB SH EN n x SN.
      eapply (ended_open (mkJ y' (upd d (CMap op arr late en m') cl)) d dd' op arr late en m' n x J'); auto; [|cbn [j_sys]; rewrite DS]; [unfold map_at; cbn [j_cl]|]; apply upd_nth_same; apply nth_error_Some; congruence. }
    assert (LOC : s' = mkJ y (upd d (CMap op arr late en m') cl) -> accounts (j_sys s') (j_cl s')).
    { intros Q. apply (G y dd Q); auto. now rewrite (upd_id _ _ _ _ D). }
    assert (SEND : forall j, send f g y d (CMap op arr late en m') cl j = Some s' -> accounts (j_sys s') (j_cl s')).
    { intros j Q. unfold send in Q. cbn [y_step] in Q. rewrite D in Q. cbn [option_map] in Q. injection Q as <-. eapply (G _ dd); [reflexivity|cbn [y_dirs]; now rewrite (upd_id _ _ _ _ D)|exact O|auto|right; cbn; eauto]. }
    assert (RECV : forall i, recv f g y d dd (CMap op arr late en m') cl i = Some s' -> accounts (j_sys s') (j_cl s')).
    { intros i Q. unfold recv in Q. destruct (place (d_key dd) i (y_results y)) as [j|]; [|discriminate Q]. destruct (y_step (may f g) y (YRecv d j)) as [y'|] eqn:Y; [|discriminate]. cbn [option_map] in Q. injection Q as <-.
      cbn [y_step] in Y. rewrite D in Y. destruct (pick j (y_results y)) as [[r rest]|]; [|discriminate]. destruct (_ && _); [|discriminate]. injection Y as <-.
      eapply (G _ (mkD (d_key dd) true (d_got dd ++ [r]))); [reflexivity|reflexivity|reflexivity|auto|now left]. }
    assert (ACC : match skipn (length (m_tasks m)) (m_tasks m') with [(i, a)] => send f g y d (CMap op arr late en m') cl (JobMap op i a) | _ => None end = Some s' -> accounts (j_sys s') (j_cl s')).
    { destruct (skipn _ _) as [|[i a] [|]]; try discriminate. apply SEND. }
    destruct e as [|e0| | | | | | | |e0|ok|i o|i|i|i|i]; try discriminate; try (injection H as H; now apply LOC).
    + eapply RECV; eauto.
    + destruct (place _ _ _); [discriminate|]. injection H as H. now apply LOC.
    + destruct e0; try (injection H as H; now apply LOC); now apply ACC.
  - unfold open_dir in H. destruct (nth_error (y_dirs y) d) as [dd|] eqn:D; [|discriminate]. destruct (d_open dd) eqn:O; [|discriminate]. destruct (nth_error cl d) as [c|] eqn:C; [|discriminate].
    destruct c as [op arr late en m|op inp x]; [discriminate|]. destruct (fold_step (comb g op) (empty op) x e) as [x'|] eqn:M; [|discriminate].
    pose proof (A _ _ _ D C) as AC. pose proof (fun F => weight_step _ _ _ _ _ _ _ _ (SHP d op inp x J C F) M) as W.
    assert (LOC : (forall F : Forall (iproper nat nat) inp, gain _ _ _ x e x' -> (wt _ _ x' + f_count x <= wt _ _ x + f_count x')%N) -> s' = mkJ y (upd d (CFold op inp x') cl) -> accounts (j_sys s') (j_cl s')).
    { intros G ->. cbn [j_sys j_cl]. apply (accounts_client y cl y d dd dd _ _ A D C); auto; [now rewrite (upd_id _ _ _ _ D)|]. intros NB F. specialize (AC NB F). destruct (W F) as [_ G']. specialize (G F G'). lia. }
    destruct e as [| |i ok| |i ack|ok| | | |]; try discriminate.
    + injection H as H. apply LOC; [|now symmetry]. intros _ G. exact G.
    + injection H as H. apply LOC; [|now symmetry]. intros _ G. cbn [gain] in G. lia.
    + destruct ok; [|injection H as H; apply LOC; [|now symmetry]; intros _ G; cbn [gain] in G; lia].
      destruct (pick i (f_chan x)) as [[t c]|] eqn:P; [|discriminate]. unfold send in H. remember (code (JobFold op t)) as cj eqn:CJ. cbn [y_step] in H. rewrite D in H. cbn [option_map] in H. injection H as <-. cbn [j_sys j_cl].
      eapply (accounts_client y cl _ d dd dd _ _ A D C); [cbn [y_dirs]; now rewrite (upd_id _ _ _ _ D)|auto|right; exists cj; reflexivity|]. intros NB F.
      assert (NB0 : noback y d). { intros n z S. apply (NB n z). cbn [y_sent]. now apply nth_app_old. }
      specialize (AC NB0 F). destruct (W F) as [_ (t' & c' & P' & W1 & W2)]. rewrite P in P'. injection P' as <- <-. cbn [y_sent]. rewrite owed_app. cbn [owed].
      assert (JS : jsz cj = tsz _ t) by (unfold jsz; now rewrite CJ, decode_code). rewrite JS. destruct (due _ _ _ _); lia.
    + unfold recv in H. destruct (place _ _ _) as [j|] eqn:PL; [|discriminate]. destruct (place_pick _ _ _ _ PL) as (r & rest & P1 & P2 & P3 & _). destruct (y_step (may f g) y (YRecv d j)) as [y'|] eqn:Y; [|discriminate]. cbn [option_map] in H. injection H as <-.
      cbn [y_step] in Y. rewrite D, P1 in Y. destruct (_ && _); [|discriminate]. injection Y as <-. cbn [j_sys j_cl].
      eapply (accounts_client y cl _ d dd (mkD (d_key dd) true (d_got dd ++ [r])) _ _ A D C); [reflexivity|auto|now left|]. intros NB F. specialize (AC NB F). cbn [y_sent d_got]. rewrite map_app. cbn [map].
      destruct (W F) as [_ (q & rs & P' & W1 & W2)]. rewrite W2.
      assert (FN : f_ret x = None) by (unfold fold_step in M; destruct (f_ret x); [discriminate|reflexivity]). destruct (KN _ _ _ D C) as [K1 (ftr & _ & K)]. destruct (K O FN) as [RS _].
      rewrite RS in P'. pose proof (pick_map _ _ (fres y) _ _ _ _ P3) as P4. unfold queue_of in P'. rewrite P4 in P'. injection P' as <- <-.
      assert (RI : In r (y_results y)) by (eapply pick_in; eauto). destruct (queue_mine f g y d dd r SI D RI P2) as (p & S). destruct (K1 _ _ S) as (t & DC).
      assert (NI : ~ In (0 + r_n r) (map r_n (d_got dd))).
      { intros I. apply in_map_iff in I as (r' & Q & I). pose proof (once f g y (r_n r) SI (NB _ _ S)) as ON. unfold all_res in ON. rewrite !cnt_app in ON.
        assert (1 <= cnt (of_n (r_n r)) (y_results y)). { destruct (cnt (of_n (r_n r)) (y_results y)) eqn:Z; [|lia]. rewrite cnt_zero in Z. specialize (Z _ RI). unfold of_n in Z. rewrite Nat.eqb_refl in Z. discriminate Z. }
        assert (1 <= cnt (of_n (r_n r)) (flat_map d_got (y_dirs y))). { destruct (cnt (of_n (r_n r)) (flat_map d_got (y_dirs y))) eqn:Z; [|lia]. rewrite cnt_zero in Z. specialize (Z r').
          assert (X : of_n (r_n r) r' = false) by (apply Z; apply in_flat_map; exists dd; split; [eapply nth_error_In; eauto|exact I]). unfold of_n in X. cbn in Q. rewrite Q, Nat.eqb_refl in X. discriminate X. }
        lia. }
      pose proof (owed_got d (map r_n (d_got dd)) (r_n r) (y_sent y) 0 d p S eq_refl NI) as OG. cbn [Nat.add] in OG.
      assert (JS : jsz p = tsz _ t) by (unfold jsz; now rewrite DC). rewrite JS in OG.
      assert (FZ : (match fres y r with ROk it => sz _ it | RErr _ => 0 end <= tsz _ t)%N). { unfold fres, job_of. rewrite S, DC. destruct (answer_of (r_out r)); [unfold sz, tsz; cbn; lia|lia]. }
      lia.
    + injection H as H. apply LOC; [|now symmetry]. intros _ G. cbn [gain] in G. lia.
  - destruct e as [k|d x|ident|w j|w e|w i|d j|d]; try discriminate.
    + cbn [y_step option_map] in H. injection H as <-. cbn [j_sys j_cl]. apply SAME; auto.
    + destruct (y_step (may f g) y (YTake w j)) as [y'|] eqn:Y; [|discriminate]. cbn [option_map] in H. injection H as <-. cbn [j_sys j_cl]. cbn [y_step] in Y.
      destruct (nth_error (y_workers y) w) as [ws|]; [|discriminate]. destruct (pick j (y_queue y)) as [[n q]|]; [|discriminate]. destruct (nth_error (y_sent y) n) as [[d x]|]; [|discriminate].
      destruct (nth_error (y_dirs y) d) as [dd|]; [|discriminate]. destruct (w_step ws _) as [ws'|]; [|discriminate]. injection Y as <-. apply SAME; auto.
    + destruct (y_step (may f g) y (YWork w e)) as [y'|] eqn:Y; [|discriminate]. injection H as <-. destruct (work_results f g _ _ _ _ Y) as (E1 & E2 & E3 & E4 & _). cbn [j_sys j_cl].
      assert (A' : accounts y' cl) by (apply SAME; auto; rewrite E4; auto). clear - A'. revert A'. generalize cl. induction (skipn _ _) as [|r l IH]; intros c A; [exact A|]. cbn [fold_left]. apply IH. now apply arrive_accounts.
    + destruct (y_step (may f g) y (YBack w i)) as [y'|] eqn:Y; [|discriminate]. cbn [option_map] in H. injection H as <-. cbn [j_sys j_cl]. cbn [y_step] in Y.
      destruct (nth_error (y_workers y) w) as [ws|]; [|discriminate]. destruct (body_of i (w_log ws)) as [n|]; [|discriminate]. destruct (_ || _); [discriminate|]. injection Y as <-. apply SAME; auto. cbn. auto.
    + destruct (y_step (may f g) y (YRelease d)) as [y'|] eqn:Y; [|discriminate]. cbn [option_map] in H. injection H as <-. cbn [j_sys j_cl]. cbn [y_step] in Y.
      destruct (nth_error (y_dirs y) d) as [dd|] eqn:D; [|discriminate]. destruct (d_open dd) eqn:O; [|discriminate]. injection Y as <-. intros d0 dd0 c0 D0 C0. cbn [y_dirs] in D0. destruct (Nat.eq_dec d d0) as [<-|NE].
      * rewrite upd_nth_same in D0 by (apply nth_error_Some; congruence). injection D0 as <-. apply (account_keep y _ d dd _ c0); [now left|reflexivity|auto|eauto].
      * rewrite upd_nth_other in D0 by exact NE. apply (account_keep y _ d0 dd0 dd0 c0); [now left|reflexivity|auto|eauto].
Qed.
Lemma accounts_run : forall tr s, j_run f g empty tr = Some s -> accounts (j_sys s) (j_cl s).
Proof.
  intros tr s H. refine (proj2 (run_from_inv _ _ (j_step f g empty) (fun s => jinv f g empty s /\ accounts (j_sys s) (j_cl s)) _ tr j_init s _ H)).
  - intros s0 e s1 [J A] Q. split; [eapply jinv_step; eauto|eapply accounts_step; eauto].
  - split; [apply (jinv_run f g empty []); reflexivity|]. intros [|d] dd c D; discriminate.
Qed.

(** A map that ended received a result of every task it gave out. *)
Theorem C96_map : forall tr s d op arr late en m n x, j_run f g empty tr = Some s -> map_at s d op arr late en m -> no_return s d ->
  (N.of_nat (length (arr ++ late)) < usize_max)%N -> MapSpec.ended (m_log m) = true -> dispatched (j_sys s) n d x -> answered s d n.
Proof.
  intros tr s d op arr late en m n x R C NR SH EN S. pose proof (jinv_run f g empty tr s R) as J. destruct (dir_of _ _ _ _ _ _ J C) as (dd & D).
  pose proof (accounts_run tr s R d dd _ D C (no_return_back _ _ NR) SH EN n x S) as I. apply in_map_iff in I as (r & Q & I). exists dd, r. auto.
Qed.
(** So did a fold that returned a value, whatever its input. *)
Theorem C96_fold : forall tr s d op inp x v n p, j_run f g empty tr = Some s -> fold_at s d op inp x -> no_return s d -> (forall i a, In (ROk (i, a)) inp -> (i < usize_max)%N) ->
  f_ret x = Some (RetOk v) -> dispatched (j_sys s) n d p -> answered s d n.
Proof.
  intros tr s d op inp x v n p R C NR F RT S. pose proof (jinv_run f g empty tr s R) as J. destruct (dir_of _ _ _ _ _ _ J C) as (dd & D).
  assert (F' : Forall (iproper nat nat) inp). { apply Forall_forall. intros [[i a]|e] I; [exact (F _ _ I)|exact Logic.I]. }
  pose proof (accounts_run tr s R d dd _ D C (no_return_back _ _ NR) F') as B. pose proof (over_weight _ _ _ _ (client_shape _ _ _ _ _ J C F') RT) as W.
  assert (Z : owed d (map r_n (d_got dd)) 0 (y_sent (j_sys s)) = 0%N) by lia. pose proof (owed_none _ _ _ _ _ _ Z S) as I. cbn in I. apply in_map_iff in I as (r & Q & I). exists dd, r. auto.
Qed.

(** *** One execution of a dispatch *)
Lemma cnt_two : forall (A : Type) (p : A -> bool) l x y, In x l -> In y l -> x <> y -> p x = true -> p y = true -> 2 <= cnt p l.
Proof.
  intros A p l. induction l as [|z l IH]; intros x y I1 I2 N P1 P2; [contradiction|]. rewrite cnt_cons.
  assert (ONE : forall q, In q l -> p q = true -> 1 <= cnt p l). { intros q I Q. destruct (cnt p l) eqn:Z; [|lia]. rewrite cnt_zero in Z. rewrite (Z _ I) in Q. discriminate Q. }
  destruct I1 as [->|I1]; destruct I2 as [->|I2]; [contradiction|rewrite P1; cbn; specialize (ONE _ I2 P2); lia|rewrite P2; cbn; specialize (ONE _ I1 P1); lia|].
  specialize (IH x y I1 I2 N P1 P2). lia.
Qed.
Lemma wsum_cons : forall h (z : wstate) l, wsum h (z :: l) = h z + wsum h l.
Proof. reflexivity. Qed.
Lemma wsum_in : forall h l w ws, nth_error l w = Some ws -> h ws <= wsum h l.
Proof. intros h l w ws H. apply nth_error_split in H as (a & b & -> & _). rewrite wsum_app, wsum_cons. lia. Qed.
Lemma wsum_two : forall h l w ws w' ws', nth_error l w = Some ws -> nth_error l w' = Some ws' -> w <> w' -> h ws + h ws' <= wsum h l.
Proof.
  intros h l. induction l as [|z l IH]; intros [|w] ws [|w'] ws' H H' N; cbn in H, H'; try discriminate; [contradiction| | |].
  - injection H as ->. pose proof (wsum_in h _ _ _ H'). rewrite wsum_cons. lia.
  - injection H' as ->. pose proof (wsum_in h _ _ _ H). rewrite wsum_cons. lia.
  - assert (w <> w') by congruence. pose proof (IH _ _ _ _ H H' H0). rewrite wsum_cons. lia.
Qed.
Lemma took_takes : forall ws i n, took ws i n -> 1 <= takes n (w_log ws).
Proof.
  intros ws i n (tm & t & I & B). unfold takes. destruct (cnt (take_of n) (w_log ws)) eqn:Z; [|lia]. rewrite cnt_zero in Z. specialize (Z _ I). cbn in Z. rewrite B, Nat.eqb_refl in Z. discriminate Z.
Qed.
Lemma took_once : forall y n w ws i w' ws' i', sinv (may f g) y -> cnt (back_n n) (y_back y) = 0 -> nth_error (y_workers y) w = Some ws -> took ws i n ->
  nth_error (y_workers y) w' = Some ws' -> took ws' i' n -> w = w' /\ i = i'.
Proof.
  intros y n w ws i w' ws' i' SI B W T W' T'. pose proof (si_count _ _ SI n) as C. rewrite B in C.
  assert (LE : wsum (fun ws => takes n (w_log ws)) (y_workers y) <= 1) by (destruct (n <? length (y_sent y)); lia). clear C.
  destruct (Nat.eq_dec w w') as [<-|NW].
  - split; [reflexivity|]. assert (ws' = ws) by congruence. subst ws'. destruct (Nat.eq_dec i i') as [<-|NI]; [reflexivity|exfalso].
    pose proof (wsum_in (fun ws => takes n (w_log ws)) _ _ _ W) as X. cbn beta in X. destruct T as (tm & t & I & Q), T' as (tm' & t' & I' & Q').
    assert (2 <= takes n (w_log ws)); [|lia]. apply (cnt_two _ _ _ (tm, ATake i t) (tm', ATake i' t')); auto; [congruence| |]; unfold take_of; cbn; apply Nat.eqb_eq; assumption.
  - exfalso. pose proof (wsum_two (fun ws => takes n (w_log ws)) _ _ _ _ _ W W' NW) as X. cbn beta in X. pose proof (took_takes _ _ _ T). pose proof (took_takes _ _ _ T'). lia.
Qed.
Lemma outcome_dec : forall o o' : outcome, {o = o'} + {o <> o'}.
Proof. repeat decide equality. Qed.
Lemma finish_once : forall ident tr ws i tm o tm' o', reaches ident tr ws -> In (tm, AFinish i o) (w_log ws) -> In (tm', AFinish i o') (w_log ws) -> o = o'.
Proof.
  intros ident tr ws i tm o tm' o' R I I'. destruct (xinv_run _ _ _ R) as (_ & X & _). specialize (X i).
  assert (D : o = o' \/ o <> o') by (destruct (outcome_dec o o'); auto). destruct D as [D|D]; [exact D|exfalso].
  assert (N : (tm, AFinish i o) <> (tm', AFinish i o')) by congruence.
  assert (2 <= finishes i (w_log ws)); [|lia]. apply (cnt_two _ _ _ _ _ I I' N); cbn; apply Nat.eqb_refl.
Qed.

(** A task whose execution published nothing was not answered, unless it was given to a worker again. *)
Lemma silent_unanswered : forall tr s d n x, j_run f g empty tr = Some s -> no_return s d -> dispatched (j_sys s) n d x -> silent s n -> ~ answered s d n.
Proof.
  intros tr s d n x R NR S (w & ws & i & tm & o & W & T & FI & RO) (dd & r & D & I & Q). pose proof (jinv_run f g empty tr s R) as J. destruct J as (SI & _ & _).
  assert (A : In r (all_res (j_sys s))) by (apply in_all; right; left; eauto). destruct (res_origin _ _ _ SI A) as (d' & x' & dd' & ws' & o' & _ & _ & _ & W' & T' & (tm' & F') & _ & RO').
  rewrite Q in T'. destruct (took_once _ _ _ _ _ _ _ _ SI (no_return_back _ _ NR _ _ S) W T W' T') as [Ew Ei]. rewrite <- Ew in W'. rewrite <- Ei in F'. assert (ws' = ws) by congruence. subst ws'.
  destruct (si_work _ _ SI _ _ W) as (ident & wtr & WR). pose proof (finish_once _ _ _ _ _ _ _ _ WR FI F') as E. congruence.
Qed.
(** It holds its directive up for as long as nobody executes it again. *)
Theorem C96_silent_map : forall tr s d op arr late en m n x, j_run f g empty tr = Some s -> map_at s d op arr late en m -> no_return s d -> (N.of_nat (length (arr ++ late)) < usize_max)%N ->
  dispatched (j_sys s) n d x -> silent s n -> MapSpec.ended (m_log m) = false.
Proof.
  intros tr s d op arr late en m n x R C NR SH S SL. destruct (MapSpec.ended (m_log m)) eqn:EN; [exfalso|reflexivity].
  exact (silent_unanswered _ _ _ _ _ R NR S SL (C96_map _ _ _ _ _ _ _ _ _ _ R C NR SH EN S)).
Qed.
Theorem C96_silent_fold : forall tr s d op inp x n p v, j_run f g empty tr = Some s -> fold_at s d op inp x -> no_return s d -> (forall i a, In (ROk (i, a)) inp -> (i < usize_max)%N) ->
  dispatched (j_sys s) n d p -> silent s n -> f_ret x <> Some (RetOk v).
Proof. intros tr s d op inp x n p v R C NR F S SL RT. exact (silent_unanswered _ _ _ _ _ R NR S SL (C96_fold _ _ _ _ _ _ _ _ _ R C NR F RT S)). Qed.
End Done.

(** *** Runs *)
(** The map and the fold of C63: three tasks, all answered. *)
Example C96_ex : exists s m x, j_run inc plus zero map_then_fold = Some s /\ map_at s 0 0 two_in [] true m /\ no_return s 0 /\ MapSpec.ended (m_log m) = true /\
  fold_at s 1 0 [ROk (1%N, 2); ROk (0%N, 1)] x /\ f_ret x = Some (RetOk 3) /\ map fst (y_sent (j_sys s)) = [0; 0; 1] /\ map (fun dd => map r_n (d_got dd)) (y_dirs (j_sys s)) = [[1; 0]; [2]].
Proof.
  destruct (j_run inc plus zero map_then_fold) as [s|] eqn:R; [|vm_compute in R; discriminate R]. exists s. vm_compute in R. injection R as <-. do 2 eexists.
  split; [reflexivity|]. split; [reflexivity|]. split; [apply show_no_return; reflexivity|]. split; [reflexivity|]. split; [reflexivity|]. split; [reflexivity|]. split; reflexivity.
Qed.
(** A map of two items; the failure of the second is ignored. The first result is delivered and the stream waits. *)
Definition one_ignored : list j_event :=
  [JMap 0 7 two_in [] true] ++ sys1 [YStart 20] ++ m1 0 publish_two ++
  sys1 ([YTake 0 0] ++ work 0 (OcOk 1) (resolve 0) ++ [YTake 0 0] ++ work 0 (OcErr FsIgnore 3) [WEffect SAck; WReturn SAck true; WJoin]) ++
  m1 0 [MPoll; MTake; MAckStart; MAckReply true; MAckFinish; MPoll; MEmpty].
Example C96_silent_ex : exists s m, j_run inc plus zero one_ignored = Some s /\ map_at s 0 0 two_in [] true m /\ no_return s 0 /\ dispatched (j_sys s) 1 0 (code (JobMap 0 1 1)) /\ silent s 1 /\
  yielded (m_log m) = [(0%N, 1)] /\ MapSpec.ended (m_log m) = false /\ y_queue (j_sys s) = [] /\ y_results (j_sys s) = [] /\ (forall ws, In ws (y_workers (j_sys s)) -> w_main ws = WpWait).
Proof.
  destruct (j_run inc plus zero one_ignored) as [s|] eqn:R; [|vm_compute in R; discriminate R]. exists s. vm_compute in R. injection R as <-. eexists.
  split; [reflexivity|]. split; [reflexivity|]. split; [apply show_no_return; reflexivity|]. split; [vm_compute; reflexivity|]. split.
  - exists 0. eexists. exists 1. eexists. exists (OcErr FsIgnore 3). split; [reflexivity|]. split; [|split; [|reflexivity]].
    + eexists. eexists. split; [cbn [w_log]; repeat (try (left; reflexivity); right)|reflexivity].
    + cbn [w_log]. repeat (try (left; reflexivity); right).
  - split; [reflexivity|]. split; [reflexivity|]. split; [reflexivity|]. split; [reflexivity|]. intros ws [<-|[]]. reflexivity.
Qed.
(** The same for a fold of two items. *)
Definition fold_ignored : list j_event :=
  [JFold 0 8 [ROk (1%N, 2); ROk (0%N, 1)]] ++ sys1 [YStart 20] ++ f1 0 [EvInput; EvInput; EvPublish 0 true; EvInputEnd] ++
  sys1 ([YTake 0 0] ++ work 0 (OcErr FsIgnore 3) [WEffect SAck; WReturn SAck true; WJoin]).
Example C96_silent_fold_ex : exists s x, j_run inc plus zero fold_ignored = Some s /\ fold_at s 0 0 [ROk (1%N, 2); ROk (0%N, 1)] x /\ no_return s 0 /\ dispatched (j_sys s) 0 0 (code (JobFold 0 (mkTask 0 1 1 2))) /\ silent s 0 /\ f_ret x = None.
Proof.
  destruct (j_run inc plus zero fold_ignored) as [s|] eqn:R; [|vm_compute in R; discriminate R]. exists s. vm_compute in R. injection R as <-. eexists.
  split; [reflexivity|]. split; [reflexivity|]. split; [apply show_no_return; reflexivity|]. split; [vm_compute; reflexivity|]. split; [|reflexivity].
  exists 0. eexists. exists 0. eexists. exists (OcErr FsIgnore 3). split; [reflexivity|]. split; [|split; [|reflexivity]].
  - eexists. eexists. split; [cbn [w_log]; repeat (try (left; reflexivity); right)|reflexivity].
  - cbn [w_log]. repeat (try (left; reflexivity); right).
Qed.
(** Without [no_return] it is false: a task executed twice is counted twice, and the map ends before the other one is executed at all. *)
Theorem C96_needs_no_return : exists tr s m x, j_run inc plus zero tr = Some s /\ map_at s 0 0 two_in [] true m /\ MapSpec.ended (m_log m) = true /\ dispatched (j_sys s) 1 0 x /\ ~ answered s 0 1.
Proof.
  exists map_twice. destruct (j_run inc plus zero map_twice) as [s|] eqn:R; [|vm_compute in R; discriminate R]. exists s. vm_compute in R. injection R as <-. do 2 eexists.
  split; [reflexivity|]. split; [reflexivity|]. split; [reflexivity|]. split; [reflexivity|]. intros (dd & r & D & I & Q). cbn in D. injection D as <-. cbn in I. destruct I as [<-|[<-|[]]]; discriminate Q.
Qed.
Print Assumptions C96_map.
Print Assumptions C96_fold.
Print Assumptions C96_silent_map.
Print Assumptions C96_silent_fold.
Print Assumptions C96_needs_no_return.
