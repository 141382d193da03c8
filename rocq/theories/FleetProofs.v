(** Lemmas about fleets of workers. *)
From Coq Require Import List Arith NArith Lia Bool Permutation.
From Verif Require Import Base BaseFacts RetryModel WorkerModel WorkerSpec WorkerProofs WorkerFacts WorkerInv WorkerProps SystemModel SystemProofs FleetModel FleetSpec.
Import ListNotations.
Open Scope nat_scope.

Lemma commands_app : forall a b, commands (a ++ b) = commands b ++ commands a.
Proof. intros a b. unfold commands. now rewrite rev_app_distr, flat_map_app. Qed.
Lemma commands_none : forall l, (forall tm k, ~ In (tm, ACommand k) l) -> commands l = [].
Proof.
  intros l H. unfold commands. assert (G : forall tm k, ~ In (tm, ACommand k) (rev l)) by (intros tm k I; apply in_rev in I; exact (H _ _ I)).
  revert G. generalize (rev l). clear. intros l; induction l as [|[tm a] l IH]; intros G; [reflexivity|]. cbn. rewrite IH.
  - rewrite app_nil_r. destruct a; try reflexivity. exfalso. eapply G. now left.
  - intros tm' k I. eapply G. right. exact I.
Qed.
Lemma in_commands : forall k l, In k (commands l) <-> exists tm, In (tm, ACommand k) l.
Proof.
  intros k l. unfold commands. rewrite in_flat_map. split.
  - intros ([tm a] & I & J). apply in_rev in I. cbn in J. destruct a; try contradiction. destruct J as [->|[]]. eauto.
  - intros (tm & I). exists (tm, ACommand k). split; [now apply -> in_rev|]. now left.
Qed.
Lemma step_commands : forall s e s', w_step s e = Some s' -> (forall k, e <> WCommand k) -> commands (w_log s') = commands (w_log s).
Proof.
  intros s e s' H N. destruct (step_acts s e s' H) as (new & -> & X). rewrite commands_app, (commands_none new), app_nil_r; [reflexivity|].
  intros tm k I. destruct (X _ _ I) as [_ E]. cbn in E. exact (N _ E).
Qed.
Lemma command_step : forall s k s', w_step s (WCommand k) = Some s' -> commands (w_log s') = commands (w_log s) ++ [k].
Proof.
  intros s k s' H. assert (L : w_log s' = (w_now s, ACommand k) :: w_log s \/ w_log s' = (w_now s, AMark k) :: (w_now s, ACommand k) :: w_log s).
  { unfold w_step in H. destruct (w_main s); try discriminate; destruct (w_lis s); try discriminate;
      unfold mark in H; cbn [log w_jobs] in H; destruct (marked k (w_jobs s)); injection H as <-; cbn; auto. }
  destruct L as [-> | ->].
  - change ((w_now s, ACommand k) :: w_log s) with ([(w_now s, ACommand k)] ++ w_log s). now rewrite commands_app.
  - change ((w_now s, AMark k) :: (w_now s, ACommand k) :: w_log s) with ([(w_now s, AMark k); (w_now s, ACommand k)] ++ w_log s). now rewrite commands_app.
Qed.

(** *** Publishing *)
Definition same_but_box (m m' : member) : Prop := m_w m' = m_w m /\ m_up m' = m_up m /\ m_since m' = m_since m.
Lemma publish_pub : forall kind s k, fl_pub (publish kind s k) = fl_pub s ++ [k].
Proof. intros kind s k. unfold publish. destruct kind; [reflexivity|]. destruct (fl_mem s); reflexivity. Qed.
Lemma publish_n_pub : forall kind n s k, fl_pub (publish_n kind s n k) = fl_pub s ++ repeat k n.
Proof.
  intros kind n. induction n as [|n IH]; intros s k; [now rewrite app_nil_r|]. cbn [publish_n repeat]. now rewrite IH, publish_pub, <- app_assoc.
Qed.
Lemma publish_ws : forall kind s k, map m_w (fl_mem (publish kind s k)) = map m_w (fl_mem s).
Proof. intros kind s k. unfold publish. destruct kind; [reflexivity|]. destruct (fl_mem s) as [|m ms]; [reflexivity|]. cbn. f_equal. rewrite map_map. reflexivity. Qed.
Lemma publish_n_ws : forall kind n s k, map m_w (fl_mem (publish_n kind s n k)) = map m_w (fl_mem s).
Proof. intros kind n. induction n as [|n IH]; intros s k; [reflexivity|]. cbn [publish_n]. now rewrite IH, publish_ws. Qed.
Lemma publish_since : forall kind s k, map m_since (fl_mem (publish kind s k)) = map m_since (fl_mem s).
Proof. intros kind s k. unfold publish. destruct kind; [reflexivity|]. destruct (fl_mem s) as [|m ms]; [reflexivity|]. cbn. f_equal. rewrite map_map. reflexivity. Qed.

Lemma map_upd : forall (A B : Type) (f : A -> B) i x l, map f (upd i x l) = upd i (f x) (map f l).
Proof. intros A B f i x l. revert i. induction l as [|y l IH]; intros [|i]; cbn; try reflexivity. now rewrite IH. Qed.
Lemma upd_same : forall (A : Type) i (x : A) l, nth_error l i = Some x -> upd i x l = l.
Proof. intros A i x l. revert i. induction l as [|y l IH]; intros [|i] H; cbn in *; try discriminate; [congruence|]. now rewrite IH. Qed.

(** What a step does to the workers. *)
Lemma step_ws : forall kind s e s', f_step kind s e = Some s' ->
  map m_w (fl_mem s') = map m_w (fl_mem s) \/
  (exists ident, e = FStart ident /\ map m_w (fl_mem s') = map m_w (fl_mem s) ++ [w_init ident]) \/
  (exists w m we ws, nth_error (fl_mem s) w = Some m /\ w_step (m_w m) we = Some ws /\ map m_w (fl_mem s') = upd w ws (map m_w (fl_mem s))).
Proof.
  intros kind s e s' H. destruct e as [ident|w we|w|k|w].
  - right; left. exists ident. split; [reflexivity|]. cbn in H. destruct kind; injection H as <-; cbn; rewrite map_app; reflexivity.
  - right; right. assert (N : forall k, we <> WCommand k) by (intros k ->; discriminate).
    assert (H' : match nth_error (fl_mem s) w with Some m => if m_up m then match w_step (m_w m) we with
       | Some ws => Some (publish_n kind (mkFl (upd w (set_w m ws) (fl_mem s)) (fl_queue s) (fl_pub s)) (aborts (new_acts (m_w m) ws)) abort_all) | None => None end else None | None => None end = Some s')
      by (destruct we; try exact H; exfalso; eapply N; reflexivity).
    clear H. destruct (nth_error (fl_mem s) w) as [m|] eqn:W; [|discriminate]. destruct (m_up m); [|discriminate]. destruct (w_step (m_w m) we) as [ws|] eqn:S; [|discriminate].
    injection H' as <-. exists w, m, we, ws. split; [exact W|]. split; [exact S|]. rewrite publish_n_ws. cbn [fl_mem]. now rewrite map_upd.
  - right; right. cbn [f_step] in H. destruct (nth_error (fl_mem s) w) as [m|] eqn:W; [|discriminate]. destruct (m_up m); [|discriminate].
    destruct kind; [destruct (fl_queue s) as [|k q]; [discriminate|] | destruct (m_box m) as [|k b]; [discriminate|]];
      destruct (w_step (m_w m) (WCommand k)) as [ws|] eqn:S; cbn [option_map] in H; try discriminate; injection H as <-; exists w, m, (WCommand k), ws; cbn [fl_mem]; rewrite map_upd; auto.
  - left. cbn in H. injection H as <-. apply publish_ws.
  - left. cbn [f_step] in H. destruct (nth_error (fl_mem s) w) as [m|] eqn:W; [|discriminate]. injection H as <-. cbn [fl_mem]. rewrite map_upd. cbn. apply upd_same. now rewrite nth_error_map, W.
Qed.

Definition all_reach (s : fleet) : Prop := forall ws, In ws (map m_w (fl_mem s)) -> exists ident tr, reaches ident tr ws.
Lemma all_reach_step : forall kind s e s', all_reach s -> f_step kind s e = Some s' -> all_reach s'.
Proof.
  intros kind s e s' A H ws I. destruct (step_ws _ _ _ _ H) as [E|[(ident & _ & E)|(w & m & we & ws' & W & S & E)]]; rewrite E in I; auto.
  - apply in_app_or in I. destruct I as [I|[<-|[]]]; auto. exists ident, []. reflexivity.
  - apply In_nth_error in I. destruct I as (j & J). destruct (Nat.eq_dec w j) as [<-|D].
    + rewrite upd_nth_same in J by (rewrite map_length; apply nth_error_Some; congruence). injection J as <-.
      destruct (A (m_w m)) as (ident & tr & R); [apply in_map; eapply nth_error_In; eauto|]. exists ident, (tr ++ [we]). eapply reach_step; eauto.
    + rewrite upd_nth_other in J by auto. apply A. eapply nth_error_In; eauto.
Qed.
Lemma all_reach_run : forall kind tr s, f_run kind tr = Some s -> all_reach s.
Proof. intros kind tr s H. exact (run_from_inv _ _ (f_step kind) all_reach (all_reach_step kind) tr fl_init s (fun _ I => match I with end) H). Qed.

(** *** In memory: every subscriber sees what was published from its start on, in order *)
Definition cinv (s : fleet) : Prop :=
  (forall m, In m (fl_mem s) -> received m ++ m_box m = skipn (m_since m) (fl_pub s) /\ m_since m <= length (fl_pub s)) /\
  (fl_mem s = [] -> fl_queue s = fl_pub s) /\ (fl_mem s <> [] -> fl_queue s = []).
Lemma skipn_more : forall (A : Type) n (l : list A) x, n <= length l -> skipn n (l ++ [x]) = skipn n l ++ [x].
Proof. intros A n l x H. rewrite skipn_app. replace (n - length l) with 0 by lia. reflexivity. Qed.
Lemma cinv_publish : forall s k, cinv s -> cinv (publish Copies s k).
Proof.
  intros s k (A & B & C). unfold publish. destruct (fl_mem s) as [|m0 ms] eqn:M.
  - split; [intros m []|]. cbn. split; [|congruence]. intros _. now rewrite B.
  - split; [|split; [discriminate | intros _; apply C; discriminate]]. intros m I. cbn [fl_mem] in I. apply in_map_iff in I. destruct I as (m1 & <- & I). destruct (A _ I) as [E L].
    cbn [add_box m_box m_since received m_w fl_pub]. unfold received in *. cbn [m_w add_box]. rewrite app_assoc, E, skipn_more by exact L. rewrite app_length. cbn. split; [reflexivity | lia].
Qed.
Lemma cinv_publish_n : forall n s k, cinv s -> cinv (publish_n Copies s n k).
Proof. intros n. induction n as [|n IH]; intros s k H; [exact H|]. cbn [publish_n]. apply IH, cinv_publish, H. Qed.
Lemma cinv_upd : forall s w m m', cinv s -> nth_error (fl_mem s) w = Some m -> received m' ++ m_box m' = received m ++ m_box m -> m_since m' = m_since m ->
  cinv (mkFl (upd w m' (fl_mem s)) (fl_queue s) (fl_pub s)).
Proof.
  intros s w m m' (A & B & C) W E S. assert (NE : fl_mem s <> []) by (intros Z; rewrite Z in W; destruct w; discriminate).
  split; [|split].
  - intros x I. cbn [fl_mem fl_pub] in *. apply In_nth_error in I. destruct I as (j & J). destruct (Nat.eq_dec w j) as [<-|D].
    + rewrite upd_nth_same in J by (apply nth_error_Some; congruence). injection J as <-. rewrite E, S. apply A. eapply nth_error_In; eauto.
    + rewrite upd_nth_other in J by auto. apply A. eapply nth_error_In; eauto.
  - cbn. intros Z. exfalso. apply NE. apply length_zero_iff_nil. apply (f_equal (@length _)) in Z. rewrite upd_length in Z. exact Z.
  - cbn. intros _. exact (C NE).
Qed.
Lemma cinv_step : forall s e s', cinv s -> f_step Copies s e = Some s' -> cinv s'.
Proof.
  intros s e s' I H. destruct e as [ident|w we|w|k|w].
  - cbn in H. injection H as <-. destruct I as (A & B & C). split; [|split].
    + intros m J. cbn [fl_mem] in J. apply in_app_or in J. destruct J as [J|[<-|[]]]; [exact (A _ J)|]. cbn [m_box m_since received m_w fl_pub]. unfold received. cbn [m_w w_init w_log]. change (commands []) with (@nil nat). cbn [app].
      destruct (fl_mem s) as [|m0 ms].
      * rewrite (B eq_refl), Nat.sub_diag. split; [reflexivity | lia].
      * rewrite C by discriminate. cbn [length]. rewrite Nat.sub_0_r, skipn_all. split; [reflexivity | lia].
    + cbn. intros Z. destruct (fl_mem s); discriminate.
    + reflexivity.
  - assert (N : forall k, we <> WCommand k) by (intros k ->; discriminate).
    assert (H' : match nth_error (fl_mem s) w with Some m => if m_up m then match w_step (m_w m) we with
       | Some ws => Some (publish_n Copies (mkFl (upd w (set_w m ws) (fl_mem s)) (fl_queue s) (fl_pub s)) (aborts (new_acts (m_w m) ws)) abort_all) | None => None end else None | None => None end = Some s')
      by (destruct we; try exact H; exfalso; eapply N; reflexivity).
    clear H. destruct (nth_error (fl_mem s) w) as [m|] eqn:W; [|discriminate]. destruct (m_up m); [|discriminate]. destruct (w_step (m_w m) we) as [ws|] eqn:S; [|discriminate].
    injection H' as <-. apply cinv_publish_n. eapply cinv_upd; [exact I | exact W | | reflexivity]. unfold received. cbn [set_w m_w m_box]. now rewrite (step_commands _ _ _ S N).
  - cbn [f_step] in H. destruct (nth_error (fl_mem s) w) as [m|] eqn:W; [|discriminate]. destruct (m_up m); [|discriminate]. destruct (m_box m) as [|k b] eqn:BX; [discriminate|].
    destruct (w_step (m_w m) (WCommand k)) as [ws|] eqn:S; cbn [option_map] in H; [|discriminate]. injection H as <-. eapply cinv_upd; [exact I | exact W | | reflexivity].
    unfold received. cbn [m_w m_box]. rewrite (command_step _ _ _ S), BX, <- app_assoc. reflexivity.
  - cbn in H. injection H as <-. now apply cinv_publish.
  - cbn [f_step] in H. destruct (nth_error (fl_mem s) w) as [m|] eqn:W; [|discriminate]. injection H as <-. eapply cinv_upd; [exact I | exact W | reflexivity | reflexivity].
Qed.
Lemma cinv_init : cinv fl_init.
Proof. split; [intros m []|]. split; [reflexivity | intros _; reflexivity]. Qed.
Lemma cinv_run : forall tr s, f_run Copies tr = Some s -> cinv s.
Proof. intros tr s H. exact (run_from_inv _ _ (f_step Copies) cinv cinv_step tr fl_init s cinv_init H). Qed.

(** *** AMQP: every command goes to one worker *)
Definition all_received (s : fleet) : list nat := flat_map commands (map w_log (map m_w (fl_mem s))).
Definition hinv (s : fleet) : Prop := Permutation (fl_pub s) (fl_queue s ++ all_received s).
Lemma hinv_publish : forall s k, hinv s -> hinv (publish Shared s k).
Proof.
  intros s k H. unfold hinv, all_received, publish in *. cbn [fl_pub fl_queue fl_mem]. rewrite <- app_assoc. eapply Permutation_trans; [|apply Permutation_middle].
  eapply Permutation_trans; [apply Permutation_app_comm|]. cbn. constructor. exact H.
Qed.
Lemma hinv_publish_n : forall n s k, hinv s -> hinv (publish_n Shared s n k).
Proof. intros n. induction n as [|n IH]; intros s k H; [exact H|]. cbn [publish_n]. apply IH, hinv_publish, H. Qed.
Lemma flat_upd : forall (A : Type) (f : A -> list nat) w x y l, nth_error l w = Some x -> Permutation (f x ++ flat_map f (upd w y l)) (f y ++ flat_map f l).
Proof.
  intros A f w x y l. revert w. induction l as [|z l IH]; intros [|w] H; cbn in *; try discriminate.
  - injection H as ->. rewrite !app_assoc. apply Permutation_app_tail, Permutation_app_comm.
  - rewrite !app_assoc. eapply Permutation_trans; [apply Permutation_app_tail, Permutation_app_comm|]. rewrite <- app_assoc.
    eapply Permutation_trans; [apply Permutation_app_head, IH; exact H|]. rewrite !app_assoc. apply Permutation_app_tail, Permutation_app_comm.
Qed.
Lemma upd_received : forall s w m m' q p k, nth_error (fl_mem s) w = Some m -> received m' = received m ++ k ->
  Permutation (k ++ all_received s) (all_received (mkFl (upd w m' (fl_mem s)) q p)).
Proof.
  intros s w m m' q p k W E. unfold all_received. cbn [fl_mem]. rewrite !map_map. set (f := fun x => w_log (m_w x)).
  assert (G : forall l, flat_map commands (map f l) = flat_map received l) by (intros l; induction l as [|x l IH]; [reflexivity|]; cbn; now rewrite IH).
  rewrite !G. pose proof (flat_upd _ received w m m' (fl_mem s) W) as P. rewrite E in P. apply Permutation_sym. eapply (Permutation_app_inv_l (received m)).
  rewrite app_assoc. exact P.
Qed.
Lemma hinv_step : forall s e s', hinv s -> f_step Shared s e = Some s' -> hinv s'.
Proof.
  intros s e s' I H. destruct e as [ident|w we|w|k|w].
  - cbn in H. injection H as <-. unfold hinv, all_received in *. cbn [fl_pub fl_queue fl_mem]. rewrite !map_app, flat_map_app. cbn. now rewrite app_nil_r.
  - assert (N : forall k, we <> WCommand k) by (intros k ->; discriminate).
    assert (H' : match nth_error (fl_mem s) w with Some m => if m_up m then match w_step (m_w m) we with
       | Some ws => Some (publish_n Shared (mkFl (upd w (set_w m ws) (fl_mem s)) (fl_queue s) (fl_pub s)) (aborts (new_acts (m_w m) ws)) abort_all) | None => None end else None | None => None end = Some s')
      by (destruct we; try exact H; exfalso; eapply N; reflexivity).
    clear H. destruct (nth_error (fl_mem s) w) as [m|] eqn:W; [|discriminate]. destruct (m_up m); [|discriminate]. destruct (w_step (m_w m) we) as [ws|] eqn:S; [|discriminate].
    injection H' as <-. apply hinv_publish_n. unfold hinv in *. cbn [fl_pub fl_queue].
    eapply Permutation_trans; [exact I|]. apply Permutation_app_head. apply (upd_received s w m _ (fl_queue s) (fl_pub s) []); [exact W|]. unfold received. cbn [set_w m_w]. rewrite app_nil_r. exact (step_commands _ _ _ S N).
  - cbn [f_step] in H. destruct (nth_error (fl_mem s) w) as [m|] eqn:W; [|discriminate]. destruct (m_up m); [|discriminate]. unfold hinv in *. destruct (fl_queue s) as [|k q] eqn:Q; [discriminate|].
    destruct (w_step (m_w m) (WCommand k)) as [ws|] eqn:S; cbn [option_map] in H; [|discriminate]. injection H as <-. cbn [fl_pub fl_queue].
    eapply Permutation_trans; [exact I|]. cbn. eapply Permutation_trans; [apply Permutation_middle|]. apply Permutation_app_head.
    apply (upd_received s w m _ q (fl_pub s) [k]); [exact W|]. unfold received. cbn [set_w m_w]. exact (command_step _ _ _ S).
  - cbn in H. injection H as <-. now apply (hinv_publish s k).
  - cbn [f_step] in H. destruct (nth_error (fl_mem s) w) as [m|] eqn:W; [|discriminate]. injection H as <-. unfold hinv in *. cbn [fl_pub fl_queue].
    eapply Permutation_trans; [exact I|]. apply Permutation_app_head. apply (upd_received s w m _ (fl_queue s) (fl_pub s) []); [exact W|]. unfold received. cbn [m_w]. now rewrite app_nil_r.
Qed.
Lemma hinv_run : forall tr s, f_run Shared tr = Some s -> hinv s.
Proof. intros tr s H. exact (run_from_inv _ _ (f_step Shared) hinv hinv_step tr fl_init s (Permutation_refl _) H). Qed.

(** *** Where abort-all comes from *)
Definition total (f : wstate -> nat) (s : fleet) : nat := wsum f (map m_w (fl_mem s)).
Lemma aborts_app : forall a b, aborts (a ++ b) = aborts a + aborts b.
Proof. intros a b. unfold aborts. apply cnt_app. Qed.
Lemma cnt_repeat : forall k n, cnt (Nat.eqb k) (repeat k n) = n.
Proof. intros k n. induction n as [|n IH]; [reflexivity|]. cbn [repeat]. rewrite cnt_cons, Nat.eqb_refl, IH. reflexivity. Qed.
Definition ann (ws : wstate) : nat := aborts (w_log ws).
Lemma source : forall kind tr s s', run_from (f_step kind) s tr = Some s' ->
  cnt (Nat.eqb abort_all) (fl_pub s') + total ann s = cnt (Nat.eqb abort_all) (fl_pub s) + total ann s' + leader_sends abort_all tr.
Proof.
  intros kind tr. induction tr as [|e tr IH]; intros s s' H.
  { cbn in H. injection H as <-. change (leader_sends abort_all []) with 0. lia. }
  cbn [run_from] in H. destruct (f_step kind s e) as [s1|] eqn:S; [|discriminate]. specialize (IH _ _ H). unfold leader_sends in *. rewrite cnt_cons.
  assert (K : cnt (Nat.eqb abort_all) (fl_pub s1) + total ann s = cnt (Nat.eqb abort_all) (fl_pub s) + total ann s1 + b2n (match e with FLeader j => Nat.eqb j abort_all | _ => false end)); [|lia].
  clear IH H. destruct e as [ident|w we|w|k|w].
  - cbn in S. unfold total. destruct kind; injection S as <-; cbn [fl_pub fl_mem]; rewrite map_app, wsum_app; cbn [map m_w b2n]; change (wsum ann [w_init ident]) with 0; lia.
  - assert (N : forall k, we <> WCommand k) by (intros k ->; discriminate).
    assert (H' : match nth_error (fl_mem s) w with Some m => if m_up m then match w_step (m_w m) we with
       | Some ws => Some (publish_n kind (mkFl (upd w (set_w m ws) (fl_mem s)) (fl_queue s) (fl_pub s)) (aborts (new_acts (m_w m) ws)) abort_all) | None => None end else None | None => None end = Some s1)
      by (destruct we; try exact S; exfalso; eapply N; reflexivity).
    clear S. destruct (nth_error (fl_mem s) w) as [m|] eqn:W; [|discriminate]. destruct (m_up m); [|discriminate]. destruct (w_step (m_w m) we) as [ws|] eqn:S; [|discriminate].
    injection H' as <-. unfold total. rewrite publish_n_ws, publish_n_pub. cbn [fl_mem fl_pub b2n]. rewrite map_upd, cnt_app, cnt_repeat. cbn [set_w m_w].
    assert (W' : nth_error (map m_w (fl_mem s)) w = Some (m_w m)) by now rewrite nth_error_map, W.
    pose proof (wsum_upd ann w (m_w m) ws _ W') as U. destruct (step_acts _ _ _ S) as (new & L & _). rewrite (new_acts_eq _ _ _ L).
    assert (AN : ann ws = aborts new + ann (m_w m)) by (unfold ann; now rewrite L, aborts_app). lia.
  - cbn [f_step] in S. destruct (nth_error (fl_mem s) w) as [m|] eqn:W; [|discriminate]. destruct (m_up m); [|discriminate].
    assert (G : forall k ws, w_step (m_w m) (WCommand k) = Some ws -> ann ws = ann (m_w m)).
    { intros k ws Z. destruct (step_acts _ _ _ Z) as (new & L & X). unfold ann. rewrite L, aborts_app. cut (aborts new = 0); [lia|]. apply cnt_zero. intros [tm a] I. destruct (X _ _ I) as [_ EX].
      destruct a; try reflexivity. cbn in EX. destruct EX as (_ & t & fs & msg & a & er & M). unfold w_step in Z. rewrite M in Z.
      exfalso. clear - Z M I L. destruct (w_lis (m_w m)); try discriminate. unfold mark in Z. cbn [log w_jobs] in Z. destruct (marked k (w_jobs (m_w m))); injection Z as <-; cbn in L.
      - change ((w_now (m_w m), ACommand k) :: w_log (m_w m)) with ([(w_now (m_w m), ACommand k)] ++ w_log (m_w m)) in L. apply app_inv_tail in L. subst new. destruct I as [I|[]]. discriminate.
      - change ((w_now (m_w m), AMark k) :: (w_now (m_w m), ACommand k) :: w_log (m_w m)) with ([(w_now (m_w m), AMark k); (w_now (m_w m), ACommand k)] ++ w_log (m_w m)) in L. apply app_inv_tail in L. subst new. destruct I as [I|[I|[]]]; discriminate. }
    assert (W' : nth_error (map m_w (fl_mem s)) w = Some (m_w m)) by now rewrite nth_error_map, W.
    destruct kind; [destruct (fl_queue s) as [|k q]; [discriminate|] | destruct (m_box m) as [|k b]; [discriminate|]];
      destruct (w_step (m_w m) (WCommand k)) as [ws|] eqn:Z; cbn [option_map] in S; try discriminate; injection S as <-; unfold total; cbn [fl_mem fl_pub b2n]; rewrite map_upd; cbn [set_w m_w];
      pose proof (wsum_upd ann w (m_w m) ws _ W') as U; rewrite (G _ _ Z) in U; lia.
  - cbn in S. injection S as <-. unfold total. rewrite publish_ws, publish_pub, cnt_app, cnt_cons. change (cnt (Nat.eqb abort_all) []) with 0. rewrite (Nat.eqb_sym k). lia.
  - cbn [f_step] in S. destruct (nth_error (fl_mem s) w) as [m|] eqn:W; [|discriminate]. injection S as <-. unfold total. cbn [fl_mem fl_pub b2n]. rewrite map_upd. cbn [m_w]. rewrite upd_same by now rewrite nth_error_map, W. lia.
Qed.

(** *** What abort-all does to a worker *)
Lemma send_kept : forall s e s' k, w_step s e = Some s' -> w_lis s = LisSend k -> e <> WSend -> w_lis s' = LisSend k.
Proof.
  intros s e s' k H LK NS. destruct e as [d| |k1| | |t| | | |sf r|sl|sl ok|ok|ok| |]; unfold w_step in H.
  3: { exfalso. rewrite LK in H. destruct (w_main s); discriminate. }
  3: { contradiction. }
  3: { exfalso. rewrite LK in H. destruct (w_main s); discriminate. }
  7: { rewrite <- LK. destruct (w_main s) as [|t1|t1|t1 a|t1 sn1 st1|t1 y a d|t1 fs msg a d|t1 a|t1 u|e] eqn:M; try discriminate. injection H as <-. unfold poll_select.
    assert (SG : forall u t sn st, w_lis (poll_signal u t sn st) = w_lis u) by (intros u t sn st; unfold poll_signal; destruct (_ && _); [reflexivity|]; destruct (w_lis u) eqn:Q; cbn; auto).
    destruct sf.
    - destruct (w_main (poll_signal s t1 sn1 st1)) as [|t2|t2|t2 a|t2 sn2 st2|t2 y a d|t2 fs msg a d|t2 a|t2 u|e] eqn:M1; rewrite ?SG; try reflexivity.
      destruct (exec_main _ t2 sn2 st2 r M1) as (X1 & X2 & X3 & X4 & _). now rewrite X4, SG.
    - destruct (exec_main s t1 sn1 st1 r M) as (X1 & X2 & X3 & X4 & _). destruct (w_main (poll_exec s t1 sn1 st1 r)) as [|t2|t2|t2 a|t2 sn2 st2|t2 y a d|t2 fs msg a d|t2 a|t2 u|e] eqn:M1; rewrite ?SG; auto. }
  all: clear NS; rewrite <- LK; clear LK; brk H; try discriminate; try (injection H as <-; cbn; reflexivity).
  all: unfold io_effect, io_return, option_map in *; brk H; try discriminate; injection H as <-; cbn; reflexivity.
Qed.
Definition innocent (l : wlog) : Prop := forall tm i t, In (tm, ATake i t) l -> t_key t <> abort_all.
Definition posted (s : wstate) : Prop := (exists k, w_lis s = LisSend k) \/ 0 < w_ver s.
Definition told (s : wstate) : Prop :=
  innocent (w_log s) -> (forall tm, In (tm, AMark abort_all) (w_log s) -> posted s) /\ (In abort_all (commands (w_log s)) -> exists tm, In (tm, AMark abort_all) (w_log s)).
Lemma posted_step : forall s e s', w_step s e = Some s' -> posted s -> posted s'.
Proof.
  intros s e s' H P. destruct (ver_step s e s' H) as [(V1 & _ & V3)|(_ & V1 & _)]; [|right; lia].
  destruct P as [(k & LK)|V]; [|right; lia]. left. exists k. eapply send_kept; eauto.
Qed.
Lemma told_step : forall s e s', winv s /\ tinv s /\ told s -> w_step s e = Some s' -> winv s' /\ tinv s' /\ told s'.
Proof.
  intros s e s' (W & T & D) H. pose proof (winv_step s e s' W H) as W'. pose proof (tinv_step s e s' T H) as T'. split; [exact W'|]. split; [exact T'|].
  destruct (step_acts s e s' H) as (new & L & X). intros IN.
  assert (IN0 : innocent (w_log s)) by (intros tm i t I; eapply IN; rewrite L; apply in_or_app; right; exact I).
  destruct (D IN0) as [D1 D2]. split.
  - intros tm I. rewrite L in I. apply in_app_or in I. destruct I as [I|I]; [|eapply posted_step; eauto].
    destruct (X _ _ I) as [_ EX]. cbn [explains] in EX. destruct EX as [MK [EX|EX]].
    + subst e. left. exists abort_all. unfold w_step in H. destruct (w_main s); try discriminate; destruct (w_lis s); try discriminate; unfold mark in H; cbn [log w_jobs] in H; rewrite MK in H; injection H as <-; reflexivity.
    + exfalso. destruct EX as (t & sn & st & sf & fs & msg & M & _ & K). destruct (take_cur s t W) as (tt & TK); [rewrite M; reflexivity|]. exact (IN0 _ _ _ TK (eq_sym K)).
  - intros C. destruct e as [d| |k| | |t| | | |sf r|sl|sl ok|ok|ok| |];
      try (rewrite (step_commands _ _ _ H) in C by discriminate; destruct (D2 C) as (tm & I); exists tm; rewrite L; apply in_or_app; right; exact I).
    rewrite (command_step _ _ _ H) in C. apply in_app_or in C. destruct C as [C|[->|[]]].
    + destruct (D2 C) as (tm & I); exists tm; rewrite L; apply in_or_app; right; exact I.
    + destruct (marked abort_all (w_jobs s)) eqn:MK.
      * apply existsb_exists in MK. destruct MK as ([k tm] & J & Q). cbn in Q. apply Nat.eqb_eq in Q. subst k. destruct (ti_from s T _ _ J) as [I _]. exists tm. rewrite L. apply in_or_app. right. exact I.
      * exists (w_now s). unfold w_step in H. destruct (w_main s); try discriminate; destruct (w_lis s); try discriminate; unfold mark in H; cbn [log w_jobs] in H; rewrite MK in H; injection H as <-; left; reflexivity.
Qed.
Lemma told_run : forall ident tr s, reaches ident tr s -> told s.
Proof.
  intros ident tr s R. refine (proj2 (proj2 (run_from_inv _ _ w_step (fun s => winv s /\ tinv s /\ told s) told_step tr (w_init ident) s _ R))).
  split; [apply winv_init|]. split; [apply tinv_init|]. intros _. split; cbn; [intros tm []|intros []].
Qed.
Lemma watch_abort : forall ident tr s, reaches ident tr s -> innocent (w_log s) -> (forall k, In k (commands (w_log s)) -> k = abort_all) -> commands (w_log s) <> [] ->
  (forall k, w_lis s <> LisSend k) -> 0 < w_ver s /\ w_val s = abort_all.
Proof.
  intros ident tr s R IN ALL NE LI. destruct (told_run _ _ _ R IN) as [D1 D2]. destruct (commands (w_log s)) as [|k cs] eqn:C; [contradiction|].
  assert (k = abort_all) as -> by (apply ALL; now left). destruct (D2 (or_introl eq_refl)) as (tm & I). destruct (D1 tm I) as [(k & Q)|V]; [exfalso; exact (LI _ Q)|].
  split; [exact V|]. apply ALL. rewrite <- C. apply in_commands. exact (proj1 (einv_run _ _ _ R) V).
Qed.

(** *** Stopped workers *)
Lemma stop_step : forall s e s' x, w_step s e = Some s' -> w_main s = WpStop x -> w_main s' = WpStop x /\ w_log s' = w_log s.
Proof.
  intros s e s' x H M. destruct e as [d| |k| | |t| | | |sf r|sl|sl ok|ok|ok| |]; unfold w_step in H; rewrite M in H; try discriminate; try (destruct sl; discriminate).
  injection H as <-. cbn. auto.
Qed.
Definition stopped (s : fleet) : Prop := forall ws, In ws (map m_w (fl_mem s)) -> exists x, w_main ws = WpStop x.
Lemma stopped_step : forall kind s e s', stopped s -> (forall ident, e <> FStart ident) -> f_step kind s e = Some s' ->
  stopped s' /\ map w_log (map m_w (fl_mem s')) = map w_log (map m_w (fl_mem s)).
Proof.
  intros kind s e s' ST NS H. destruct (step_ws _ _ _ _ H) as [E|[(ident & -> & _)|(w & m & we & ws & W & S & E)]].
  - unfold stopped. rewrite E. auto.
  - exfalso. exact (NS _ eq_refl).
  - assert (W' : nth_error (map m_w (fl_mem s)) w = Some (m_w m)) by now rewrite nth_error_map, W.
    destruct (ST (m_w m)) as (x & M); [eapply nth_error_In; eauto|]. destruct (stop_step _ _ _ _ S M) as [M' L]. unfold stopped. rewrite E. split.
    + intros ws' I. apply In_nth_error in I. destruct I as (j & J). destruct (Nat.eq_dec w j) as [<-|D].
      * rewrite upd_nth_same in J by (apply nth_error_Some; congruence). injection J as <-. eauto.
      * rewrite upd_nth_other in J by auto. apply ST. eapply nth_error_In; eauto.
    + rewrite map_upd. apply upd_same. rewrite nth_error_map, W'. cbn. now rewrite L.
Qed.
Definition no_start (e : f_event) : bool := match e with FStart _ => false | _ => true end.
Lemma stopped_run : forall kind tr s s', stopped s -> forallb no_start tr = true -> run_from (f_step kind) s tr = Some s' ->
  map w_log (map m_w (fl_mem s')) = map w_log (map m_w (fl_mem s)).
Proof.
  intros kind tr. induction tr as [|e tr IH]; intros s s' ST F H; cbn in H; [injection H as <-; reflexivity|].
  cbn in F. apply andb_prop in F. destruct F as [F1 F2]. destruct (f_step kind s e) as [s1|] eqn:S; [|discriminate].
  destruct (stopped_step kind s e s1 ST) as [ST1 L]; [intros ident ->; discriminate | exact S|]. rewrite <- L. eauto.
Qed.

(** *** Members and publications stay *)
Lemma publish_n_since : forall kind n s k, map m_since (fl_mem (publish_n kind s n k)) = map m_since (fl_mem s).
Proof. intros kind n. induction n as [|n IH]; intros s k; [reflexivity|]. cbn [publish_n]. now rewrite IH, publish_since. Qed.
Lemma grow_step : forall kind s e s', f_step kind s e = Some s' ->
  (exists a, map m_since (fl_mem s') = map m_since (fl_mem s) ++ a) /\ exists b, fl_pub s' = fl_pub s ++ b.
Proof.
  intros kind s e s' H. destruct e as [ident|w we|w|k|w].
  - cbn in H. destruct kind; injection H as <-; cbn [fl_mem fl_pub]; rewrite map_app; split; eauto; exists []; now rewrite app_nil_r.
  - assert (N : forall k, we <> WCommand k) by (intros k ->; discriminate).
    assert (H' : match nth_error (fl_mem s) w with Some m => if m_up m then match w_step (m_w m) we with
       | Some ws => Some (publish_n kind (mkFl (upd w (set_w m ws) (fl_mem s)) (fl_queue s) (fl_pub s)) (aborts (new_acts (m_w m) ws)) abort_all) | None => None end else None | None => None end = Some s')
      by (destruct we; try exact H; exfalso; eapply N; reflexivity).
    clear H. destruct (nth_error (fl_mem s) w) as [m|] eqn:W; [|discriminate]. destruct (m_up m); [|discriminate]. destruct (w_step (m_w m) we) as [ws|] eqn:S; [|discriminate].
    injection H' as <-. rewrite publish_n_since, publish_n_pub. cbn [fl_mem fl_pub]. split; [|eauto]. exists []. rewrite app_nil_r, map_upd. apply upd_same. now rewrite nth_error_map, W.
  - cbn [f_step] in H. destruct (nth_error (fl_mem s) w) as [m|] eqn:W; [|discriminate]. destruct (m_up m); [|discriminate].
    destruct kind; [destruct (fl_queue s) as [|k q]; [discriminate|] | destruct (m_box m) as [|k b]; [discriminate|]];
      destruct (w_step (m_w m) (WCommand k)) as [ws|] eqn:S; cbn [option_map] in H; try discriminate; injection H as <-; cbn [fl_mem fl_pub];
      (split; exists []; rewrite app_nil_r; [rewrite map_upd; apply upd_same; now rewrite nth_error_map, W | reflexivity]).
  - cbn in H. injection H as <-. rewrite publish_since, publish_pub. split; [exists []; now rewrite app_nil_r | eauto].
  - cbn [f_step] in H. destruct (nth_error (fl_mem s) w) as [m|] eqn:W; [|discriminate]. injection H as <-. cbn [fl_mem fl_pub]. split; exists []; rewrite app_nil_r; [|reflexivity].
    rewrite map_upd. apply upd_same. now rewrite nth_error_map, W.
Qed.
Lemma grow_run : forall kind tr s s', run_from (f_step kind) s tr = Some s' ->
  (exists a, map m_since (fl_mem s') = map m_since (fl_mem s) ++ a) /\ exists b, fl_pub s' = fl_pub s ++ b.
Proof.
  intros kind tr. induction tr as [|e tr IH]; intros s s' H; cbn in H.
  - injection H as <-. split; exists []; now rewrite app_nil_r.
  - destruct (f_step kind s e) as [s1|] eqn:S; [|discriminate]. destruct (grow_step _ _ _ _ S) as [(a & A) (b & B)]. destruct (IH _ _ H) as [(a' & A') (b' & B')].
    split; [exists (a ++ a'); now rewrite A', A, app_assoc | exists (b ++ b'); now rewrite B', B, app_assoc].
Qed.
Lemma signalled_received : forall ident tr m, reaches ident tr (m_w m) -> signalled m = true -> In abort_all (received m).
Proof.
  intros ident tr m R S. apply existsb_exists in S. destruct S as ([tm a] & I & Q). cbn in Q. destruct a; try discriminate.
  destruct (C37_cause _ _ _ _ _ R I) as (tm' & L). destruct L as (l1 & l2 & E & J). apply in_commands. exists tm'. rewrite E. apply in_or_app. right. right. exact J.
Qed.
Lemma perm_cnt : forall (A : Type) (f : A -> bool) l l', Permutation l l' -> cnt f l = cnt f l'.
Proof. intros A f l l' P. induction P; rewrite ?cnt_cons; try lia; reflexivity. Qed.
