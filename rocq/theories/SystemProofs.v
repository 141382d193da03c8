(** Invariants of the whole system. *)
From Coq Require Import List Arith NArith Lia Bool.
From Verif Require Import Base BaseFacts RetryModel WorkerModel WorkerSpec WorkerProofs WorkerFacts WorkerInv WorkerProps SystemModel.
Import ListNotations.
Open Scope nat_scope.

(** ** One worker *)
Definition pub_for (n : nat) (full : wlog) (p : N * wact) : bool :=
  match snd p with AOk i _ _ | AErr i _ _ => match body_of i full with Some m => Nat.eqb m n | None => false end | _ => false end.
Definition take_of (n : nat) (p : N * wact) : bool := match snd p with ATake _ t => Nat.eqb (t_body t) n | _ => false end.
Definition pubs (n : nat) (l : wlog) : nat := cnt (pub_for n l) l.
Definition takes (n : nat) (l : wlog) : nat := cnt (take_of n) l.

Lemma body_in : forall i l n, body_of i l = Some n -> exists tm t, In (tm, ATake i t) l /\ t_body t = n.
Proof.
  intros i l n. induction l as [|[tm a] l IH]; cbn; [discriminate|]. intros H.
  destruct a; try (destruct (IH H) as (u & t0 & X & E); exists u, t0; split; [now right | exact E]).
  destruct (Nat.eqb_spec i0 i) as [->|NE]; [injection H as <-; exists tm, t; split; [now left | reflexivity]|]. destruct (IH H) as (u & t0 & X & E). exists u, t0. split; [now right | exact E].
Qed.
Lemma in_body : forall i l tm t, In (tm, ATake i t) l -> exists n, body_of i l = Some n.
Proof.
  intros i l tm t. induction l as [|[u a] l IH]; cbn; [easy|]. intros [H|H].
  - injection H as -> ->. rewrite Nat.eqb_refl. eauto.
  - destruct (IH H) as (n & E). destruct a; eauto. destruct (Nat.eqb i0 i); eauto.
Qed.
Lemma body_app : forall i new l, (forall tm t, ~ In (tm, ATake i t) new) -> body_of i (new ++ l) = body_of i l.
Proof.
  intros i new l H. induction new as [|[tm a] new IH]; [reflexivity|]. cbn [app body_of].
  assert (E : body_of i (new ++ l) = body_of i l) by (apply IH; intros u t X; apply (H u t); now right). rewrite E.
  destruct a; try reflexivity. destruct (Nat.eqb_spec i0 i) as [->|NE]; [|reflexivity]. exfalso. apply (H tm t). now left.
Qed.
Lemma body_reach : forall ident tr s i t tm, reaches ident tr s -> In (tm, ATake i t) (w_log s) -> body_of i (w_log s) = Some (t_body t).
Proof.
  intros ident tr s i t tm R H. destruct (in_body _ _ _ _ H) as (n & E). rewrite E. f_equal. apply body_in in E. destruct E as (u & t' & X & <-).
  destruct (C35_one_execution _ _ _ R) as [_ U]. destruct (U _ _ _ _ _ H X) as [-> _]. reflexivity.
Qed.

(** At most one publication per task taken. *)
Fixpoint sum (f : nat -> nat) (k : nat) : nat := match k with 0 => 0 | S k => f k + sum f k end.
Lemma sum_le : forall f g k, (forall i, i < k -> f i <= g i) -> sum f k <= sum g k.
Proof. intros f g k; induction k as [|k IH]; intros H; cbn; [lia|]. pose proof (H k ltac:(lia)). specialize (IH (fun i L => H i ltac:(lia))). lia. Qed.
Lemma sum_ext : forall f g k, (forall i, i < k -> f i = g i) -> sum f k = sum g k.
Proof. intros f g k; induction k as [|k IH]; intros H; cbn; [lia|]. rewrite H, IH; auto. Qed.
Lemma sum_add : forall f g k, sum (fun i => f i + g i) k = sum f k + sum g k.
Proof. intros f g k; induction k as [|k IH]; cbn; lia. Qed.
Lemma sum_single : forall (v : nat) k j, j < k -> sum (fun i => if Nat.eqb j i then v else 0) k = v.
Proof.
  intros v k; induction k as [|k IH]; intros j L; [lia|]. cbn. destruct (Nat.eqb_spec j k) as [->|NE]; [|rewrite IH; lia].
  replace (sum _ k) with 0; [lia|]. symmetry. transitivity (sum (fun _ => 0) k); [|clear; induction k; cbn; auto]. apply sum_ext. intros i Li. destruct (Nat.eqb_spec k i); [lia | reflexivity].
Qed.
Lemma sum_zero : forall k, sum (fun _ => 0) k = 0.
Proof. induction k; cbn; auto. Qed.
(** Counting by groups. *)
Lemma cnt_group : forall (A : Type) (idx : A -> option nat) (h : nat -> bool) k l, (forall a i, In a l -> idx a = Some i -> i < k) ->
  cnt (fun a => match idx a with Some i => h i | None => false end) l = sum (fun i => if h i then cnt (fun a => match idx a with Some j => Nat.eqb j i | None => false end) l else 0) k.
Proof.
  intros A idx h k l; induction l as [|a l IH]; intros B.
  - unfold cnt. cbn. transitivity (sum (fun _ => 0) k); [now rewrite sum_zero|]. apply sum_ext. intros i _. now destruct (h i).
  - rewrite cnt_cons, IH by (intros; eapply B; [right; eassumption | eassumption]).
    transitivity (sum (fun i => (match idx a with Some j => if Nat.eqb j i then b2n (h j) else 0 | None => 0 end) + (if h i then cnt (fun a => match idx a with Some j => Nat.eqb j i | None => false end) l else 0)) k).
    + rewrite sum_add. f_equal. destruct (idx a) as [j|] eqn:E; [|now rewrite sum_zero]. rewrite sum_single; [reflexivity|]. eapply B; [now left | exact E].
    + apply sum_ext. intros i Li. rewrite cnt_cons. destruct (idx a) as [j|]; [|destruct (h i); reflexivity]. destruct (Nat.eqb_spec j i) as [->|NE]; destruct (h i); cbn; lia.
Qed.
Definition pub_idx (p : N * wact) : option nat := match snd p with AOk i _ _ | AErr i _ _ => Some i | _ => None end.
Definition take_idx (p : N * wact) : option nat := match snd p with ATake i _ => Some i | _ => None end.
Lemma tally_pub : forall i l, cnt (fun a => match pub_idx a with Some j => Nat.eqb j i | None => false end) l = tally COk i l + tally CErr i l.
Proof.
  intros i l. unfold tally. induction l as [|[tm a] l IH]; [reflexivity|]. rewrite !cnt_cons, IH. unfold pub_idx. cbn [snd]. destruct a; cbn [is b2n]; try lia.
Qed.
Lemma pubs_le : forall ident tr s n, reaches ident tr s -> pubs n (w_log s) <= takes n (w_log s).
Proof.
  intros ident tr s n R. pose proof (winv_run _ _ _ R) as [WI _ _]. unfold pubs, takes.
  set (h := fun i => match body_of i (w_log s) with Some m => Nat.eqb m n | None => false end).
  assert (E1 : cnt (pub_for n (w_log s)) (w_log s) = cnt (fun a => match pub_idx a with Some i => h i | None => false end) (w_log s)).
  { unfold cnt. f_equal. apply filter_ext. intros [tm a]. unfold pub_for, pub_idx, h. cbn. now destruct a. }
  assert (E2 : cnt (take_of n) (w_log s) = cnt (fun a => match take_idx a with Some i => h i | None => false end) (w_log s)).
  { unfold cnt. f_equal. apply filter_ext_in. intros [tm a] H. unfold take_of, take_idx, h. cbn. destruct a; try reflexivity. now rewrite (body_reach _ _ _ _ _ _ R H). }
  rewrite E1, E2. rewrite (cnt_group _ pub_idx h (w_taken s)), (cnt_group _ take_idx h (w_taken s)).
  - apply sum_le. intros i L. destruct (h i) eqn:HI; [|lia]. rewrite tally_pub. destruct (C35_one_answer _ _ _ i R) as [_ O].
    assert (1 <= cnt (fun a => match take_idx a with Some j => Nat.eqb j i | None => false end) (w_log s)); [|lia].
    unfold h in HI. destruct (body_of i (w_log s)) as [m|] eqn:B; [|discriminate]. apply body_in in B. destruct B as (u & t & X & _).
    apply in_split in X. destruct X as (a & b & ->). rewrite cnt_app, cnt_cons. unfold take_idx at 2. cbn [snd]. rewrite Nat.eqb_refl. cbn. lia.
  - intros [tm a] i H E. unfold take_idx in E. cbn in E. destruct a; try discriminate. injection E as ->. apply (WI (tm, ATake i t)); [exact H | reflexivity].
  - intros [tm a] i H E. unfold pub_idx in E. cbn in E. destruct a; try discriminate; injection E as ->; eapply WI; eauto; reflexivity.
Qed.

(** ** A step of a worker *)
Lemma new_acts_eq : forall ws ws' new, w_log ws' = new ++ w_log ws -> new_acts ws ws' = new.
Proof. intros ws ws' new E. unfold new_acts. rewrite E, app_length, Nat.add_sub. rewrite firstn_app, Nat.sub_diag, firstn_all. cbn. now rewrite app_nil_r. Qed.
Lemma reach_step : forall ident tr ws e ws', reaches ident tr ws -> w_step ws e = Some ws' -> reaches ident (tr ++ [e]) ws'.
Proof. intros ident tr ws e ws' R H. unfold reaches. apply run_from_app. exists ws. split; [exact R|]. cbn. now rewrite H. Qed.
Lemma body_step : forall ident tr ws e ws' i, reaches ident tr ws -> w_step ws e = Some ws' -> i < w_taken ws -> body_of i (w_log ws') = body_of i (w_log ws).
Proof.
  intros ident tr ws e ws' i R H L. destruct (step_acts _ _ _ H) as (new & E & X). rewrite E. apply body_app. intros tm t I. apply X in I. destruct I as [_ [-> _]]. lia.
Qed.

Section Sys.
Variable may : nat -> outcome -> bool.
Local Notation stp := (y_step may).

Definition wsum (f : wstate -> nat) (l : list wstate) : nat := list_sum (map f l).
Lemma wsum_app : forall f a b, wsum f (a ++ b) = wsum f a + wsum f b.
Proof. intros. unfold wsum. now rewrite map_app, list_sum_app. Qed.
Lemma wsum_upd : forall f w ws ws' l, nth_error l w = Some ws -> wsum f (upd w ws' l) + f ws = wsum f l + f ws'.
Proof. intros f w ws ws' l H. destruct (upd_split _ _ _ _ H) as (a & b & -> & _ & U). rewrite U. rewrite !wsum_app. unfold wsum. cbn. lia. Qed.
Definition all_res (s : sys) : list res := y_results s ++ flat_map d_got (y_dirs s) ++ y_lost s.
Definition of_n (n : nat) (r : res) : bool := Nat.eqb (r_n r) n.
Definition of_wi (w i : nat) (r : res) : bool := Nat.eqb (r_w r) w && Nat.eqb (r_i r) i.
Definition back_n (n : nat) (p : nat * nat * nat) : bool := Nat.eqb (snd p) n.
Definition same (n m : nat) : bool := Nat.eqb m n.

Definition act_of (r : res) : wact := match r_out r with inl y => AOk (r_i r) (r_key r) y | inr m => AErr (r_i r) (r_key r) m end.
Record sinv (s : sys) : Prop := {
  si_keys : NoDup (map d_key (y_dirs s));
  si_sent : forall n d x, nth_error (y_sent s) n = Some (d, x) -> d < length (y_dirs s);
  si_work : forall w ws, nth_error (y_workers s) w = Some ws -> exists ident tr, reaches ident tr ws;
  si_take : forall w ws tm i t, nth_error (y_workers s) w = Some ws -> In (tm, ATake i t) (w_log ws) ->
    exists d x dd, nth_error (y_sent s) (t_body t) = Some (d, x) /\ nth_error (y_dirs s) d = Some dd /\ t_key t = d_key dd;
  si_exec : forall w ws tm i o, nth_error (y_workers s) w = Some ws -> In (tm, AFinish i o) (w_log ws) ->
    exists n d x, body_of i (w_log ws) = Some n /\ nth_error (y_sent s) n = Some (d, x) /\ may x o = true;
  si_res : forall r, In r (all_res s) -> exists ws, nth_error (y_workers s) (r_w r) = Some ws /\ body_of (r_i r) (w_log ws) = Some (r_n r) /\ exists tm, In (tm, act_of r) (w_log ws);
  si_got : forall d dd r, nth_error (y_dirs s) d = Some dd -> In r (d_got dd) -> r_key r = d_key dd;
  si_lost : forall r, In r (y_lost s) -> exists d dd, nth_error (y_dirs s) d = Some dd /\ d_open dd = false /\ d_key dd = r_key r;
  si_wi : forall w ws i, nth_error (y_workers s) w = Some ws -> cnt (of_wi w i) (all_res s) = tally COk i (w_log ws) + tally CErr i (w_log ws);
  si_pub : forall n, cnt (of_n n) (all_res s) = wsum (fun ws => pubs n (w_log ws)) (y_workers s);
  si_count : forall n, cnt (same n) (y_queue s) + wsum (fun ws => takes n (w_log ws)) (y_workers s) = (if n <? length (y_sent s) then 1 else 0) + cnt (back_n n) (y_back s);
  si_back : forall w i n, In (w, i, n) (y_back s) -> n < length (y_sent s)
}.

Lemma sinv_init : sinv y_init.
Proof.
  constructor; cbn; try easy; try (now intros [|]).
  - constructor.
Qed.
Lemma cnt_pick : forall (A : Type) (f : A -> bool) j l x r, pick j l = Some (x, r) -> cnt f l = b2n (f x) + cnt f r.
Proof.
  intros A f j; induction j as [|j IH]; intros l x r H; destruct l as [|y l]; cbn in H; try discriminate.
  - injection H as <- <-. now rewrite cnt_cons.
  - destruct (pick j l) as [[z r']|] eqn:P; [|discriminate]. injection H as <- <-. rewrite !cnt_cons, (IH _ _ _ P). lia.
Qed.
Lemma nth_app_old : forall (A : Type) (l : list A) n x y, nth_error l n = Some x -> nth_error (l ++ y) n = Some x.
Proof. intros A l n x y H. rewrite nth_error_app1; [exact H|]. apply nth_error_Some. congruence. Qed.
Lemma flat_got_upd : forall d dd dd' l (f : res -> bool), nth_error l d = Some dd -> cnt f (flat_map d_got (upd d dd' l)) + cnt f (d_got dd) = cnt f (flat_map d_got l) + cnt f (d_got dd').
Proof. intros d dd dd' l f H. destruct (upd_split _ _ _ _ H) as (a & b & -> & _ & U). rewrite U, !flat_map_app. cbn. rewrite !cnt_app. lia. Qed.
Lemma in_flat_upd : forall d dd dd' l r, nth_error l d = Some dd -> In r (flat_map d_got (upd d dd' l)) -> In r (flat_map d_got l) \/ In r (d_got dd').
Proof.
  intros d dd dd' l r H I. destruct (upd_split _ _ _ _ H) as (a & b & -> & _ & U). rewrite U in I. rewrite flat_map_app in *. cbn in *. rewrite !in_app_iff in *. tauto.
Qed.
Lemma keys_upd : forall d dd dd' l, nth_error l d = Some dd -> d_key dd' = d_key dd -> map d_key (upd d dd' l) = map d_key l.
Proof. intros d dd dd' l H E. destruct (upd_split _ _ _ _ H) as (a & b & -> & _ & U). rewrite U, !map_app. cbn. now rewrite E. Qed.

(** Anything that changes neither workers nor dispatches nor keys. *)
Definition dirs_ext (l l' : list dir) : Prop := forall d dd, nth_error l d = Some dd -> exists dd', nth_error l' d = Some dd' /\ d_key dd' = d_key dd.
Lemma dirs_ext_upd : forall d dd dd' l, nth_error l d = Some dd -> d_key dd' = d_key dd -> dirs_ext l (upd d dd' l).
Proof.
  intros d dd dd' l H E d0 x X. destruct (Nat.eq_dec d d0) as [->|NE].
  - exists dd'. rewrite upd_nth_same by (apply nth_error_Some; congruence). split; [reflexivity | congruence].
  - exists x. now rewrite upd_nth_other.
Qed.
Lemma dirs_ext_len : forall l l' d, dirs_ext l l' -> d < length l -> d < length l'.
Proof. intros l l' d H L. destruct (nth_error l d) as [x|] eqn:E; [|apply nth_error_None in E; lia]. destruct (H _ _ E) as (x' & X & _). apply nth_error_Some. congruence. Qed.
Lemma in_all : forall s r, In r (all_res s) <-> In r (y_results s) \/ (exists d dd, nth_error (y_dirs s) d = Some dd /\ In r (d_got dd)) \/ In r (y_lost s).
Proof.
  intros s r. unfold all_res. rewrite !in_app_iff, in_flat_map. split.
  - intros [H|[(dd & A & B)|H]]; auto. apply In_nth_error in A. destruct A as (d & A). right; left. now exists d, dd.
  - intros [H|[(d & dd & A & B)|H]]; auto. right; left. exists dd. split; [now apply nth_error_In in A | exact B].
Qed.

Lemma worker_step : forall s w ws e ws', sinv s -> nth_error (y_workers s) w = Some ws -> w_step ws e = Some ws' ->
  exists new, w_log ws' = new ++ w_log ws /\ new_acts ws ws' = new /\ explained ws e new /\
  (forall i, i < w_taken ws -> body_of i (w_log ws') = body_of i (w_log ws)) /\
  (forall tm i k y, In (tm, AOk i k y) new -> exists n, body_of i (w_log ws) = Some n /\ i < w_taken ws) /\
  (forall tm i k y, In (tm, AErr i k y) new -> exists n, body_of i (w_log ws) = Some n /\ i < w_taken ws).
Proof.
  intros s w ws e ws' SI Hw H. destruct (si_work _ SI _ _ Hw) as (ident & tr & R). destruct (step_acts _ _ _ H) as (new & E & X). exists new.
  pose proof (winv_run _ _ _ R) as W. split; [exact E|]. split; [now apply new_acts_eq|]. split; [exact X|]. split; [intros i L; eapply body_step; eauto|].
  assert (TC : forall t, phase_task (w_main ws) = Some t -> exists n, body_of (cur ws) (w_log ws) = Some n /\ cur ws < w_taken ws).
  { intros t P. destruct (take_cur _ _ W P) as (tt & I). destruct (in_body _ _ _ _ I) as (n & B). exists n. split; [exact B|]. destruct W as [WI _ _]. apply (WI _ _ I eq_refl). }
  split; intros tm i k y I; apply X in I; destruct I as [_ I]; cbn in I.
  - destruct I as [-> (t & a & M & _)]. apply (TC t). now rewrite M.
  - destruct I as [-> (t & fs & a & ab & M & _)]. apply (TC t). now rewrite M.
Qed.

Lemma published_in : forall w full new r, In r (flat_map (published w full) new) -> r_w r = w /\ body_of (r_i r) full = Some (r_n r) /\ exists tm, In (tm, act_of r) new.
Proof.
  intros w full new r H. apply in_flat_map in H. destruct H as ([tm a] & I & H). unfold published in H. cbn in H.
  destruct a; try contradiction; (destruct (body_of i full) as [n|] eqn:B; [|contradiction]); destruct H as [<-|[]]; cbn; repeat split; eauto.
Qed.
Lemma published_wi : forall w full new i, (forall tm i k y, In (tm, AOk i k y) new \/ In (tm, AErr i k y) new -> body_of i full <> None) ->
  cnt (of_wi w i) (flat_map (published w full) new) = tally COk i new + tally CErr i new.
Proof.
  intros w full new i H. unfold tally. induction new as [|[tm a] new IH]; [reflexivity|]. cbn [flat_map]. rewrite cnt_app, !cnt_cons, IH by (intros u j k y [X|X]; eapply (H u j k y); [left | right]; right; exact X).
  unfold published. cbn [snd]. destruct a; cbn [is b2n]; try (change (cnt (of_wi w i) []) with 0; lia).
  - destruct (body_of i0 full) eqn:B; [|exfalso; apply (H tm i0 k y); [left; now left | exact B]]. rewrite cnt_one. unfold of_wi. cbn. rewrite Nat.eqb_refl. cbn. destruct (Nat.eqb i0 i); cbn; lia.
  - destruct (body_of i0 full) eqn:B; [|exfalso; apply (H tm i0 k msg); [right; now left | exact B]]. rewrite cnt_one. unfold of_wi. cbn. rewrite Nat.eqb_refl. cbn. destruct (Nat.eqb i0 i); cbn; lia.
Qed.
Lemma published_n : forall w full new n, cnt (of_n n) (flat_map (published w full) new) = cnt (pub_for n full) new.
Proof.
  intros w full new n. induction new as [|[tm a] new IH]; [reflexivity|]. cbn [flat_map]. rewrite cnt_app, cnt_cons, IH. f_equal. unfold published, pub_for. cbn [snd].
  destruct a; try reflexivity; (destruct (body_of i full); [rewrite cnt_one | ]; reflexivity).
Qed.
Lemma cnt_ext_in : forall (A : Type) (f g : A -> bool) l, (forall x, In x l -> f x = g x) -> cnt f l = cnt g l.
Proof. intros A f g l H. unfold cnt. f_equal. now apply filter_ext_in. Qed.
Lemma tally_app : forall c i a b, tally c i (a ++ b) = tally c i a + tally c i b.
Proof. intros. unfold tally. apply cnt_app. Qed.
(** What a worker's step does to the counts. *)
Lemma pubs_step : forall s w ws e ws' new n, sinv s -> nth_error (y_workers s) w = Some ws -> w_step ws e = Some ws' -> w_log ws' = new ++ w_log ws ->
  pubs n (w_log ws') = cnt (pub_for n (w_log ws')) new + pubs n (w_log ws).
Proof.
  intros s w ws e ws' new n SI Hw H E. destruct (si_work _ SI _ _ Hw) as (ident & tr & R). unfold pubs. rewrite E at 2. rewrite cnt_app. f_equal. apply cnt_ext_in.
  intros [tm a] I. unfold pub_for. cbn. pose proof (winv_run _ _ _ R) as [WI _ _].
  destruct a; try reflexivity; (rewrite (body_step _ _ _ _ _ _ R H); [reflexivity | eapply WI; [exact I | reflexivity]]).
Qed.

Lemma NoDup_rev_app : forall (l : list nat) x, NoDup l -> ~ In x l -> NoDup (l ++ [x]).
Proof. intros l x N H. apply NoDup_Add with (a := x) (l := l); [|now split]. rewrite <- (app_nil_r l) at 1. apply Add_app. Qed.
Lemma sinv_lease : forall s k s', sinv s -> stp s (YLease k) = Some s' -> sinv s'.
Proof.
  intros s k s' SI H. cbn [y_step] in H. destruct (existsb _ _) eqn:X; [discriminate|]. injection H as <-. destruct SI.
  assert (AR : all_res (mkY (y_dirs s ++ [mkD k true []]) (y_sent s) (y_queue s) (y_workers s) (y_results s) (y_lost s) (y_back s)) = all_res s).
  { unfold all_res. cbn. rewrite flat_map_app. cbn. now rewrite app_nil_r. }
  constructor; try rewrite AR; cbn [y_dirs y_sent y_queue y_workers y_results y_lost y_back]; auto.
  - rewrite map_app. cbn [map d_key]. apply NoDup_rev_app; [exact si_keys0|].
    intros A. apply in_map_iff in A. destruct A as (dd & E & I). assert (existsb (fun d => Nat.eqb (d_key d) k) (y_dirs s) = true); [|congruence].
      apply existsb_exists. exists dd. split; [exact I | now apply Nat.eqb_eq].
  - intros n d x Q. rewrite app_length. specialize (si_sent0 _ _ _ Q). lia.
  - intros w ws tm i t A B. destruct (si_take0 _ _ _ _ _ A B) as (d & x & dd & C1 & C2 & C3). exists d, x, dd. repeat split; auto. now apply nth_app_old.
  - intros d dd r Q I. destruct (nth_app_new _ _ _ _ _ Q) as [[_ ->]|Q']; [easy | now apply (si_got0 d)].
  - intros r I. destruct (si_lost0 _ I) as (d & dd & A & B). exists d, dd. split; [now apply nth_app_old | exact B].
Qed.
Lemma sinv_send : forall s d x s', sinv s -> stp s (YSend d x) = Some s' -> sinv s'.
Proof.
  intros s d x s' SI H. cbn [y_step] in H. destruct (nth_error (y_dirs s) d) as [dd|] eqn:D; [|discriminate]. injection H as <-. destruct SI.
  constructor; unfold all_res in *; cbn [y_dirs y_sent y_queue y_workers y_results y_lost y_back]; auto.
  - intros n d0 x0 Q. destruct (nth_app_new _ _ _ _ _ Q) as [[_ E]|Q']; [|eauto]. injection E as -> ->. apply nth_error_Some. congruence.
  - intros w ws tm i t A B. destruct (si_take0 _ _ _ _ _ A B) as (d0 & x0 & dd0 & C1 & C2 & C3). exists d0, x0, dd0. repeat split; auto. now apply nth_app_old.
  - intros w ws tm i o A B. destruct (si_exec0 _ _ _ _ _ A B) as (n & d0 & x0 & C1 & C2 & C3). exists n, d0, x0. repeat split; auto. now apply nth_app_old.
  - intros n. rewrite app_length, cnt_app, cnt_one. cbn [length]. specialize (si_count0 n). unfold same at 2. destruct (Nat.eqb_spec (length (y_sent s)) n) as [E|E]; cbn [b2n].
    + subst n. rewrite Nat.ltb_irrefl in si_count0. replace (_ <? _) with true by (symmetry; apply Nat.ltb_lt; lia). lia.
    + replace (n <? length (y_sent s) + 1) with (n <? length (y_sent s)); [lia|]. destruct (Nat.ltb_spec n (length (y_sent s))); destruct (Nat.ltb_spec n (length (y_sent s) + 1)); auto; lia.
  - intros w i n I. rewrite app_length. specialize (si_back0 _ _ _ I). lia.
Qed.
Lemma sinv_start : forall s ident s', sinv s -> stp s (YStart ident) = Some s' -> sinv s'.
Proof.
  intros s ident s' SI H. cbn [y_step] in H. injection H as <-. destruct SI.
  constructor; unfold all_res in *; cbn [y_dirs y_sent y_queue y_workers y_results y_lost y_back]; auto.
  - intros w ws Q. destruct (nth_app_new _ _ _ _ _ Q) as [[_ ->]|Q']; [|eauto]. exists ident, []. reflexivity.
  - intros w ws tm i t Q I. destruct (nth_app_new _ _ _ _ _ Q) as [[_ ->]|Q']; [easy | eauto].
  - intros w ws tm i o Q I. destruct (nth_app_new _ _ _ _ _ Q) as [[_ ->]|Q']; [easy | eauto].
  - intros r I. destruct (si_res0 _ I) as (ws & A & B). exists ws. split; [now apply nth_app_old | exact B].
  - intros w ws i Q. destruct (nth_app_new _ _ _ _ _ Q) as [[-> ->]|Q']; [|eauto]. cbn [w_init w_log]. change (cnt (of_wi (length (y_workers s)) i) (all_res s) = 0). apply cnt_zero.
    intros r I. destruct (si_res0 _ I) as (ws & A & _). unfold of_wi. destruct (Nat.eqb_spec (r_w r) (length (y_workers s))) as [E|E]; [|reflexivity].
    exfalso. rewrite E in A. assert (length (y_workers s) < length (y_workers s)); [apply nth_error_Some; congruence | lia].
  - intros n. rewrite wsum_app, si_pub0. change (wsum (fun ws => pubs n (w_log ws)) [w_init ident]) with 0. lia.
  - intros n. rewrite wsum_app. specialize (si_count0 n). change (wsum (fun ws => takes n (w_log ws)) [w_init ident]) with 0. lia.
Qed.
Lemma sinv_back : forall s w i s', sinv s -> stp s (YBack w i) = Some s' -> sinv s'.
Proof.
  intros s w i s' SI H. cbn [y_step] in H. destruct (nth_error (y_workers s) w) as [ws|] eqn:W; [|discriminate]. destruct (body_of i (w_log ws)) as [n|] eqn:B; [|discriminate].
  destruct (_ || _); [discriminate|]. injection H as <-. destruct SI. apply body_in in B. destruct B as (tm & t & I & <-). destruct (si_take0 _ _ _ _ _ W I) as (d & x & dd & S1 & _).
  assert (L : t_body t < length (y_sent s)) by (apply nth_error_Some; congruence).
  constructor; unfold all_res in *; cbn [y_dirs y_sent y_queue y_workers y_results y_lost y_back]; auto.
  - intros n. rewrite cnt_app, cnt_one, cnt_cons. specialize (si_count0 n). unfold same at 2. unfold back_n at 1. cbn [snd]. lia.
  - intros w0 i0 n0 [E|E]; [now injection E as <- <- <- | eauto].
Qed.
Lemma sinv_dirs : forall s d dd dd' res lost, sinv s -> nth_error (y_dirs s) d = Some dd -> d_key dd' = d_key dd -> (d_open dd' = true -> d_open dd = true) ->
  let s' := mkY (upd d dd' (y_dirs s)) (y_sent s) (y_queue s) (y_workers s) res lost (y_back s) in
  (forall r, In r (all_res s') -> In r (all_res s)) -> (forall f, cnt f (all_res s') = cnt f (all_res s)) -> (forall r, In r (d_got dd') -> In r (d_got dd) \/ r_key r = d_key dd) ->
  (forall r, In r lost -> In r (y_lost s) \/ d_open dd' = false /\ r_key r = d_key dd) -> sinv s'.
Proof.
  intros s d dd dd' res lost SI D K O s' IN CN GO LO. destruct SI. pose proof (dirs_ext_upd _ _ _ _ D K) as X.
  assert (DL : d < length (y_dirs s)) by (apply nth_error_Some; congruence).
  constructor; try (intros; rewrite CN); subst s'; cbn [y_dirs y_sent y_queue y_workers y_results y_lost y_back]; auto.
  - now rewrite (keys_upd _ _ _ _ D K).
  - intros n d0 x0 Q. rewrite upd_length. eauto.
  - intros w ws tm i t A B. destruct (si_take0 _ _ _ _ _ A B) as (d0 & x0 & dd0 & C1 & C2 & C3). destruct (X _ _ C2) as (dd1 & C4 & C5). exists d0, x0, dd1. repeat split; auto. congruence.
  - intros d0 dd0 r Q I. destruct (Nat.eq_dec d d0) as [->|NE].
    + rewrite upd_nth_same in Q by exact DL. injection Q as <-. rewrite K. destruct (GO _ I); [eauto | auto].
    + rewrite upd_nth_other in Q by exact NE. eauto.
  - intros r I. destruct (LO _ I) as [I'|[C Q]].
    + destruct (si_lost0 _ I') as (d0 & dd0 & A & B & C). destruct (Nat.eq_dec d d0) as [->|NE].
      * exists d0, dd'. rewrite upd_nth_same by exact DL. assert (dd0 = dd) by congruence. subst dd0. repeat split; [|congruence]. destruct (d_open dd'); [|reflexivity]. rewrite O in B; auto.
      * exists d0, dd0. rewrite upd_nth_other by exact NE. auto.
    + exists d, dd'. rewrite upd_nth_same by exact DL. repeat split; auto. congruence.
Qed.
Lemma sinv_recv : forall s d j s', sinv s -> stp s (YRecv d j) = Some s' -> sinv s'.
Proof.
  intros s d j s' SI H. cbn [y_step] in H. destruct (nth_error (y_dirs s) d) as [dd|] eqn:D; [|discriminate]. destruct (pick j (y_results s)) as [[r rest]|] eqn:P; [|discriminate].
  destruct (d_open dd && Nat.eqb (r_key r) (d_key dd)) eqn:C; [|discriminate]. injection H as <-. apply andb_prop in C. destruct C as [O K]. apply Nat.eqb_eq in K.
  apply (sinv_dirs s d dd); auto.
  - intros r0. unfold all_res. cbn. rewrite !in_app_iff. pose proof (pick_in _ _ _ _ _ P) as PI. intros [I|[I|I]]; auto.
    + left. eapply pick_in_rest; eauto.
    + destruct (in_flat_upd _ _ _ _ _ D I) as [I'|I']; [auto|]. cbn in I'. apply in_app_or in I'. destruct I' as [I'|[<-|[]]]; [|auto]. right; left. apply in_flat_map. exists dd. split; [now apply nth_error_In in D | exact I'].
  - intros f. unfold all_res. cbn. rewrite !cnt_app, (cnt_pick _ f _ _ _ _ P). pose proof (flat_got_upd d dd (mkD (d_key dd) true (d_got dd ++ [r])) (y_dirs s) f D) as Q. cbn [d_got] in Q. rewrite cnt_app, cnt_one in Q. lia.
  - cbn. intros r0 I. apply in_app_or in I. destruct I as [I|[<-|[]]]; auto.
Qed.
Lemma sinv_release : forall s d s', sinv s -> stp s (YRelease d) = Some s' -> sinv s'.
Proof.
  intros s d s' SI H. cbn [y_step] in H. destruct (nth_error (y_dirs s) d) as [dd|] eqn:D; [|discriminate]. destruct (d_open dd) eqn:O; [|discriminate]. injection H as <-.
  apply (sinv_dirs s d dd); auto.
  - intros r0. unfold all_res. cbn. rewrite !in_app_iff. intros [I|[I|[I|I]]]; auto; try (apply filter_In in I; tauto).
    destruct (in_flat_upd _ _ _ _ _ D I) as [I'|I']; [auto|]. right; left. apply in_flat_map. exists dd. split; [now apply nth_error_In in D | exact I'].
  - intros f. unfold all_res. cbn. rewrite !cnt_app. pose proof (flat_got_upd d dd (mkD (d_key dd) false (d_got dd)) (y_dirs s) f D) as Q. cbn [d_got] in Q.
    assert (S : forall g (l : list res), cnt f (filter (fun r => negb (g r)) l) + cnt f (filter g l) = cnt f l).
    { intros g l. induction l as [|x l IH]; [reflexivity|]. cbn [filter]. rewrite cnt_cons. destruct (g x); cbn [negb]; rewrite cnt_cons; lia. }
    specialize (S (fun r => Nat.eqb (r_key r) (d_key dd)) (y_results s)). cbn beta in S. lia.
  - cbn. intros r I. apply in_app_or in I. destruct I as [I|I]; [auto|]. apply filter_In in I. destruct I as [_ I]. apply Nat.eqb_eq in I. auto.
Qed.

(** A worker's step, with what it publishes. *)
Lemma sinv_worker : forall s w ws e ws' q , sinv s -> nth_error (y_workers s) w = Some ws -> w_step ws e = Some ws' ->
  (forall t, e = WTake t -> exists d x dd, nth_error (y_sent s) (t_body t) = Some (d, x) /\ nth_error (y_dirs s) d = Some dd /\ t_key t = d_key dd) ->
  (forall t sn st sf o, w_main ws = WpRun t sn st -> e = WPoll sf (Some o) -> exists d x, nth_error (y_sent s) (t_body t) = Some (d, x) /\ may x o = true) ->
  (forall n, cnt (same n) q + takes n (w_log ws') = cnt (same n) (y_queue s) + takes n (w_log ws)) ->
  sinv (mkY (y_dirs s) (y_sent s) q (upd w ws' (y_workers s)) (y_results s ++ flat_map (published w (w_log ws')) (new_acts ws ws')) (y_lost s) (y_back s)).
Proof.
  intros s w ws e ws' q SI Hw H HT HP HQ. destruct (worker_step _ _ _ _ _ SI Hw H) as (new & E & NA & X & BS & OK & ER). rewrite NA. pose proof SI as SI'. destruct SI.
  destruct (si_work0 _ _ Hw) as (ident & tr & R). pose proof (winv_run _ _ _ R) as WI. pose proof WI as [WB _ _].
  assert (WL : w < length (y_workers s)) by (apply nth_error_Some; congruence).
  assert (R' : reaches ident (tr ++ [e]) ws') by (eapply reach_step; eauto).
  assert (CA : forall f, cnt f (all_res (mkY (y_dirs s) (y_sent s) q (upd w ws' (y_workers s)) (y_results s ++ flat_map (published w (w_log ws')) new) (y_lost s) (y_back s)))
                         = cnt f (all_res s) + cnt f (flat_map (published w (w_log ws')) new)).
  { intros f. unfold all_res. cbn. rewrite !cnt_app. lia. }
  constructor; cbn [y_dirs y_sent y_queue y_workers y_results y_lost y_back]; auto.
  - intros w0 ws0 Q. destruct (Nat.eq_dec w w0) as [->|NE]; [rewrite upd_nth_same in Q by exact WL; injection Q as <-; eauto | rewrite upd_nth_other in Q by exact NE; eauto].
  - intros w0 ws0 tm i t Q I. destruct (Nat.eq_dec w w0) as [->|NE]; [rewrite upd_nth_same in Q by exact WL; injection Q as <- | rewrite upd_nth_other in Q by exact NE; eauto].
    rewrite E in I. apply in_app_or in I. destruct I as [I|I]; [|eauto]. apply X in I. destruct I as [_ (_ & _ & ->)]. eauto.
  - intros w0 ws0 tm i o Q I. destruct (Nat.eq_dec w w0) as [->|NE]; [rewrite upd_nth_same in Q by exact WL; injection Q as <- | rewrite upd_nth_other in Q by exact NE; eauto].
    rewrite E in I. apply in_app_or in I. destruct I as [I|I].
    + apply X in I. destruct I as [_ (-> & t & sn & st & sf & M & ->)]. destruct (HP _ _ _ _ _ M eq_refl) as (d & x & S1 & S2).
      assert (PT : phase_task (w_main ws) = Some t) by now rewrite M. destruct (take_cur _ _ WI PT) as (tt & I). exists (t_body t), d, x. repeat split; auto.
      rewrite BS by (apply (WB _ _ I eq_refl)). eapply body_reach; eauto.
    + destruct (si_exec0 _ _ _ _ _ Hw I) as (n & d & x & B1 & B2). exists n, d, x. split; [|exact B2]. rewrite BS; [exact B1|]. apply (WB _ _ I eq_refl).
  - intros r I. assert (I' : In r (all_res s) \/ In r (flat_map (published w (w_log ws')) new)).
    { unfold all_res in I |- *. cbn in I. rewrite !in_app_iff in *. tauto. }
    clear I. destruct I' as [I|I].
    + destruct (si_res0 _ I) as (ws0 & A & B & tm & C). destruct (Nat.eq_dec w (r_w r)) as [EQ|NE].
      * subst w. assert (ws0 = ws) by congruence. subst ws0. exists ws'. split; [now apply upd_nth_same|]. split.
        -- rewrite BS; [exact B|]. apply body_in in B. destruct B as (u & t & I0 & _). apply (WB _ _ I0 eq_refl).
        -- exists tm. rewrite E. apply in_or_app. now right.
      * exists ws0. rewrite upd_nth_other by exact NE. eauto.
    + apply published_in in I. destruct I as (<- & B & tm & C). exists ws'. split; [now apply upd_nth_same|]. split; [exact B|]. exists tm. rewrite E. apply in_or_app. now left.
  - intros w0 ws0 i Q. rewrite CA. destruct (Nat.eq_dec w w0) as [->|NE].
    + rewrite upd_nth_same in Q by exact WL. injection Q as <-. rewrite (si_wi0 _ _ i Hw), published_wi.
      * rewrite E, !tally_app. lia.
      * intros tm j k y [I|I] Z; [destruct (OK _ _ _ _ I) as (n & B & L) | destruct (ER _ _ _ _ I) as (n & B & L)]; rewrite BS in Z by exact L; congruence.
    + rewrite upd_nth_other in Q by exact NE. rewrite (si_wi0 _ _ i Q). rewrite (proj2 (cnt_zero _ (of_wi w0 i) (flat_map (published w (w_log ws')) new))); [lia|]. intros r I. apply published_in in I. destruct I as (EQ & _).
      unfold of_wi. destruct (Nat.eqb_spec (r_w r) w0); [congruence | reflexivity].
  - intros n. rewrite CA. pose proof (wsum_upd (fun ws => pubs n (w_log ws)) w ws ws' _ Hw) as Q. cbn beta in Q. rewrite si_pub0, published_n. rewrite (pubs_step _ _ _ _ _ _ n SI' Hw H E) in Q. lia.
  - intros n. pose proof (wsum_upd (fun ws => takes n (w_log ws)) w ws ws' _ Hw) as Q. cbn beta in Q. specialize (HQ n). specialize (si_count0 n). lia.
Qed.
Lemma takes_step : forall ws e ws' n, w_step ws e = Some ws' -> (forall t, e <> WTake t) -> takes n (w_log ws') = takes n (w_log ws).
Proof.
  intros ws e ws' n H NT. destruct (step_acts _ _ _ H) as (new & E & X). unfold takes. rewrite E, cnt_app. rewrite (proj2 (cnt_zero _ (take_of n) new)); [reflexivity|].
  intros [tm a] I. apply X in I. unfold take_of. cbn. destruct a; try reflexivity. destruct I as [_ (_ & _ & Q)]. now apply NT in Q.
Qed.
Lemma take_step : forall ws t ws', w_step ws (WTake t) = Some ws' -> w_log ws' = (w_now ws, ATake (w_taken ws) t) :: w_log ws.
Proof. intros ws t ws' H. cbn in H. destruct (w_main ws); try discriminate. injection H as <-. reflexivity. Qed.
Lemma sinv_take : forall s w j s', sinv s -> stp s (YTake w j) = Some s' -> sinv s'.
Proof.
  intros s w j s' SI H. cbn [y_step] in H. destruct (nth_error (y_workers s) w) as [ws|] eqn:W; [|discriminate]. destruct (pick j (y_queue s)) as [[n q]|] eqn:P; [|discriminate].
  destruct (nth_error (y_sent s) n) as [[d x]|] eqn:S; [|discriminate]. destruct (nth_error (y_dirs s) d) as [dd|] eqn:D; [|discriminate].
  destruct (w_step ws _) as [ws'|] eqn:WS; [|discriminate]. injection H as <-. pose proof (take_step _ _ _ WS) as L.
  assert (Z : y_results s = y_results s ++ flat_map (published w (w_log ws')) (new_acts ws ws')).
  { rewrite (new_acts_eq ws ws' [(w_now ws, ATake (w_taken ws) (mkT (d_key dd) n))]) by exact L. cbn. now rewrite app_nil_r. }
  rewrite Z at 1. apply (sinv_worker s w ws (WTake (mkT (d_key dd) n)) ws' q); auto.
  - intros t Q. injection Q as <-. exists d, x, dd. auto.
  - intros t sn st sf o _ Q. discriminate Q.
  - intros m. rewrite L. unfold takes. rewrite cnt_cons, (cnt_pick _ (same m) _ _ _ _ P). unfold take_of at 1. cbn. unfold same at 2. lia.
Qed.
Lemma sinv_work : forall s w e s', sinv s -> stp s (YWork w e) = Some s' -> sinv s'.
Proof.
  intros s w e s' SI H. cbn [y_step] in H. destruct (nth_error (y_workers s) w) as [ws|] eqn:W; [|discriminate]. destruct (possible may s ws e) eqn:P; [|discriminate].
  destruct (w_step ws e) as [ws'|] eqn:WS; [|discriminate]. injection H as <-.
  assert (NT : forall t, e <> WTake t) by (intros t ->; discriminate P).
  apply (sinv_worker s w ws e ws' (y_queue s)); auto.
  - intros t Q. now apply NT in Q.
  - intros t sn st sf o M ->. unfold possible in P. rewrite M in P. destruct (nth_error (y_sent s) (t_body t)) as [[d x]|]; [|discriminate]. eauto.
  - intros n. now rewrite (takes_step _ _ _ n WS NT).
Qed.
Theorem sinv_run : forall tr s, run_from stp y_init tr = Some s -> sinv s.
Proof.
  intros tr s H. refine (run_from_inv _ _ stp sinv _ tr y_init s sinv_init H). clear. intros s e s' SI H. destruct e.
  - eapply sinv_lease; eauto.
  - eapply sinv_send; eauto.
  - eapply sinv_start; eauto.
  - eapply sinv_take; eauto.
  - eapply sinv_work; eauto.
  - eapply sinv_back; eauto.
  - eapply sinv_recv; eauto.
  - eapply sinv_release; eauto.
Qed.
End Sys.
