(** The directives of a joint run behave as in MapModel and FoldModel. *)
From Coq Require Import List Arith NArith Lia Bool Permutation Cantor.
From Verif Require Import Base BaseFacts PublishModel MapModel MapSpec ContiguousModel FoldModel RetryModel WorkerModel WorkerSpec WorkerProofs WorkerFacts WorkerInv WorkerProps
  SystemModel SystemSpec SystemProofs SystemProps JointModel.
Import ListNotations.
Open Scope nat_scope.

Lemma decode_code : forall j, decode (code j) = j.
Proof.
  intros [op i a|op [lo hi l r]]; unfold code, decode; cbn [ft_lo ft_hi ft_l ft_r].
  - rewrite Nat.div2_double, Nat.even_mul. cbn [Nat.even orb]. rewrite !cancel_of_to. now rewrite N2Nat.id.
  - rewrite Nat.div2_succ_double, Nat.even_succ, Nat.odd_mul. cbn [Nat.odd Nat.even negb andb]. rewrite !cancel_of_to. now rewrite !N2Nat.id.
Qed.

(** *** Lists *)
Lemma pick_map : forall (A B : Type) (h : A -> B) i l x r, pick i l = Some (x, r) -> pick i (map h l) = Some (h x, map h r).
Proof.
  intros A B h i. induction i as [|i IH]; intros l x r H; destruct l as [|y l]; cbn in *; try discriminate.
  - injection H as -> ->. reflexivity.
  - destruct (pick i l) as [[z r']|] eqn:P; [|discriminate]. injection H as -> <-. now rewrite (IH _ _ _ P).
Qed.
Lemma pick_last : forall (A : Type) (l : list A) x, pick (length l) (l ++ [x]) = Some (x, l).
Proof. intros A l x. induction l as [|y l IH]; [reflexivity|]. cbn. now rewrite IH. Qed.
Definition on_key (k : nat) (r : res) : bool := Nat.eqb (r_key r) k.
Lemma place_pick : forall k i l j, place k i l = Some j -> exists r rest, pick j l = Some (r, rest) /\ r_key r = k /\ pick i (filter (on_key k) l) = Some (r, filter (on_key k) rest) /\
  forall k', k' <> k -> filter (on_key k') rest = filter (on_key k') l.
Proof.
  intros k i l. revert i. induction l as [|r l IH]; intros i j H; cbn in H; [discriminate|]. cbn [filter]. unfold on_key at 1. destruct (Nat.eqb_spec (r_key r) k) as [E|NE].
  - destruct i as [|i].
    + injection H as <-. exists r, l. split; [reflexivity|]. split; [exact E|]. split; [reflexivity|]. intros k' N. unfold on_key at 2. destruct (Nat.eqb_spec (r_key r) k'); [congruence|reflexivity].
    + destruct (place k i l) as [j'|] eqn:P; [|discriminate]. cbn in H. injection H as <-. destruct (IH _ _ P) as (r' & rest & A & B & C & D). exists r', (r :: rest). cbn. rewrite A, C. split; [reflexivity|]. split; [exact B|].
      unfold on_key at 2. rewrite E, Nat.eqb_refl. split; [reflexivity|]. intros k' N. now rewrite (D _ N).
  - destruct (place k i l) as [j'|] eqn:P; [|discriminate]. cbn in H. injection H as <-. destruct (IH _ _ P) as (r' & rest & A & B & C & D). exists r', (r :: rest). cbn. rewrite A. split; [reflexivity|]. split; [exact B|].
    unfold on_key at 2. destruct (Nat.eqb_spec (r_key r) k); [contradiction|]. split; [exact C|]. intros k' N. now rewrite (D _ N).
Qed.
Lemma place_none : forall k l, place k 0 l = None <-> filter (on_key k) l = [].
Proof.
  intros k l. induction l as [|r l IH]; [easy|]. cbn. unfold on_key at 1. destruct (Nat.eqb (r_key r) k); [easy|]. destruct (place k 0 l); cbn; rewrite <- IH; easy.
Qed.
Lemma place_some : forall k l i, i < length (filter (on_key k) l) -> exists j, place k i l = Some j.
Proof.
  intros k l. induction l as [|r l IH]; intros i H; cbn in H; [lia|]. cbn. unfold on_key in H at 1. destruct (Nat.eqb (r_key r) k).
  - destruct i as [|i]; [eauto|]. cbn in H. destruct (IH i) as (j & ->); [lia|]. cbn. eauto.
  - destruct (IH i H) as (j & ->). cbn. eauto.
Qed.
Lemma is_task_spec : forall i a t, is_task i a t = true <-> t = (i, a).
Proof.
  intros i a [i' a']. unfold is_task. cbn. rewrite andb_true_iff, N.eqb_eq, Nat.eqb_eq. split; [intros [-> ->]; reflexivity | intros E; injection E; auto].
Qed.
Lemma first_pick : forall i a l, In (i, a) l -> exists j, pick j l = Some ((i, a), drop_first (is_task i a) l).
Proof.
  intros i a l. induction l as [|t l IH]; [easy|]. intros H. cbn [drop_first]. destruct (is_task i a t) eqn:E.
  - apply is_task_spec in E. subst t. exists 0. reflexivity.
  - destruct H as [->|H]; [rewrite (proj2 (is_task_spec i a (i, a)) eq_refl) in E; discriminate|]. destruct (IH H) as (j & P). exists (S j). cbn. now rewrite P.
Qed.

(** *** The system's steps *)
Section Joint.
Variable f : nat -> nat -> nat.
Variable g : nat -> nat -> nat -> nat.
Variable empty : nat -> nat.
Notation may := (may f g).
Notation step := (j_step f g empty).

Definition is_pub (p : N * wact) : bool := match snd p with AOk _ _ _ | AErr _ _ _ => true | _ => false end.
Lemma pub_once : forall ws e ws' new, w_step ws e = Some ws' -> w_log ws' = new ++ w_log ws -> (exists p, In p new /\ is_pub p = true) -> exists p, new = [p].
Proof.
  intros ws e ws' new S L ([tm a] & I & Q). destruct (step_acts _ _ _ S) as (new' & L' & X). rewrite L in L'. apply app_inv_tail in L'. subst new'.
  destruct (X _ _ I) as [_ EX]. clear X.
  assert (NIL : w_log ws' = w_log ws -> exists p, new = [p]). { intros E. rewrite L in E. apply (app_inv_tail (w_log ws) new []) in E. subst new. destruct I. }
  assert (ONE : forall p, w_log ws' = p :: w_log ws -> exists p, new = [p]). { intros p E. rewrite L in E. apply (app_inv_tail (w_log ws) new [p]) in E. eauto. }
  assert (CMD : forall k, e = WCommand k -> exists p, new = [p]).
  { intros k ->. exfalso. unfold w_step in S.
    assert (K : (let '(s1, fresh) := mark (log ws (ACommand k)) k in
          Some (if fresh then mkW (w_now s1) (w_jobs s1) (w_reap s1) (LisSend k) (w_ver s1) (w_val s1) (w_flag s1) (w_main s1) (w_taken s1) (w_log s1) else s1)) = Some ws').
    { destruct (w_main ws); try discriminate; destruct (w_lis ws); try discriminate; exact S. }
    clear S. destruct (mark_new (log ws (ACommand k)) k) as (n2 & L2 & D). destruct (mark (log ws (ACommand k)) k) as [s1 fresh]. cbn [fst] in L2.
    assert (new = n2 ++ [(w_now ws, ACommand k)]) as ->. { apply (app_inv_tail (w_log ws)). rewrite <- L, <- app_assoc. destruct fresh; injection K as <-; exact L2. }
    apply in_app_or in I. destruct I as [I|[I|[]]]; [|injection I as <- <-; discriminate]. destruct D as [[-> _]|[-> _]]; [destruct I|]. destruct I as [I|[]]. injection I as <- <-. discriminate. }
  assert (M : (exists t y b, w_main ws = WpOk t y b (OPub IoOpen)) \/ (exists t fs msg b ab, w_main ws = WpFail t fs msg b (FPub ab IoOpen))).
  { destruct a; try discriminate; cbn in EX; [left|right]; [destruct EX as (_ & t & b & M & _) | destruct EX as (_ & t & fs & b & ab & M & _)]; eauto 7. }
  clear EX. destruct M as [(t & y & b & M)|(t & fs & msg & b & ab & M)].
  - destruct e as [d| |k| | |t'| | | |sf r|sl|sl ok|ok|ok| |]; try (now apply (CMD k)); unfold w_step in S; rewrite M in S; try discriminate.
    + injection S as <-. now apply NIL.
    + destruct (w_reap ws <=? w_now ws)%N; try discriminate; injection S as <-; now apply NIL.
    + destruct (w_lis ws); try discriminate; injection S as <-; now apply NIL.
    + destruct (w_lis ws); try discriminate; injection S as <-; now apply NIL.
    + destruct sl; try discriminate; [destruct b; try discriminate|]; cbn in S; injection S as <-; eapply ONE; reflexivity.
    + destruct sl; try discriminate; [destruct b; try discriminate|]; destruct ok; cbn in S; try discriminate; injection S as <-; now apply NIL.
    + destruct b; discriminate.
  - destruct e as [d| |k| | |t'| | | |sf r|sl|sl ok|ok|ok| |]; try (now apply (CMD k)); unfold w_step in S; rewrite M in S; try discriminate.
    + injection S as <-. now apply NIL.
    + destruct (w_reap ws <=? w_now ws)%N; try discriminate; injection S as <-; now apply NIL.
    + destruct (w_lis ws); try discriminate; injection S as <-; now apply NIL.
    + destruct (w_lis ws); try discriminate; injection S as <-; now apply NIL.
    + destruct sl; try discriminate; [destruct b; try discriminate| |destruct ab; try discriminate]; cbn in S; injection S as <-; eapply ONE; reflexivity.
    + destruct sl; try discriminate; [destruct b; try discriminate| |destruct ab; try discriminate]; destruct ok; cbn in S; try discriminate; injection S as <-; now apply NIL.
    + destruct b; discriminate.
Qed.
Lemma work_results : forall y w e y', y_step may y (YWork w e) = Some y' ->
  y_dirs y' = y_dirs y /\ y_sent y' = y_sent y /\ y_lost y' = y_lost y /\ y_back y' = y_back y /\ (y_results y' = y_results y \/ exists r, y_results y' = y_results y ++ [r]).
Proof.
  intros y w e y' H. cbn [y_step] in H. destruct (nth_error (y_workers y) w) as [ws|]; [|discriminate]. destruct (possible may y ws e); [|discriminate].
  destruct (w_step ws e) as [ws'|] eqn:S; [|discriminate]. injection H as <-. cbn. do 4 (split; [reflexivity|]).
  destruct (step_acts _ _ _ S) as (new & L & X). rewrite (new_acts_eq _ _ _ L).
  assert (K : flat_map (published w (w_log ws')) new = [] \/ exists r, flat_map (published w (w_log ws')) new = [r]).
  { destruct (existsb is_pub new) eqn:P.
    - apply existsb_exists in P. destruct (pub_once _ _ _ _ S L P) as ([tm a] & ->). cbn. rewrite app_nil_r. unfold published. destruct a; cbn; auto; destruct (body_of _ _); eauto.
    - left. clear - P. induction new as [|[tm a] new IH]; [reflexivity|]. cbn in P. apply orb_false_iff in P. destruct P as [P1 P2]. cbn. rewrite (IH P2). destruct a; easy. }
  destruct K as [->|(r & ->)]; [left; apply app_nil_r | right; eauto].
Qed.

Definition noback (y : sys) (d : nat) : Prop := forall n x, nth_error (y_sent y) n = Some (d, x) -> cnt (back_n n) (y_back y) = 0.
Definition queue_of (y : sys) (k : nat) : list res := filter (on_key k) (y_results y).

Lemma once : forall y n, sinv may y -> cnt (back_n n) (y_back y) = 0 -> cnt (of_n n) (all_res y) <= 1.
Proof.
  intros y n SI B. pose proof (si_pub _ _ SI n) as P. pose proof (si_count _ _ SI n) as C. rewrite B in C.
  assert (A : wsum (fun ws => pubs n (w_log ws)) (y_workers y) <= wsum (fun ws => takes n (w_log ws)) (y_workers y)).
  { assert (G : forall ws, In ws (y_workers y) -> pubs n (w_log ws) <= takes n (w_log ws)).
    { intros ws I. apply In_nth_error in I. destruct I as (w & W). destruct (si_work _ _ SI _ _ W) as (ident & wtr & WR). eapply pubs_le; eauto. }
    clear - G. unfold wsum. induction (y_workers y) as [|ws l IH]; [cbn; lia|]. cbn [map list_sum fold_right]. specialize (G ws (or_introl eq_refl)) as G1.
    specialize (IH (fun ws I => G ws (or_intror I))). unfold list_sum in IH |- *. cbn. lia. }
  destruct (n <? length (y_sent y)); lia.
Qed.
(** A result in the queue of an open lease is for a dispatch of its directive. *)
Lemma queue_mine : forall y d dd r, sinv may y -> nth_error (y_dirs y) d = Some dd -> In r (y_results y) -> r_key r = d_key dd -> exists x, nth_error (y_sent y) (r_n r) = Some (d, x).
Proof.
  intros y d dd r SI D I K. destruct (res_origin _ _ _ SI (proj2 (in_all y r) (or_introl I))) as (d' & x & dd' & ws & o & S1 & S2 & K' & _).
  assert (d' = d) by (eapply keys_inj; eauto; congruence). subst d'. exists x. exact S1.
Qed.
(** And it says what the execution of that dispatch may say. *)
Lemma queue_value : forall y r d x, sinv may y -> In r (y_results y) -> nth_error (y_sent y) (r_n r) = Some (d, x) ->
  match r_out r with inl v => v = value f g (decode x) | inr _ => True end.
Proof.
  intros y r d x SI I S. destruct (res_origin _ _ _ SI (proj2 (in_all y r) (or_introl I))) as (d' & x' & dd' & ws & o & S1 & _ & _ & _ & _ & _ & M & RO).
  unfold dispatched in S1. rewrite S in S1. injection S1 as <- <-. destruct (r_out r) as [v|e]; [|exact Logic.I].
  destruct o as [v'|fs msg|]; cbn in RO; try discriminate; [|destruct fs; discriminate]. injection RO as ->. cbn in M. now apply Nat.eqb_eq.
Qed.

(** *** What a client knows *)
Definition mtask (y : sys) (n : nat) : N * nat := match job_of y n with JobMap _ i a => (i, a) | JobFold _ _ => (0%N, 0) end.
Definition mres (y : sys) (r : res) : (N * nat) * Base.res nat nat := (mtask y (r_n r), answer_of (r_out r)).
Definition fres (y : sys) (r : res) : Base.res nat (item nat) :=
  match job_of y (r_n r) with
  | JobFold _ t => match answer_of (r_out r) with ROk v => ROk (mkItem (ft_lo t) (ft_hi t) v) | RErr e => RErr e end
  | JobMap _ _ _ => RErr 0
  end.
Definition mfollows (y : sys) (d k : nat) (m : mstate nat nat nat) : Prop :=
  m_results m = map (mres y) (queue_of y k) /\
  exists ns, NoDup ns /\ Permutation (m_tasks m) (map (mtask y) ns) /\ forall n, In n ns <-> (exists x, nth_error (y_sent y) n = Some (d, x)) /\ cnt (of_n n) (all_res y) = 0.
Definition ffollows (y : sys) (d k op : nat) (x : fstate nat nat) : Prop :=
  f_results x = map (fres y) (queue_of y k) /\
  forall n p t, nth_error (y_sent y) n = Some (d, p) -> decode p = JobFold op t -> In t (f_tasks x).
Definition knows (y : sys) (d : nat) (dd : dir) (c : client) : Prop :=
  match c with
  | CMap op arr late en m =>
      (forall n x, nth_error (y_sent y) n = Some (d, x) -> exists i a, decode x = JobMap op i a) /\
      (noback y d -> exists mtr, no_dup mtr /\ (forall e, In e mtr -> loses e = false) /\ run_from (m_step (exec f op)) (m_init arr late en) mtr = Some m /\ (d_open dd = true -> mfollows y d (d_key dd) m))
  | CFold op inp x =>
      (forall n p, nth_error (y_sent y) n = Some (d, p) -> exists t, decode p = JobFold op t) /\
      exists ftr, fold_run (comb g op) (empty op) inp ftr = Some x /\ (d_open dd = true -> f_ret x = None -> ffollows y d (d_key dd) op x)
  end.
(** Nothing about [d] changed. *)
Record frame (y y' : sys) (d k : nat) : Prop := {
  fr_sent : forall n x, nth_error (y_sent y') n = Some (d, x) <-> nth_error (y_sent y) n = Some (d, x);
  fr_queue : queue_of y' k = queue_of y k;
  fr_all : forall n x, nth_error (y_sent y) n = Some (d, x) -> cnt (of_n n) (all_res y') = cnt (of_n n) (all_res y);
  fr_back : noback y' d -> noback y d
}.
Lemma job_frame : forall y y' d n x, (forall n x, nth_error (y_sent y') n = Some (d, x) <-> nth_error (y_sent y) n = Some (d, x)) ->
  nth_error (y_sent y) n = Some (d, x) -> job_of y' n = job_of y n.
Proof. intros y y' d n x H S. unfold job_of. rewrite S. apply H in S. now rewrite S. Qed.
Lemma mtask_sent : forall y n d x op i a, nth_error (y_sent y) n = Some (d, x) -> decode x = JobMap op i a -> mtask y n = (i, a).
Proof. intros y n d x op i a S D. unfold mtask, job_of. now rewrite S, D. Qed.
Lemma knows_frame : forall y y' d dd dd' c, sinv may y -> nth_error (y_dirs y) d = Some dd -> frame y y' d (d_key dd) -> d_key dd' = d_key dd -> (d_open dd' = true -> d_open dd = true) ->
  knows y d dd c -> knows y' d dd' c.
Proof.
  intros y y' d dd dd' c SI D [FS FQ FA FB] K O H.
  assert (J : forall n x, nth_error (y_sent y) n = Some (d, x) -> job_of y' n = job_of y n) by (intros n x; now apply job_frame).
  assert (QJ : forall r, In r (queue_of y (d_key dd)) -> job_of y' (r_n r) = job_of y (r_n r)).
  { intros r I. apply filter_In in I. destruct I as [I Q]. apply Nat.eqb_eq in Q. destruct (queue_mine y d dd r SI D I Q) as (x & S). eauto. }
  destruct c as [op arr late en m|op inp x]; destruct H as [H1 H2].
  - split; [intros n x S; apply (H1 n); now apply FS|]. intros NB. destruct (H2 (FB NB)) as (mtr & ND & LO & R & M). exists mtr. split; [exact ND|]. split; [exact LO|]. split; [exact R|].
    intros O'. destruct (M (O O')) as (RS & ns & N1 & N2 & N3). rewrite K. split.
    + rewrite RS, FQ. apply map_ext_in. intros r I. unfold mres, mtask. now rewrite (QJ r I).
    + exists ns. split; [exact N1|]. split.
      * rewrite N2. erewrite map_ext_in; [reflexivity|]. intros n I. apply N3 in I. destruct I as [(x & S) _]. unfold mtask. now rewrite (J n x S).
      * intros n. rewrite N3. split; intros [(x & S) Z]; (split; [exists x; now apply FS|]).
        -- now rewrite (FA n x S).
        -- rewrite <- (FA n x); [exact Z | now apply FS].
  - split; [intros n p S; apply (H1 n); now apply FS|]. destruct H2 as (ftr & R & M). exists ftr. split; [exact R|]. intros O' RN. destruct (M (O O') RN) as [RS T]. rewrite K. split.
    + rewrite RS, FQ. apply map_ext_in. intros r I. unfold fres. now rewrite (QJ r I).
    + intros n p t S DC. apply (T n p t); [now apply FS | exact DC].
Qed.

(** *** What the directives' own steps do to their copies of the queues *)
Definition local_m (e : m_event (option nat)) : bool :=
  match e with
  | MEnv (PaAccept _) | MEnv (PaAcceptDropped _) | MTake | MWork _ _ | MLose _ | MLoseResult _ | MDupTask _ | MDupResult _ => false
  | _ => true
  end.
Lemma side_queues : forall (s : mstate nat nat nat) sd k r, m_tasks (side_done s sd k r) = m_tasks s /\ m_results (side_done s sd k r) = m_results s.
Proof. intros s sd k r. unfold side_done. destruct r; [cbn; auto | |]; destruct k as [|[|]|]; cbn; auto. Qed.
Lemma left_queues : forall (s : mstate nat nat nat) k p, m_tasks (left_done s k p) = m_tasks s /\ m_results (left_done s k p) = m_results s.
Proof. intros s k p. unfold left_done. destruct (pa_ret p) as [[| |]|]; rewrite ?(proj1 (side_queues _ _ _ _)), ?(proj2 (side_queues _ _ _ _)); cbn; auto. Qed.
Lemma pa_acc_same : forall (p p' : pall (N * nat) nat) e, pa_step p e = Some p' -> (match e with PaAccept _ | PaAcceptDropped _ => False | _ => True end) -> pa_acc p' = pa_acc p.
Proof.
  intros p p' e H N. unfold pa_step in H. destruct (pa_ret p).
  - destruct e; try discriminate. contradiction.
  - destruct e as [|i|i|i|i| | | |i|i ok|i]; try contradiction.
    + destruct (pa_open p && may_pull p); [|discriminate]. destruct (pa_arr p) as [|[x|x] l]; [destruct (pa_end p)| |]; injection H as <-; reflexivity.
    + destruct (nth_error (pa_futs p) i) as [[[n x] [| |]]|]; try discriminate. injection H as <-; reflexivity.
    + destruct (nth_error (pa_futs p) i) as [[[n x] [| |]]|]; try discriminate. injection H as <-; reflexivity.
    + destruct (nth_error (pa_futs p) i) as [[[n x] [|a [|]|]]|]; try discriminate. injection H as <-; reflexivity.
    + destruct (pick i (pa_futs p)) as [[[[n x] [| |[|]]] l]|]; try discriminate; injection H as <-; reflexivity.
    + destruct (pa_open p); [discriminate|]. destruct (pa_futs p); [|discriminate]. injection H as <-; reflexivity.
    + destruct (pa_late p); [discriminate|]. injection H as <-; reflexivity.
    + destruct (pa_late p); [|discriminate]. destruct (pa_end p); [discriminate|]. injection H as <-; reflexivity.
    + destruct (nth_error (pa_futs p) i) as [[[n x] [|a r|]]|]; try discriminate. destruct (negb ok || a); [|discriminate]. injection H as <-; reflexivity.
Qed.
Lemma pa_acc_more : forall (p p' : pall (N * nat) nat) e, pa_step p e = Some p' -> (match e with PaAccept _ | PaAcceptDropped _ => True | _ => False end) -> exists q, pa_acc p' = pa_acc p ++ [q].
Proof.
  intros p p' e H N. unfold pa_step in H. destruct (pa_ret p).
  - destruct e; try discriminate. destruct (pick i (pa_dropped p)) as [[q l]|]; [|discriminate]. injection H as <-. cbn. eauto.
  - destruct e as [|i|i|i|i| | | |i|i ok|i]; try contradiction; try discriminate.
    destruct (nth_error (pa_futs p) i) as [[[n x] [|[|] r|]]|]; try discriminate. injection H as <-. cbn. eauto.
Qed.
Lemma local_queues : forall op m e m', m_step (exec f op) m e = Some m' -> local_m e = true -> m_tasks m' = m_tasks m /\ m_results m' = m_results m.
Proof.
  intros op m e m' H L. destruct e as [|e| | | | | | | |e|ok|i o|i|i|i|i]; try discriminate; cbn [m_step] in H.
  - destruct (m_poll m); [|discriminate]. cbn [set_pa m_ldone m_rdone] in H. destruct (m_ldone m), (m_rdone m); injection H as <-; cbn; auto.
  - destruct (m_poll m) as [|[|] k]; try discriminate. destruct (m_sent m || negb (poll_event e)); [discriminate|].
    destruct e; try (destruct (m_closed m); try discriminate); try (destruct (pa_inreg (m_pa m)); try discriminate); destruct (pa_step (m_pa m) _) as [p|]; try discriminate; injection H as <-; try apply left_queues; cbn; auto.
  - destruct (m_poll m) as [|[|] k]; try discriminate. destruct (negb (m_sent m) && pa_idle (m_pa m)); [|discriminate]. injection H as <-. destruct k as [|[|]|]; cbn; auto.
  - destruct (m_poll m) as [|[|] k]; try discriminate. destruct (m_sent m); [|discriminate]. injection H as <-. destruct k as [|[|]|]; cbn; auto.
  - destruct (m_poll m) as [|[|] k]; try discriminate. destruct (m_then m); [discriminate|]. destruct (m_results m) eqn:Q; [|discriminate]. injection H as <-.
    destruct (_ && _); destruct k as [|[|]|]; cbn; auto.
  - destruct (m_poll m) as [|[|] k]; try discriminate. destruct (m_then m) as [[r [| |]]|]; try discriminate. injection H as <-. cbn. auto.
  - destruct (m_poll m) as [|[|] k]; try discriminate. destruct (m_then m) as [[r [| |]]|]; try discriminate. injection H as <-. destruct k as [|[|]|]; cbn; auto.
  - destruct (m_poll m) as [|[|] k]; try discriminate. destruct (m_then m) as [[r [| |[|]]]|]; try discriminate; injection H as <-; destruct k as [|[|]|]; cbn; auto.
  - destruct (poll_event e); [discriminate|]. destruct (pa_step (m_pa m) e) as [p|] eqn:P; [|discriminate]. injection H as <-. cbn [set_queues m_tasks m_results set_pa].
    rewrite (pa_acc_same _ _ _ P) by (destruct e; easy). rewrite skipn_all. cbn. rewrite app_nil_r. auto.
  - destruct (m_then m) as [[r [| |]]|]; try discriminate. injection H as <-. cbn. auto.
Qed.
Lemma accept_queues : forall op m e m', m_step (exec f op) m (MEnv e) = Some m' -> (match e with PaAccept _ | PaAcceptDropped _ => True | _ => False end) ->
  exists t, m_tasks m' = m_tasks m ++ [t] /\ m_results m' = m_results m.
Proof.
  intros op m e m' H N. cbn [m_step] in H. destruct (poll_event e); [discriminate|]. destruct (pa_step (m_pa m) e) as [p|] eqn:P; [|discriminate]. injection H as <-.
  destruct (pa_acc_more _ _ _ P N) as (q & Q). exists (snd q). cbn [set_queues m_tasks m_results set_pa]. rewrite Q, skipn_app, skipn_all, Nat.sub_diag. cbn. auto.
Qed.
Lemma take_queues : forall op m m', m_step (exec f op) m MTake = Some m' -> exists r, m_results m = r :: m_results m' /\ m_tasks m' = m_tasks m.
Proof.
  intros op m m' H. cbn [m_step] in H. destruct (m_poll m) as [|[|] k]; try discriminate. destruct (m_then m); [discriminate|]. destruct (m_results m) as [|r rs]; [discriminate|]. injection H as <-. exists r. cbn. auto.
Qed.
Lemma try_dispatch_queues : forall (s : fstate nat nat) it, f_tasks (try_dispatch s it) = f_tasks s /\ f_results (try_dispatch s it) = f_results s.
Proof. intros s it. unfold try_dispatch. destruct (cq_acquire _ _ _ _) as [[[l r]|] q]; cbn; auto. Qed.
Lemma on_result_queues : forall (s : fstate nat nat) r ack, f_tasks (on_result s r ack) = f_tasks s /\ f_results (on_result s r ack) = f_results s.
Proof.
  intros s r ack. unfold on_result. destruct r as [it|e]; [|cbn; auto]. destruct (f_ended s && is_final it (f_count s)).
  - destruct ack; [destruct (f_final s)|]; cbn; auto.
  - destruct ack; [apply try_dispatch_queues | cbn; apply try_dispatch_queues].
Qed.
Definition local_f (e : fevent (option nat)) : bool := match e with EvInput | EvInputEnd | EvPublish _ false | EvFinal _ => true | _ => false end.
Lemma local_f_queues : forall op x e x', fold_step (comb g op) (empty op) x e = Some x' -> local_f e = true -> f_tasks x' = f_tasks x /\ f_results x' = f_results x.
Proof.
  intros op x e x' H L. unfold fold_step in H. destruct (f_ret x) eqn:FR; [discriminate|]. destruct e as [| |i ok| | |ok| | | |]; try discriminate.
  - destruct (f_inp x) as [|[it|er] l]; try discriminate; injection H as <-; [|cbn; auto]. unfold on_input. destruct (_ <? 2)%N; [cbn; auto|].
    rewrite (proj1 (try_dispatch_queues _ _)), (proj2 (try_dispatch_queues _ _)). cbn. auto.
  - destruct (f_inp x); [|discriminate]. destruct (f_ended x); [discriminate|]. injection H as <-. unfold on_input_end.
    destruct (_ =? 0)%N; [cbn; auto|]. destruct (_ =? 1)%N; [|cbn; auto]. destruct (cq_dequeue _ _) as [[it|] q]; cbn; auto.
  - destruct ok; [discriminate|]. destruct (pick i (f_chan x)) as [[t c]|]; [|discriminate]. injection H as <-. cbn. auto.
  - destruct (f_final x); [|discriminate]. injection H as <-. cbn. auto.
Qed.
End Joint.
