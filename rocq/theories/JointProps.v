(** C63, C64, C66: maps and folds run by the whole system. *)
From Coq Require Import List Arith NArith Lia Bool Permutation.
From Verif Require Import Base BaseFacts PublishModel PublishSpec MapModel MapSpec MapProps ContiguousModel FoldModel FoldSpec FoldProps RetryModel WorkerModel WorkerProps
  SystemModel SystemSpec SystemProofs SystemProps JointModel JointProofs JointInv.
Import ListNotations.
Open Scope nat_scope.

Section Props.
Variable f : nat -> nat -> nat.
Variable g : nat -> nat -> nat -> nat.
Variable empty : nat -> nat.

(** Directive [d] is a map, or a fold, in this state. *)
Definition map_at (s : joint) (d op : nat) (arr late : list (Base.res nat (N * nat))) (en : bool) (m : mstate nat nat nat) : Prop := nth_error (j_cl s) d = Some (CMap op arr late en m).
Definition fold_at (s : joint) (d op : nat) (inp : list (Base.res nat (N * nat))) (x : fstate nat nat) : Prop := nth_error (j_cl s) d = Some (CFold op inp x).
(** None of the tasks of [d] was given to a worker a second time. *)
Definition no_return (s : joint) (d : nat) : Prop := forall n x, dispatched (j_sys s) n d x -> returned n (j_sys s) = 0.

Lemma no_return_back : forall s d, no_return s d -> noback (j_sys s) d.
Proof. intros s d H n x S. exact (H n x S). Qed.
Lemma dir_of : forall s d c, jinv f g empty s -> nth_error (j_cl s) d = Some c -> exists dd, nth_error (y_dirs (j_sys s)) d = Some dd.
Proof.
  intros s d c (_ & LN & _) C. destruct (nth_error (y_dirs (j_sys s)) d) as [dd|] eqn:D; [eauto|]. exfalso. apply nth_error_None in D.
  assert (nth_error (j_cl s) d <> None) by congruence. apply nth_error_Some in H. lia.
Qed.

(** ** C66: each directive runs as if it were alone with a task queue, a result queue and workers. *)
(** A map's state is one that its own model reaches, with workers that execute each task at most once and lose nothing. *)
Theorem C66_map : forall tr s d op arr late en m, j_run f g empty tr = Some s -> map_at s d op arr late en m -> no_return s d ->
  exists mtr, no_dup mtr /\ (forall e, In e mtr -> loses e = false) /\ run_from (m_step (exec f op)) (m_init arr late en) mtr = Some m.
Proof.
  intros tr s d op arr late en m R C NR. pose proof (jinv_run f g empty tr s R) as J. destruct (dir_of _ _ _ J C) as (dd & D). destruct J as (_ & _ & KN).
  destruct (KN _ _ _ D C) as [_ K]. destruct (K (no_return_back _ _ NR)) as (mtr & A & B & X & _). eauto.
Qed.
(** A fold's state is one that its own model reaches, whatever comes back. *)
Theorem C66_fold : forall tr s d op inp x, j_run f g empty tr = Some s -> fold_at s d op inp x -> exists ftr, fold_run (comb g op) (empty op) inp ftr = Some x.
Proof.
  intros tr s d op inp x R C. pose proof (jinv_run f g empty tr s R) as J. destruct (dir_of _ _ _ J C) as (dd & D). destruct J as (_ & _ & KN).
  destruct (KN _ _ _ D C) as [_ (ftr & K & _)]. eauto.
Qed.
(** The system does not hold a map up: what its own model allows it to do next, it can do here. *)
Theorem C66_map_free : forall tr s d op arr late en m e m' dd, j_run f g empty tr = Some s -> map_at s d op arr late en m -> no_return s d -> nth_error (y_dirs (j_sys s)) d = Some dd -> d_open dd = true ->
  m_step (exec f op) m e = Some m' -> (match e with MWork _ _ | MLose _ | MLoseResult _ | MDupTask _ | MDupResult _ => False | _ => True end) ->
  exists s', j_step f g empty s (JOfMap d e) = Some s' /\ map_at s' d op arr late en m'.
Proof.
  intros tr s d op arr late en m e m' dd R C NR D O M N. pose proof (jinv_run f g empty tr s R) as J. destruct J as (SI & _ & KN). destruct (KN _ _ _ D C) as [_ K].
  destruct (K (no_return_back _ _ NR)) as (_ & _ & _ & _ & F). destruct (F O) as (RS & _). unfold map_at in *.
  assert (U : forall y', exists s', Some (mkJ y' (upd d (CMap op arr late en m') (j_cl s))) = Some s' /\ nth_error (j_cl s') d = Some (CMap op arr late en m')).
  { intros y'. eexists. split; [reflexivity|]. cbn. apply upd_nth_same. apply nth_error_Some. congruence. }
  assert (ACC : forall e0, e = MEnv e0 -> match e0 with PaAccept _ | PaAcceptDropped _ => True | _ => False end ->
    exists s', match skipn (length (m_tasks m)) (m_tasks m') with [(i, a)] => send f g (j_sys s) d (CMap op arr late en m') (j_cl s) (JobMap op i a) | _ => None end = Some s' /\ nth_error (j_cl s') d = Some (CMap op arr late en m')).
  { intros e0 -> A. destruct (accept_queues _ _ _ _ _ M A) as ([i a] & T & _). rewrite T, skipn_app, skipn_all, Nat.sub_diag. cbn [skipn app]. unfold send. cbn [y_step]. rewrite D. cbn [option_map]. apply U. }
  unfold j_step, open_dir. rewrite D, O, C, M. destruct e as [|e0| | | | | | | |e0|ok|i o|i|i|i|i]; try contradiction; try apply U.
  - unfold recv. destruct (take_queues _ _ _ _ M) as (q & Q & _). destruct (place_some (d_key dd) (y_results (j_sys s)) 0) as (j & P).
    { change (filter (on_key (d_key dd)) (y_results (j_sys s))) with (queue_of (j_sys s) (d_key dd)). destruct (queue_of (j_sys s) (d_key dd)); [rewrite Q in RS; discriminate | cbn; lia]. }
    rewrite P. destruct (place_pick _ _ _ _ P) as (r & rest & P1 & P2 & _). cbn [y_step]. rewrite D, P1, O, P2, Nat.eqb_refl. cbn [andb option_map]. apply U.
  - assert (P : place (d_key dd) 0 (y_results (j_sys s)) = None).
    { apply place_none. cbn [m_step] in M. destruct (m_poll m) as [|[|] k]; try discriminate. destruct (m_then m); [discriminate|]. destruct (m_results m); [|discriminate].
      symmetry in RS. apply map_eq_nil in RS. exact RS. }
    rewrite P. apply U.
  - destruct e0; try apply U; eapply ACC; eauto; exact Logic.I.
Qed.
Theorem C66_fold_free : forall tr s d op inp x e x' dd, j_run f g empty tr = Some s -> fold_at s d op inp x -> nth_error (y_dirs (j_sys s)) d = Some dd -> d_open dd = true ->
  fold_step (comb g op) (empty op) x e = Some x' -> (match e with EvWork _ _ | EvDropTask _ | EvDropResult _ | EvDupTask _ | EvDupResult _ => False | _ => True end) ->
  exists s', j_step f g empty s (JOfFold d e) = Some s' /\ fold_at s' d op inp x'.
Proof.
  intros tr s d op inp x e x' dd R C D O M N. pose proof (jinv_run f g empty tr s R) as J. destruct J as (SI & _ & KN). destruct (KN _ _ _ D C) as [_ (ftr & _ & K)]. unfold fold_at in *.
  assert (NR : f_ret x = None) by (unfold fold_step in M; destruct (f_ret x); [discriminate|reflexivity]). destruct (K O NR) as [RS _].
  assert (U : forall y', exists s', Some (mkJ y' (upd d (CFold op inp x') (j_cl s))) = Some s' /\ nth_error (j_cl s') d = Some (CFold op inp x')).
  { intros y'. eexists. split; [reflexivity|]. cbn. apply upd_nth_same. apply nth_error_Some. congruence. }
  unfold j_step, open_dir. rewrite D, O, C, M. destruct e as [| |i ok| |i ack| | | | |]; try contradiction; try apply U.
  - destruct ok; [|apply U]. unfold fold_step in M. rewrite NR in M. destruct (pick i (f_chan x)) as [[t c]|]; [|discriminate]. unfold send. cbn [y_step]. rewrite D. cbn [option_map]. apply U.
  - unfold fold_step in M. rewrite NR in M. destruct (2 <=? f_count x)%N; [|discriminate]. destruct (pick i (f_results x)) as [[r rs]|] eqn:P; [|discriminate].
    assert (LT : i < length (queue_of (j_sys s) (d_key dd))).
    { rewrite <- (map_length (fres (j_sys s))), <- RS. clear - P. revert i r rs P. induction (f_results x) as [|q l IH]; intros [|i] r rs P; cbn in *; try discriminate; [lia|].
      destruct (pick i l) as [[z r']|] eqn:Q; [|discriminate]. specialize (IH _ _ _ Q). lia. }
    destruct (place_some _ _ _ LT) as (j & PL). unfold recv. rewrite PL. destruct (place_pick _ _ _ _ PL) as (q & rest & P1 & P2 & _). cbn [y_step]. rewrite D, P1, O, P2, Nat.eqb_refl. cbn [andb option_map]. apply U.
Qed.

(** ** C63: what a map returns *)
Lemma exec_is : forall op o x y, exec f op o x = ROk y -> y = f op x.
Proof. intros op [e|] x y H; cbn in H; [discriminate | congruence]. Qed.
Lemma comb_is : forall op o a b c, comb g op o a b = ROk c -> c = g op a b.
Proof. intros op [e|] a b c H; cbn in H; [discriminate | congruence]. Qed.
Theorem C63_exactly_once : forall tr s d op arr late en m, j_run f g empty tr = Some s -> map_at s d op arr late en m -> no_return s d -> (N.of_nat (length (arr ++ late)) < usize_max)%N ->
  MapSpec.ended (m_log m) = true -> failed (m_log m) = false -> exists xs, arr ++ late = map ROk xs /\ Permutation (yielded (m_log m)) (map (image (f op)) xs).
Proof.
  intros tr s d op arr late en m R C NR SH EN FL. destruct (C66_map _ _ _ _ _ _ _ _ R C NR) as (mtr & ND & _ & X).
  exact (C12_exactly_once (exec f op) (f op) (exec_is op) arr late en mtr m SH ND X EN FL).
Qed.
(** Before it has ended, and also if it fails: nothing twice, and nothing but images of the inputs that came before the first error. *)
Theorem C63_never_more : forall tr s d op arr late en m, j_run f g empty tr = Some s -> map_at s d op arr late en m -> no_return s d -> (N.of_nat (length (arr ++ late)) < usize_max)%N ->
  exists rest, Permutation (map (image (f op)) (before_error (arr ++ late))) (yielded (m_log m) ++ rest).
Proof.
  intros tr s d op arr late en m R C NR SH. destruct (C66_map _ _ _ _ _ _ _ _ R C NR) as (mtr & ND & _ & X).
  exact (C12_never_more (exec f op) (f op) (exec_is op) arr late en mtr m SH ND X).
Qed.

(** ** C64: what a fold returns, whatever crashes and comes back *)
Theorem C64_fold : forall tr s d op base l arr x v, j_run f g empty tr = Some s -> fold_at s d op (map ROk arr) x ->
  (forall a b c, g op a (g op b c) = g op (g op a b) c) -> (forall a, g op (empty op) a = a) -> (base + N.of_nat (length l) <= usize_max)%N -> Permutation arr (index_from base l) ->
  f_ret x = Some (RetOk v) -> v = fold_left (g op) l (empty op).
Proof.
  intros tr s d op base l arr x v R C HA HE B P RT. destruct (C66_fold _ _ _ _ _ _ R C) as (ftr & X).
  exact (C01_fold_associative _ _ _ (comb g op) (g op) (empty op) base l arr ftr x v (comb_is op) HA HE B P X RT).
Qed.

Lemma index_map : forall (A B : Type) (h : A -> B) l b, index_from b (map h l) = map (image h) (index_from b l).
Proof. intros A B h l. induction l as [|x l IH]; intros b; [reflexivity|]. cbn. now rewrite IH. Qed.
Lemma map_ok_inj : forall (l l' : list (N * nat)), map (@ROk nat (N * nat)) l = map ROk l' -> l = l'.
Proof. induction l as [|x l IH]; intros [|y l'] H; cbn in H; try discriminate; [reflexivity|]. injection H as -> H. now rewrite (IH _ H). Qed.
End Props.

(** *** Runs *)
Definition inc (_ a : nat) : nat := S a.
Definition plus (_ a b : nat) : nat := a + b.
Definition zero (_ : nat) : nat := 0.
Definition m1 (d : nat) (l : list (m_event (option nat))) : list j_event := map (JOfMap d) l.
Definition f1 (d : nat) (l : list (fevent (option nat))) : list j_event := map (JOfFold d) l.
Definition sys1 (l : list y_event) : list j_event := map JSys l.
Definition two_in : list (Base.res nat (N * nat)) := [ROk (0%N, 0); ROk (1%N, 1)].
Definition publish_two : list (m_event (option nat)) :=
  [MPoll; MLeft PaPull; MLeft PaPull; MLeft PaPull; MLeft (PaStart 0); MEnv (PaAccept 0); MLeft (PaStart 1); MEnv (PaAccept 1);
   MEnv (PaReply 0 true); MEnv (PaReply 1 true); MLeft (PaFinish 1); MLeft (PaFinish 0); MLeft PaReturn; MEmpty].
Definition read_two : list (m_event (option nat)) :=
  [MPoll; MTake; MAckStart; MAckReply true; MAckFinish; MPoll; MTake; MAckStart; MAckReply true; MAckFinish; MPoll; MEmpty].
(** A map of two items and a fold of its results; two workers; the worker of the fold's task publishes its result and crashes, the task comes back and is executed again. *)
Definition map_then_fold : list j_event :=
  [JMap 0 7 two_in [] true] ++ sys1 [YStart 20; YStart 21] ++ m1 0 publish_two ++
  sys1 ([YTake 0 1; YTake 1 0] ++ work 0 (OcOk 2) (resolve 0) ++ work 1 (OcOk 1) (resolve 0)) ++ m1 0 read_two ++
  [JFold 0 8 [ROk (1%N, 2); ROk (0%N, 1)]] ++ f1 1 [EvInput; EvInput; EvPublish 0 true; EvInputEnd] ++
  sys1 ([YTake 0 0] ++ work 0 (OcOk 3) [WDeclare true; WEffect SResult] ++ [YBack 0 1; YTake 1 0] ++ work 1 (OcOk 3) (resolve 0)) ++
  f1 1 [EvResult 0 true; EvFinal true].
Definition show_map (s : joint) (d : nat) := match nth_error (j_cl s) d with Some (CMap op arr late en m) => Some (op, arr, late, en, yielded (m_log m), MapSpec.ended (m_log m), failed (m_log m)) | _ => None end.
Definition show_fold (s : joint) (d : nat) := match nth_error (j_cl s) d with Some (CFold op inp x) => Some (op, inp, f_ret x) | _ => None end.
Definition show_back (s : joint) : list (option nat) := map (fun p => option_map fst (nth_error (y_sent (j_sys s)) (snd p))) (y_back (j_sys s)).
Lemma show_no_return : forall s d, forallb (fun o => match o with Some d' => negb (Nat.eqb d' d) | None => true end) (show_back s) = true -> no_return s d.
Proof.
  intros s d H n x D. unfold returned. destruct (filter _ (y_back (j_sys s))) as [|p l] eqn:F; [reflexivity|]. exfalso.
  assert (I : In p (filter (fun p => Nat.eqb (snd p) n) (y_back (j_sys s)))) by (rewrite F; now left). apply filter_In in I. destruct I as [I E]. apply Nat.eqb_eq in E.
  rewrite forallb_forall in H. specialize (H (option_map fst (nth_error (y_sent (j_sys s)) (snd p)))). unfold dispatched in D. rewrite E, D in H. cbn in H. rewrite Nat.eqb_refl in H.
  discriminate H. unfold show_back. apply in_map_iff. exists p. rewrite E, D. auto.
Qed.
Lemma shown_run : forall tr r, option_map (fun s => (show_map s 0, show_fold s 1, show_back s)) (j_run inc plus zero tr) = Some r ->
  exists s, j_run inc plus zero tr = Some s /\ (show_map s 0, show_fold s 1, show_back s) = r.
Proof. intros tr r H. destruct (j_run inc plus zero tr) as [s|]; [|discriminate]. exists s. split; [reflexivity|]. now injection H. Qed.
Example C63_example : exists s m x, j_run inc plus zero map_then_fold = Some s /\ map_at s 0 0 two_in [] true m /\ fold_at s 1 0 (map ROk [(1%N, 2); (0%N, 1)]) x /\
  no_return s 0 /\ yielded (m_log m) = [(0%N, 1); (1%N, 2)] /\ MapSpec.ended (m_log m) = true /\ failed (m_log m) = false /\ f_ret x = Some (RetOk 3) /\ show_back s = [Some 1].
Proof.
  destruct (shown_run map_then_fold (Some (0, two_in, [], true, [(0%N, 1); (1%N, 2)], true, false), Some (0, map ROk [(1%N, 2); (0%N, 1)], Some (RetOk 3)), [Some 1])) as (s & R & Q); [vm_compute; reflexivity|].
  injection Q as Q1 Q2 Q3. exists s. unfold show_map in Q1. unfold show_fold in Q2. destruct (nth_error (j_cl s) 0) as [[op arr late en m|]|] eqn:C1; try discriminate Q1.
  destruct (nth_error (j_cl s) 1) as [[|op' inp x]|] eqn:C2; try discriminate Q2. injection Q1 as -> -> -> -> Y1 Y2 Y3. injection Q2 as -> -> X. exists m, x.
  split; [exact R|]. split; [exact C1|]. split; [exact C2|]. split; [apply show_no_return; now rewrite Q3|]. auto.
Qed.
(** C63 needs [no_return]: a worker publishes its result and crashes, the task comes back and is executed again: one input's image is returned twice, the other's not at all, and the
    stream ends without an error. *)
Definition map_twice : list j_event :=
  [JMap 0 7 two_in [] true] ++ sys1 [YStart 20; YStart 21] ++ m1 0 publish_two ++
  sys1 ([YTake 0 0] ++ work 0 (OcOk 1) [WDeclare true; WEffect SResult] ++ [YBack 0 0; YTake 1 1] ++ work 1 (OcOk 1) (resolve 0)) ++ m1 0 read_two.
Theorem C63_needs_no_return : exists tr s m, j_run inc plus zero tr = Some s /\ map_at s 0 0 two_in [] true m /\ MapSpec.ended (m_log m) = true /\ failed (m_log m) = false /\
  yielded (m_log m) = [(0%N, 1); (0%N, 1)].
Proof. exists map_twice. eexists. eexists. split; [vm_compute; reflexivity|]. split; [reflexivity|]. repeat split. Qed.
Print Assumptions C66_map.
Print Assumptions C66_fold.
Print Assumptions C66_map_free.
Print Assumptions C66_fold_free.
Print Assumptions C63_exactly_once.
Print Assumptions C63_never_more.
Print Assumptions C63_needs_no_return.
Print Assumptions C64_fold.
