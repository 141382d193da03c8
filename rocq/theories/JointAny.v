(** C65: a fold of what a map returned, whatever crashes and comes back. *)
From Coq Require Import List Arith NArith Lia Bool Permutation.
From Verif Require Import Base BaseFacts PublishModel MapModel MapSpec MapCount ContiguousModel FoldModel FoldSpec FoldProofs FoldAny RetryModel WorkerModel WorkerProps
  SystemModel SystemSpec SystemProofs SystemProps JointModel JointProofs JointInv JointProps JointProv.
Import ListNotations.
Open Scope nat_scope.

Section Any.
Variable f : nat -> nat -> nat.
Variable g : nat -> nat -> nat -> nat.
Variable empty : nat -> nat.

Definition counted (c : client) : Prop := match c with CMap op arr late en m => cinv (arr ++ late) m | CFold _ _ _ => True end.
Lemma counted_upd : forall cl d c, Forall counted cl -> counted c -> Forall counted (upd d c cl).
Proof.
  intros cl. induction cl as [|x cl IH]; intros d c F C; [destruct d; constructor|]. inversion F; subst. destruct d; cbn; constructor; auto.
Qed.
Lemma counted_answer : forall c j o, counted c -> counted (answer c j o).
Proof.
  intros [op arr late en m|op inp x] [op' i a|op' t] o C; cbn in *; auto; [|now destruct (f_ret x)].
  apply (cinv_queues _ _ _ C). repeat split; cbn; eauto.
Qed.
Lemma counted_arrive : forall y cl r, Forall counted cl -> Forall counted (arrive y cl r).
Proof.
  intros y cl r F. unfold arrive. destruct (nth_error (y_sent y) (r_n r)) as [[d x]|]; [|exact F]. destruct (nth_error (y_dirs y) d) as [dd|]; [|exact F].
  destruct (nth_error cl d) as [c|] eqn:C; [|exact F]. destruct (d_open dd); [|exact F]. apply counted_upd; [exact F|]. apply counted_answer.
  apply nth_error_In in C. rewrite Forall_forall in F. auto.
Qed.
Lemma counted_step : forall s e s', Forall counted (j_cl s) -> j_step f g empty s e = Some s' -> Forall counted (j_cl s').
Proof.
  intros s e s' F H.
  assert (OM : forall (o : option sys) cl, Forall counted cl -> option_map (fun y' => mkJ y' cl) o = Some s' -> Forall counted (j_cl s')).
  { intros [y|] cl X Q; [|discriminate]. injection Q as <-. exact X. }
  destruct e as [op k arr late en|op k inp|d e|d e|e]; cbn [j_step] in H.
  - apply OM in H; [exact H|]. apply Forall_app. split; [exact F|]. constructor; [|constructor]. apply cinv_init.
  - apply OM in H; [exact H|]. apply Forall_app. split; [exact F|]. constructor; [exact Logic.I|constructor].
  - destruct (open_dir (j_sys s) d) as [dd|]; [|discriminate]. destruct (nth_error (j_cl s) d) as [[op arr late en m|op inp x]|] eqn:C; try discriminate.
    destruct (m_step (exec f op) m e) as [m'|] eqn:M; [|discriminate].
    assert (U : Forall counted (upd d (CMap op arr late en m') (j_cl s))).
    { apply counted_upd; [exact F|]. cbn. apply (cinv_step (exec f op) _ m e); [|exact M]. apply nth_error_In in C. rewrite Forall_forall in F. exact (F _ C). }
    assert (SN : forall j, send f g (j_sys s) d (CMap op arr late en m') (j_cl s) j = Some s' -> Forall counted (j_cl s')) by (intros j; apply OM; exact U).
    assert (RC : forall i, recv f g (j_sys s) d dd (CMap op arr late en m') (j_cl s) i = Some s' -> Forall counted (j_cl s')).
    { intros i. unfold recv. destruct (place (d_key dd) i (y_results (j_sys s))); [|discriminate]. apply OM. exact U. }
    assert (LO : Some (mkJ (j_sys s) (upd d (CMap op arr late en m') (j_cl s))) = Some s' -> Forall counted (j_cl s')) by (intros Q; injection Q as <-; exact U).
    destruct e as [|e| | | | | | | |e|ok|i o|i|i|i|i]; try discriminate; auto.
    + eauto.
    + destruct (place (d_key dd) 0 (y_results (j_sys s))); [discriminate|]. auto.
    + destruct e; auto; destruct (skipn (length (m_tasks m)) (m_tasks m')) as [|[i' a] [|]]; try discriminate; eauto.
  - destruct (open_dir (j_sys s) d) as [dd|]; [|discriminate]. destruct (nth_error (j_cl s) d) as [[op arr late en m|op inp x]|] eqn:C; try discriminate.
    destruct (fold_step (comb g op) (empty op) x e) as [x'|] eqn:M; [|discriminate].
    assert (U : Forall counted (upd d (CFold op inp x') (j_cl s))) by (apply counted_upd; [exact F|exact Logic.I]).
    assert (LO : Some (mkJ (j_sys s) (upd d (CFold op inp x') (j_cl s))) = Some s' -> Forall counted (j_cl s')) by (intros Q; injection Q as <-; exact U).
    destruct e as [| |i ok| |i ack| | | | |]; try discriminate; auto.
    + destruct ok; [|auto]. destruct (pick i (f_chan x)) as [[t c]|]; [|discriminate]. revert H. apply OM. exact U.
    + revert H. unfold recv. destruct (place (d_key dd) i (y_results (j_sys s))); [|discriminate]. apply OM. exact U.
  - destruct e as [k|d x|ident|w j|w e|w i|d j|d]; try discriminate; try (revert H; apply OM; exact F).
    destruct (y_step (may f g) (j_sys s) (YWork w e)) as [y'|]; [|discriminate]. injection H as <-. cbn [j_cl]. clear OM.
    generalize (skipn (length (y_results (j_sys s))) (y_results y')). intros l. generalize dependent (j_cl s). clear. induction l as [|r l IH]; intros cl F; [exact F|]. cbn [fold_left]. apply IH. now apply counted_arrive.
Qed.
Lemma counted_run : forall tr s, j_run f g empty tr = Some s -> Forall counted (j_cl s).
Proof. intros tr s. refine (run_from_inv _ _ (j_step f g empty) (fun s => Forall counted (j_cl s)) counted_step tr j_init s _). constructor. Qed.

(** C65. A fold over the items of a map that ended without an error, in any order: if it returns a value, that is the sequential fold of the images, whatever
    was lost, came back or was executed several times. *)
Theorem C65_map_fold : forall tr s d d' opm opf base l inputs arr late en m items x v, j_run f g empty tr = Some s -> map_at s d opm arr late en m -> fold_at s d' opf (map ROk items) x ->
  Permutation inputs (index_from base l) -> arr ++ late = map ROk inputs -> (base + N.of_nat (length l) < usize_max)%N ->
  (forall a b c, g opf a (g opf b c) = g opf (g opf a b) c) -> (forall a, g opf (empty opf) a = a) ->
  MapSpec.ended (m_log m) = true -> failed (m_log m) = false -> Permutation items (yielded (m_log m)) -> f_ret x = Some (RetOk v) ->
  v = fold_left (g opf) (map (f opm) l) (empty opf).
Proof.
  intros tr s d d' opm opf base l inputs arr late en m items x v R CM CF P IN B HA HE EN FL IT RT.
  assert (LI : length inputs = length l) by (rewrite (Permutation_length P); apply index_from_length).
  assert (SUB : incl items (map (image (f opm)) inputs)).
  { intros [i y] I. apply (Permutation_in _ IT) in I. destruct (C67_items f g empty tr s d opm arr late en m i y R CM I) as (a & IA & ->).
    rewrite IN in IA. apply in_map_iff in IA. destruct IA as (p & Q & IA). injection Q as ->. apply in_map_iff. exists (i, a). auto. }
  assert (SM : forall i a, In (i, a) items -> (i <= usize_max)%N).
  { intros i a I. apply SUB, in_map_iff in I. destruct I as ([i' a'] & Q & I). injection Q as -> _. apply (Permutation_in _ P), index_from_in in I. destruct I as [I1 I2].
    assert (X : nth_error l (N.to_nat (i - base)) <> None) by congruence. apply nth_error_Some in X. lia. }
  assert (CN : congr (N.of_nat (length items)) (N.of_nat (length l))).
  { assert (C : counted (CMap opm arr late en m)). { pose proof (counted_run tr s R) as F. rewrite Forall_forall in F. apply F. eapply nth_error_In; exact CM. }
    destruct (cinv_ended _ _ C EN FL) as (xs & XS & C1). rewrite IN in XS. apply map_ok_inj in XS. subst xs. rewrite (Permutation_length IT), <- LI. exact C1. }
  assert (MX : usize_max = (usize_mod - 1)%N) by reflexivity. assert (MZ : usize_mod <> 0%N) by exact mod_nz.
  destruct (C66_fold f g empty tr s d' opf (map ROk items) x R CF) as (ftr & X).
  assert (ND : NoDup items).
  { destruct (fold_sound nat nat (option nat) (comb g opf) (empty opf) items SM ftr x v X RT) as [[-> _]|(b' & l' & P' & _)]; [constructor|].
    symmetry in P'. apply (Permutation_NoDup P'). apply index_from_nodup. }
  assert (LE : length items <= length l). { rewrite <- LI, <- (map_length (image (f opm)) inputs). now apply NoDup_incl_length. }
  assert (EQ : length items = length l). { unfold congr in CN. rewrite !N.mod_small in CN by lia. lia. }
  apply (C64_fold f g empty tr s d' opf base (map (f opm) l) items x v R CF HA HE); [rewrite map_length; lia| |exact RT].
  rewrite index_map. transitivity (map (image (f opm)) inputs); [|now apply Permutation_map].
  apply NoDup_Permutation_bis; [exact ND| |exact SUB]. rewrite map_length. lia.
Qed.
End Any.
Print Assumptions C65_map_fold.

(** A map of two items and a fold of its results. The worker of the map's first task publishes its result and crashes; the task comes back and is executed again
    when the map has ended. *)
Definition again_then_fold : list j_event :=
  [JMap 0 7 two_in [] true] ++ sys1 [YStart 20; YStart 21] ++ m1 0 publish_two ++
  sys1 ([YTake 0 0] ++ work 0 (OcOk 1) [WDeclare true; WEffect SResult] ++ [YTake 1 0] ++ work 1 (OcOk 2) (resolve 0) ++ [YBack 0 0]) ++ m1 0 read_two ++
  sys1 ([YTake 1 0] ++ work 1 (OcOk 1) (resolve 0)) ++
  [JFold 0 8 [ROk (1%N, 2); ROk (0%N, 1)]] ++ f1 1 [EvInput; EvInput; EvPublish 0 true; EvInputEnd] ++
  sys1 ([YTake 1 0] ++ work 1 (OcOk 3) (resolve 0)) ++ f1 1 [EvResult 0 true; EvFinal true].
Example C65_example : exists s m x, j_run inc plus zero again_then_fold = Some s /\ map_at s 0 0 two_in [] true m /\ fold_at s 1 0 (map ROk [(1%N, 2); (0%N, 1)]) x /\
  yielded (m_log m) = [(1%N, 2); (0%N, 1)] /\ MapSpec.ended (m_log m) = true /\ failed (m_log m) = false /\ f_ret x = Some (RetOk 3) /\ show_back s = [Some 0].
Proof.
  destruct (shown_run again_then_fold (Some (0, two_in, [], true, [(1%N, 2); (0%N, 1)], true, false), Some (0, map ROk [(1%N, 2); (0%N, 1)], Some (RetOk 3)), [Some 0])) as (s & R & Q); [vm_compute; reflexivity|].
  injection Q as Q1 Q2 Q3. exists s. unfold show_map in Q1. unfold show_fold in Q2. destruct (nth_error (j_cl s) 0) as [[op arr late en m|]|] eqn:C1; try discriminate Q1.
  destruct (nth_error (j_cl s) 1) as [[|op' inp x]|] eqn:C2; try discriminate Q2. injection Q1 as -> -> -> -> Y1 Y2 Y3. injection Q2 as -> -> X. exists m, x.
  split; [exact R|]. split; [exact C1|]. split; [exact C2|]. auto.
Qed.
