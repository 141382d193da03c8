(** C47: [publish_all]. *)
From Coq Require Import List Arith NArith Bool Lia Permutation.
From Verif Require Import Base BaseFacts PublishModel PublishSpec PublishProofs.
Import ListNotations.
Open Scope nat_scope.

Lemma numbered_nth : forall (T : Type) (l : list T) n x, In (n, x) (numbered l) -> nth_error l n = Some x.
Proof.
  intros T l n x H. unfold numbered in H.
  assert (G : forall (l : list T) k, In (n, x) (combine (seq k (length l)) l) -> k <= n /\ nth_error l (n - k) = Some x).
  { clear. induction l as [|y l IH]; intros k H; cbn in H; [contradiction|]. destruct H as [H|H].
    - injection H as -> ->. split; [lia|]. now rewrite Nat.sub_diag.
    - destruct (IH (S k) H) as [L N]. split; [lia|]. replace (n - k) with (S (n - S k)) by lia. exact N. }
  destruct (G l 0 H) as [_ G2]. now rewrite Nat.sub_0_r in G2.
Qed.
Lemma numbered_nodup : forall (T : Type) (l : list T), NoDup (map fst (numbered l)).
Proof.
  intros T l. unfold numbered.
  assert (G : forall (l : list T) k, map fst (combine (seq k (length l)) l) = seq k (length l)).
  { clear. induction l as [|y l IH]; intros k; cbn; [reflexivity|]. now rewrite IH. }
  rewrite G. apply seq_NoDup.
Qed.
Lemma before_error_nth : forall (E T : Type) (xs : list T) (r : list (res E T)) n x,
  nth_error xs n = Some x -> nth_error (before_error (map ROk xs ++ r)) n = Some x.
Proof.
  intros E T xs r. induction xs as [|y xs IH]; intros n x H; [destruct n; discriminate|].
  destruct n as [|n]; cbn in *; [exact H|]. now apply IH.
Qed.

(** Every message that reaches the inner publisher is an item that comes before the first error of the stream, and no item is
    published twice, whatever fails and whatever is dropped. *)
Theorem C47_at_most_once : forall (T E : Type) limit (arr late : list (res E T)) ended tr s,
  run_from pa_step (pa_init limit arr late ended) tr = Some s ->
  NoDup (map fst (pa_acc s)) /\
  forall n x, In (n, x) (pa_acc s) -> nth_error (before_error (arr ++ late)) n = Some x.
Proof.
  intros T E limit arr late ended tr s H. destruct (pinv_run _ _ _ _ _ _ H) as [SP (rest & CT & _) _ _ _ _ _ _ _ _ _]. split.
  - pose proof (numbered_nodup T (pa_pulled s)) as D. apply (Permutation_map fst) in CT.
    rewrite map_app in CT. eapply NoDup_app_l. eapply Permutation_NoDup; eauto.
  - intros n x X. rewrite SP. apply before_error_nth. apply numbered_nth.
    eapply Permutation_in; [symmetry; exact CT|]. apply in_or_app. now left.
Qed.

(** When it returns Ok, the stream had no error, every publish succeeded, and every item was published exactly once. *)
Theorem C47_ok : forall (T E : Type) limit (arr late : list (res E T)) ended tr s,
  run_from pa_step (pa_init limit arr late ended) tr = Some s -> pa_ret s = Some PaOk ->
  exists xs, arr ++ late = map ROk xs /\ Permutation (pa_acc s) (numbered xs) /\ existsb is_failure tr = false.
Proof.
  intros T E limit arr late ended tr s H R. pose proof (pinv_run _ _ _ _ _ _ H) as I.
  destruct I as [SP (rest & CT & RS) _ _ EN _ _ RT _ OK _]. destruct (OK R) as (A & B & C). exists (pa_pulled s).
  rewrite R in SP. cbn in SP. rewrite A, (EN B) in SP. cbn in SP. rewrite app_nil_r in SP. split; [exact SP|].
  rewrite (RT ltac:(congruence)), C in CT. cbn [app] in CT. change (unacc []) with (@nil (nat * T)) in CT. cbn [app] in CT. split.
  - destruct rest as [|f rest]; [now rewrite app_nil_r in CT|].
    destruct (RS ltac:(discriminate)) as [X|(r & X & Y)]; [|congruence].
    rewrite (RT ltac:(congruence)) in X. discriminate X.
  - destruct (existsb is_failure tr) eqn:F; [|reflexivity]. exfalso.
    apply existsb_exists in F as (e & In1 & In2). apply in_split in In1 as (t1 & t2 & ->).
    apply run_from_app in H as (s1 & H1 & H2). cbn in H2. destruct (pa_step s1 e) as [s2|] eqn:S; [|discriminate].
    pose proof (bad_stays s1 e s2 S (or_intror (or_intror In2))) as B2.
    assert (G : existsb bad (pa_futs s) = true \/ (exists r, pa_ret s = Some r /\ r <> PaOk)).
    { refine (run_from_inv _ _ pa_step (fun s => existsb bad (pa_futs s) = true \/ (exists r, pa_ret s = Some r /\ r <> PaOk)) _ t2 s2 s B2 H2).
      intros u v w U V. apply (bad_stays u v w V). destruct U as [U|U]; auto. }
    destruct G as [G|(r & G1 & G2)]; [|congruence]. rewrite (RT ltac:(congruence)) in G. discriminate G.
Qed.

(** When it returns an error, that error comes from the stream or from a publish that failed. *)
Theorem C47_error : forall (T E : Type) limit (arr late : list (res E T)) ended tr s r,
  run_from pa_step (pa_init limit arr late ended) tr = Some s -> pa_ret s = Some r -> r <> PaOk ->
  (exists e xs rest, r = PaInput e /\ arr ++ late = map ROk xs ++ RErr e :: rest) \/
  (exists n t1 e t2 s1 i x f, r = PaPublish n /\ tr = t1 ++ e :: t2 /\
     run_from pa_step (pa_init limit arr late ended) t1 = Some s1 /\
     (e = PaRefuse i \/ e = PaReply i false) /\ nth_error (pa_futs s1) i = Some (n, x, f)).
Proof.
  intros T E limit arr late ended tr s r H R NR. destruct r as [|e|n]; [congruence| |].
  - left. destruct (pinv_run _ _ _ _ _ _ H) as [SP _ _ _ _ _ _ _ _ _ _]. rewrite R in SP. cbn in SP.
    exists e, (pa_pulled s), (pa_arr s ++ pa_late s). auto.
  - right. destruct (bad_origin tr (pa_init limit arr late ended) s eq_refl eq_refl H n (or_intror R)) as (t1 & e & t2 & s1 & i & x & f & X1 & X2 & X3 & X4 & X5).
    exists n, t1, e, t2, s1, i, x, f. auto.
Qed.

(** A failed publish or an error of the stream that was taken is never forgotten. *)
Theorem C47_failure_reported : forall (T E : Type) limit (arr late : list (res E T)) ended tr s,
  run_from pa_step (pa_init limit arr late ended) tr = Some s ->
  (existsb is_failure tr = true \/ exists e, In (RErr e) (arr ++ late)) -> pa_ret s <> Some PaOk.
Proof.
  intros T E limit arr late ended tr s H F R. destruct (C47_ok _ _ _ _ _ _ _ _ H R) as (xs & X1 & X2 & X3).
  destruct F as [F|(e & F)]; [congruence|]. rewrite X1 in F. apply in_map_iff in F as (x & F & _). discriminate.
Qed.

(** Never more publishes in progress than allowed (a limit of 0 means no limit, as in futures-util). *)
Theorem C47_limit : forall (T E : Type) l (arr late : list (res E T)) ended tr s,
  run_from pa_step (pa_init (Some (S l)) arr late ended) tr = Some s -> running (pa_futs s) <= S l.
Proof.
  intros T E l arr late ended tr s H. destruct (pinv_run _ _ _ _ _ _ H) as [_ _ LM _ _ _ _ _ _ _ _].
  assert (L : pa_limit s = Some (S l)).
  { refine (run_from_inv _ _ pa_step (fun s => pa_limit s = Some (S l)) _ tr (pa_init (Some (S l)) arr late ended) s eq_refl H).
    intros u v w U V. unfold pa_step in V.
    repeat match type of V with match ?x with _ => _ end = Some _ => destruct x eqn:?; try discriminate V end;
      injection V as <-; exact U. }
  specialize (LM _ L). unfold running.
  eapply Nat.le_trans; [|exact LM]. clear. induction (pa_futs s) as [|f fs IH]; cbn; [lia|]. destruct (snd f); cbn; lia.
Qed.

(** It returns, provided the stream ends and the inner publisher answers: until then some event other than an idle poll is possible,
    and there is room for only so many of those. *)
Theorem C47_returns : forall (T E : Type) limit (arr late : list (res E T)) ended tr s,
  run_from pa_step (pa_init limit arr late ended) tr = Some s ->
  length tr <= 8 * length arr + 9 * length late + 3 + idle_pulls (pa_init limit arr late ended) tr /\
  (pa_ret s = None -> exists e s', pa_step s e = Some s' /\ idle_pull s e = false).
Proof.
  intros T E limit arr late ended tr s H. split.
  - pose proof (mu_run _ tr _ s (pinv_init limit arr late ended) H) as M. eapply Nat.le_trans; [exact M|].
    apply Nat.add_le_mono_r. unfold mu. cbn [pa_init pa_ret pa_arr pa_late pa_futs pa_open pa_end pa_dropped map length].
    change (list_sum []) with 0. destruct (match late with [] => ended | _ => false end); lia.
  - intros R. apply (can_step (arr ++ late)); [eapply pinv_run; eauto|exact R].
Qed.

Print Assumptions C47_at_most_once.
Print Assumptions C47_ok.
Print Assumptions C47_error.
Print Assumptions C47_failure_reported.
Print Assumptions C47_limit.
Print Assumptions C47_returns.

(** Three items with a limit of two, completing out of order; the third is pulled when there is room. *)
Definition three : list (res nat nat) := [ROk 7; ROk 8; ROk 9].
Definition out_of_order : list pa_event :=
  [PaPull; PaStart 0; PaCheck 0; PaPull; PaStart 1; PaCheck 1; PaAccept 1; PaReply 1 true; PaFinish 1;
   PaPull; PaStart 1; PaAccept 1; PaReply 1 true; PaFinish 1; PaPull; PaAccept 0; PaReply 0 true; PaFinish 0; PaReturn].
Definition pa_after (s : pall nat nat) (tr : list pa_event) : pall nat nat := match run_from pa_step s tr with Some s' => s' | None => s end.
Example out_of_order_runs : run_from pa_step (pa_init (Some 2) three [] true) out_of_order = Some (pa_after (pa_init (Some 2) three [] true) out_of_order)
  /\ pa_ret (pa_after (pa_init (Some 2) three [] true) out_of_order) = Some PaOk
  /\ pa_acc (pa_after (pa_init (Some 2) three [] true) out_of_order) = [(1, 8); (2, 9); (0, 7)].
Proof. vm_compute. auto. Qed.
(** The limit holds back the third item. *)
Example third_waits : exists s, run_from pa_step (pa_init (Some 2) three [] true) [PaPull; PaStart 0; PaPull] = Some s /\ pa_step s PaPull = None.
Proof. eexists. split; vm_compute; reflexivity. Qed.
(** A failing publish while another one is under way: the other one may still take effect later. *)
Definition failing : list pa_event :=
  [PaPull; PaStart 0; PaCheck 0; PaPull; PaStart 1; PaReply 1 false; PaFinish 1; PaAcceptDropped 0].
Example failing_runs : run_from pa_step (pa_init (Some 10) three [] true) failing = Some (pa_after (pa_init (Some 10) three [] true) failing)
  /\ pa_ret (pa_after (pa_init (Some 10) three [] true) failing) = Some (PaPublish 1)
  /\ pa_acc (pa_after (pa_init (Some 10) three [] true) failing) = [(0, 7)].
Proof. vm_compute. auto. Qed.
(** An error in the stream stops the items behind it. *)
Example stops_at_error : run_from pa_step (pa_init None [ROk 7; RErr 1; ROk 9] [] true) [PaPull; PaStart 0; PaAccept 0; PaPull]
    = Some (pa_after (pa_init None [ROk 7; RErr 1; ROk 9] [] true) [PaPull; PaStart 0; PaAccept 0; PaPull])
  /\ pa_ret (pa_after (pa_init None [ROk 7; RErr 1; ROk 9] [] true) [PaPull; PaStart 0; PaAccept 0; PaPull]) = Some (PaInput 1).
Proof. vm_compute. auto. Qed.
