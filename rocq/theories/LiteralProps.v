(** C48: mapping a literal. *)
From Coq Require Import List Arith NArith Bool Lia.
From Verif Require Import Base BaseFacts CoordModel LiteralModel.
Import ListNotations.
Open Scope nat_scope.

(** The environment restricted to no faults. *)
Definition l_nofault {E O : Type} (e : levent E O) : bool :=
  match e with
  | LLease (Some _) | LPublished (Some _) | LClosed (Some _) | LAcked (Some _)
  | LLoseTask _ | LLoseResult _ | LDupTask _ | LDupResult _ | LStreamEnds => false
  | _ => true
  end.
(** Everything but a poll that finds nothing. *)
Definition l_progress {E O : Type} (e : levent E O) : bool := match e with LEmpty | LOver => false | _ => true end.
(** Nothing that helps can happen any more. *)
Definition l_settled {A B E O : Type} (exec : O -> A -> res E B) (x : A) (s : lstate A B E) : Prop :=
  forall e, l_nofault e = true -> l_progress e = true -> l_step exec x s e = None.

Section Props.
Context {A B E O : Type}.
Variable exec : O -> A -> res E B.
Variable x : A.
Implicit Types s : lstate A B E.

Definition answer (r : res E B) : Prop := exists o, exec o x = r.

(** What may be in the queues, and the counter. *)
Definition linv s : Prop :=
  (forall a, In a (l_tasks s) -> a = x) /\ (forall r, In r (l_results s) -> answer r) /\
  match l_phase s with
  | LpLease => l_pending s = 0%N /\ l_closed s = false
  | LpPublish | LpNext | LpClose => l_pending s = 1%N
  | LpAck r => answer r /\ l_pending s = 1%N
  | LpDone (ROk y) => answer (ROk y)
  | LpDone (RErr (LeOp e)) => answer (RErr e)
  | LpDone (RErr LeNoResults) | LpDone (RErr LeClosed) => False
  | LpDone (RErr _) => True
  end.

Lemma linv_step : forall s e s', linv s -> l_step exec x s e = Some s' -> linv s'.
Proof.
  intros s e s' (T & R & P) H. unfold linv.
  destruct s as [ph pe cl ac ts rs ov]. cbn [l_phase l_pending l_closed l_accepted l_tasks l_results l_over] in *.
  assert (ENV : forall i o, match pick i ts with Some (a, rest) => Some (l_env (mkL ph pe cl ac ts rs ov) rest (rs ++ [exec o a])) | None => None end = Some s' ->
     linv s').
  { intros i o Q. destruct (pick i ts) as [[a rest]|] eqn:K; [|discriminate]. injection Q as <-. unfold linv, l_env; cbn.
    split; [intros b Bi; apply T; eapply pick_in_rest; eauto|]. split; [|exact P]. intros r I. apply in_app_or in I. destruct I as [I|[<-|[]]]; [auto|].
    rewrite (T a); [now exists o|]. eapply pick_in; eauto. }
  destruct e as [r| |r|r|i| | |r|i o|i|i|i|i|]; cbn [l_step l_phase l_tasks l_results l_over l_accepted l_closed l_pending] in H.
  - destruct ph, r; try discriminate; destruct P as [P Q]; [|rewrite Q in H]; injection H as <-; unfold linv, l_go; cbn; repeat split; auto. rewrite P. reflexivity.
  - destruct ph; try discriminate. destruct ac; [discriminate|]. injection H as <-. cbn. repeat split; auto. intros a [<-|I]; auto.
  - destruct ph, r; try discriminate; [|destruct ac; [|discriminate]]; injection H as <-; unfold l_go; cbn; auto.
  - destruct ph, r; try discriminate; injection H as <-; unfold l_go; cbn; auto.
  - destruct ph; try discriminate. destruct ov; [discriminate|]. destruct (pick i rs) as [[r rest]|] eqn:K; [|discriminate]. injection H as <-. cbn.
    split; [auto|]. split; [intros q I; apply R; eapply pick_in_rest; eauto|]. split; [apply R; eapply pick_in; eauto|auto].
  - destruct ph; try discriminate. destruct ov; [discriminate|]. destruct rs; [|discriminate]. rewrite P in H. cbn in H. rewrite andb_false_r in H. cbn in H.
    injection H as <-. cbn. auto.
  - destruct ph; try discriminate. destruct ov; [|discriminate]. rewrite P in H. cbn in H. injection H as <-. cbn. auto.
  - destruct r, ph as [| | | |q|]; try discriminate; injection H as <-; unfold l_go; cbn; [auto|]. destruct P as [P _]. destruct q; auto.
  - exact (ENV i o H).
  - destruct (pick i ts) as [[a rest]|] eqn:K; [|discriminate]. injection H as <-. cbn.
    split; [intros b I; apply T; eapply pick_in_rest; eauto|auto].
  - destruct (pick i rs) as [[a rest]|] eqn:K; [|discriminate]. injection H as <-. cbn.
    split; [auto|]. split; [intros b I; apply R; eapply pick_in_rest; eauto|auto].
  - destruct (nth_error ts i) eqn:K; [|discriminate]. injection H as <-. cbn. split; [|auto]. intros b [<-|I]; [|auto]. apply T. eapply nth_error_In; eauto.
  - destruct (nth_error rs i) eqn:K; [|discriminate]. injection H as <-. cbn. split; [auto|]. split; [|auto]. intros b [<-|I]; [|auto]. apply R. eapply nth_error_In; eauto.
  - destruct ov; [discriminate|]. injection H as <-. cbn. auto.
Qed.

Lemma linv_run : forall tr s, run_from (l_step exec x) l_init tr = Some s -> linv s.
Proof.
  intros tr s H. apply (run_from_inv _ _ (l_step exec x) linv linv_step tr l_init s); [|exact H].
  unfold linv, l_init; cbn. repeat split; auto; contradiction.
Qed.

(** With every fault of the environment: an Ok result is what the operation gave on the literal, an operation error is one that the
    operation gave on the literal, and neither "No results received" nor a closed publisher is ever the answer. *)
Theorem C48_literal_map : forall tr s r, run_from (l_step exec x) l_init tr = Some s -> l_ret s = Some r ->
  match r with
  | ROk y => exists o, exec o x = ROk y
  | RErr (LeOp e) => exists o, exec o x = RErr e
  | RErr LeNoResults | RErr LeClosed => False
  | RErr _ => exists e, In (LLease (Some e)) tr \/ In (LPublished (Some e)) tr \/ In (LClosed (Some e)) tr \/ In (LAcked (Some e)) tr
  end.
Proof.
  intros tr s r H RE. pose proof (linv_run tr s H) as (_ & _ & P). unfold l_ret in RE.
  destruct (l_phase s) as [| | | | |q] eqn:PH; try discriminate. injection RE as ->.
  assert (F : forall e, (r = RErr (LeLease e) -> In (LLease (Some e)) tr) /\ (r = RErr (LePublish e) -> In (LPublished (Some e)) tr) /\
      (r = RErr (LeClose e) -> In (LClosed (Some e)) tr) /\ (r = RErr (LeAck e) -> In (LAcked (Some e)) tr)).
  { intros e.
    assert (G : forall tr s0 s, run_from (l_step exec x) s0 tr = Some s -> forall q, l_phase s = LpDone q -> l_phase s0 <> LpDone q ->
        (q = RErr (LeLease e) -> In (LLease (Some e)) tr) /\ (q = RErr (LePublish e) -> In (LPublished (Some e)) tr) /\
        (q = RErr (LeClose e) -> In (LClosed (Some e)) tr) /\ (q = RErr (LeAck e) -> In (LAcked (Some e)) tr)).
    { clear. induction tr as [|ev tr IH]; intros s0 s H q PH N0; cbn in H.
      - injection H as <-. contradiction.
      - destruct (l_step exec x s0 ev) as [s1|] eqn:ST; [|discriminate].
        assert (D : l_phase s1 = LpDone q \/ l_phase s1 <> LpDone q).
        { destruct (l_phase s1) as [| | | | |q1] eqn:P1; try (right; discriminate). 
          (* a finished future stays finished with the same value *)
          left. assert (K : forall tr s2 s, run_from (l_step exec x) s2 tr = Some s -> forall q2, l_phase s2 = LpDone q2 -> l_phase s = LpDone q2).
          { clear. induction tr as [|ev tr IH]; intros s2 s H q2 P2; cbn in H; [now injection H as <-|].
            destruct (l_step exec x s2 ev) as [s3|] eqn:ST; [|discriminate]. apply (IH s3 s H).
            unfold l_step in ST. rewrite P2 in ST. destruct ev as [r| |r|r|i| | |r|i o|i|i|i|i|]; try discriminate;
              try (destruct r; discriminate);
              try (destruct (pick i _) as [[? ?]|]; [|discriminate]; injection ST as <-; exact P2);
              try (destruct (nth_error _ i); [|discriminate]; injection ST as <-; exact P2).
            destruct (l_over s2); [discriminate|]. injection ST as <-. reflexivity. }
          rewrite (K tr s1 s H q1 P1) in PH. congruence. }
        destruct D as [D|D].
        + clear IH H PH. unfold l_step in ST. destruct s0 as [ph pe cl ac ts rs ov]. cbn [l_phase l_over l_accepted l_results l_tasks l_closed l_pending] in *.
          destruct ev as [r| |r|r|i| | |r|i o|i|i|i|i|]; destruct ph; try discriminate;
          repeat match goal with
          | K : match ?d with _ => _ end = Some _ |- _ => destruct d eqn:?; try discriminate
          end; injection ST as <-; unfold l_go, l_env in D; cbn in D; try discriminate; try contradiction; injection D as <-;
          repeat split; intros Q; try discriminate; try (injection Q as <-; now left);
          destruct r0; discriminate.
        + destruct (IH s1 s H q PH D) as (Q1 & Q2 & Q3 & Q4). repeat split; intros Q; right; auto. }
    exact (G tr l_init s H r PH ltac:(discriminate)). }
  destruct r as [y|[e| |e|e|e|e|]]; cbn in P; auto; exists e; destruct (F e) as (F1 & F2 & F3 & F4); auto.
Qed.

(** Fault-free runs: once nothing more can happen, the directive has returned the operation's value or its error. *)
Definition lgood s : Prop :=
  l_over s = false /\
  match l_phase s with
  | LpLease => l_accepted s = false
  | LpPublish => l_accepted s = false \/ l_tasks s <> [] \/ l_results s <> []
  | LpClose | LpNext => l_tasks s <> [] \/ l_results s <> []
  | LpAck _ => True
  | LpDone (ROk _) | LpDone (RErr (LeOp _)) => True
  | LpDone (RErr _) => False
  end.
Lemma pick_rest_or : forall (T : Type) i (l : list T) y r, pick i l = Some (y, r) -> l <> [].
Proof. intros T i [|z l] y r H; [destruct i; discriminate|discriminate]. Qed.

Lemma lgood_step : forall s e s', linv s -> lgood s -> l_nofault e = true -> l_step exec x s e = Some s' -> lgood s'.
Proof.
  intros s e s' (_ & _ & P) (OV & G) NF H. unfold lgood. destruct s as [ph pe cl ac ts rs ov].
  cbn [l_phase l_pending l_closed l_accepted l_tasks l_results l_over] in *. subst ov.
  destruct e as [r| |r|r|i| | |r|i o|i|i|i|i|]; cbn in NF; try discriminate;
    cbn [l_step l_phase l_tasks l_results l_over l_accepted l_closed l_pending] in H.
  - destruct ph, r; try discriminate. destruct P as [_ Q]. rewrite Q in H. injection H as <-; cbn; auto.
  - destruct ph; try discriminate. destruct ac; [discriminate|]. injection H as <-. cbn. split; [auto|]. right. left. discriminate.
  - destruct ph, r; try discriminate. destruct ac; [|discriminate]. injection H as <-; cbn. split; [auto|]. destruct G as [|]; [discriminate|auto].
  - destruct ph, r; try discriminate; injection H as <-; cbn; auto.
  - destruct ph; try discriminate. destruct (pick i rs) as [[r rest]|] eqn:K; [|discriminate]. injection H as <-. cbn. auto.
  - destruct ph; try discriminate. destruct rs; [|discriminate]. rewrite P in H. cbn in H. rewrite andb_false_r in H. cbn in H. injection H as <-. cbn. auto.
  - destruct ph; try discriminate.
  - destruct r; [discriminate|]. destruct ph as [| | | |q|]; try discriminate. injection H as <-; cbn. destruct q; auto.
  - destruct (pick i ts) as [[a rest]|] eqn:K; [|discriminate]. injection H as <-. cbn. split; [auto|].
    assert (rs ++ [exec o a] <> []) by (destruct rs; discriminate). destruct ph; auto.
Qed.
Lemma lgood_run : forall tr s, Forall (fun e => l_nofault e = true) tr -> run_from (l_step exec x) l_init tr = Some s -> linv s /\ lgood s.
Proof.
  intros tr s F H.
  apply (run_from_inv_where _ _ (l_step exec x) (fun e => l_nofault e = true) (fun s => linv s /\ lgood s)) with (tr := tr) (s := l_init); auto.
  - intros t e t' PE [Iv G] ST. split; [eapply linv_step; eauto|eapply lgood_step; eauto].
  - split; [apply (linv_run []); reflexivity|]. split; reflexivity.
Qed.

Theorem C48_literal_returns : forall (o0 : O) tr s, Forall (fun e => l_nofault e = true) tr -> run_from (l_step exec x) l_init tr = Some s ->
  l_settled exec x s ->
  exists r, l_ret s = Some r /\ exists o, match exec o x with ROk y => r = ROk y | RErr e => r = RErr (LeOp e) end.
Proof.
  intros o0 tr s F H SE. destruct (lgood_run tr s F H) as [(_ & _ & P) (OV & G)].
  destruct s as [ph pe cl ac ts rs ov]. cbn [l_phase l_pending l_closed l_accepted l_tasks l_results l_over] in *. subst ov.
  assert (TS : ts = []).
  { destruct ts as [|a ts]; [reflexivity|]. specialize (SE (LWork 0 o0) eq_refl eq_refl). discriminate. }
  destruct ph as [| | | |q|q].
  - specialize (SE (LLease None) eq_refl eq_refl). cbn in SE. destruct cl; discriminate.
  - destruct ac.
    + specialize (SE (LPublished None) eq_refl eq_refl). discriminate.
    + specialize (SE LAccept eq_refl eq_refl). discriminate.
  - specialize (SE (LClosed None) eq_refl eq_refl). discriminate.
  - destruct rs as [|r rs]; [destruct G; contradiction|]. specialize (SE (LTake 0) eq_refl eq_refl). discriminate.
  - specialize (SE (LAcked None) eq_refl eq_refl). discriminate.
  - exists q. split; [reflexivity|]. destruct q as [y|[e| |e|e|e|e|]]; try contradiction; destruct P as [o P]; exists o; now rewrite P.
Qed.

(** Such a run consists of at most seven steps besides polls that find nothing. *)
Definition lmeasure s : nat :=
  match l_phase s with
  | LpLease => 7
  | LpPublish => if l_accepted s then 4 else 6
  | LpClose => 3
  | LpNext => 2
  | LpAck _ => 1
  | LpDone _ => 0
  end + length (l_tasks s).
Lemma lmeasure_step : forall s e s', l_nofault e = true -> l_step exec x s e = Some s' ->
  (if l_progress e then 1 else 0) + lmeasure s' <= lmeasure s.
Proof.
  intros s e s' NF H. destruct s as [ph pe cl ac ts rs ov]. unfold lmeasure.
  destruct e as [r| |r|r|i| | |r|i o|i|i|i|i|]; cbn in NF; try discriminate;
    cbn [l_step l_phase l_tasks l_results l_over l_accepted l_closed l_pending] in H; cbn [l_progress l_phase l_tasks l_accepted].
  - destruct ph, r; try discriminate; destruct cl; injection H as <-; cbn; try lia. destruct ac; lia.
  - destruct ph; try discriminate. destruct ac; [discriminate|]. injection H as <-. cbn. lia.
  - destruct ph, r; try discriminate. destruct ac; [|discriminate]. injection H as <-; cbn. lia.
  - destruct ph, r; try discriminate; injection H as <-; cbn. lia.
  - destruct ph; try discriminate. destruct ov; [discriminate|]. destruct (pick i rs) as [[r rest]|] eqn:K; [|discriminate]. injection H as <-. cbn. lia.
  - destruct ph; try discriminate. destruct ov; [discriminate|]. destruct rs; [|discriminate]. destruct (cl && _); injection H as <-; cbn; lia.
  - destruct ph; try discriminate. destruct ov; [|discriminate]. destruct (_ =? _)%N; injection H as <-; cbn; lia.
  - destruct r; [discriminate|]. destruct ph as [| | | |q|]; try discriminate. injection H as <-; cbn. lia.
  - destruct (pick i ts) as [[a rest]|] eqn:K; [|discriminate]. injection H as <-. apply pick_length in K. cbn [l_env l_phase l_tasks l_accepted]. lia.
Qed.
Theorem C48_runs_are_finite : forall tr s, Forall (fun e => l_nofault e = true) tr -> run_from (l_step exec x) l_init tr = Some s ->
  length (filter l_progress tr) <= 7.
Proof.
  assert (G : forall tr s0 s, Forall (fun e => l_nofault e = true) tr -> run_from (l_step exec x) s0 tr = Some s ->
    length (filter l_progress tr) + lmeasure s <= lmeasure s0).
  { induction tr as [|e tr IH]; intros s0 s F H; cbn in H; [injection H as <-; cbn; lia|].
    inversion F as [|? ? NF F']; subst. destruct (l_step exec x s0 e) as [s1|] eqn:ST; [|discriminate].
    specialize (IH s1 s F' H). pose proof (lmeasure_step s0 e s1 NF ST). cbn. destruct (l_progress e); cbn; lia. }
  intros tr s F H. specialize (G tr l_init s F H). cbn in G. lia.
Qed.

(** Specialised to an operation that is a function. *)
Corollary C48_literal_function : forall (f : A -> B) tr s y, (forall o a b, exec o a = ROk b -> b = f a) ->
  run_from (l_step exec x) l_init tr = Some s -> l_ret s = Some (ROk y) -> y = f x.
Proof. intros f tr s y EX H R. destruct (C48_literal_map tr s _ H R) as [o Q]. eauto. Qed.
End Props.

(** Ten times the literal, with an error for 0; the result arrives twice and the task is executed twice. *)
Definition lit_exec (_ : unit) (n : nat) : res nat nat := if n =? 0 then RErr 99 else ROk (n * 10).
Definition lit_trace : list (levent nat unit) :=
  [LLease None; LAccept; LPublished None; LClosed None; LEmpty; LWork 0 tt; LTake 0; LAcked None].
Example C48_example : option_map l_ret (run_from (l_step lit_exec 4) l_init lit_trace) = Some (Some (ROk 40)) /\
  option_map l_ret (run_from (l_step lit_exec 0) l_init lit_trace) = Some (Some (RErr (LeOp 99))) /\
  Forall (fun e => l_nofault e = true) lit_trace /\
  (forall s, run_from (l_step lit_exec 4) l_init lit_trace = Some s -> l_settled lit_exec 4 s).
Proof.
  split; [reflexivity|]. split; [reflexivity|]. split; [repeat constructor|]. intros s H. vm_compute in H. injection H as <-.
  intros e NF PR. destruct e as [[]| |[]|[]|i| | |[]|i o|i|i|i|i|]; cbn in *; try discriminate; try reflexivity. now destruct i.
Qed.
Example C48_example_faults : option_map l_ret (run_from (l_step lit_exec 4) l_init
  [LLease None; LAccept; LDupTask 0; LWork 0 tt; LDupResult 0; LPublished None; LClosed None; LTake 1; LWork 0 tt; LAcked None]) = Some (Some (ROk 40)).
Proof. reflexivity. Qed.

(** Without the task's answer the directive waits for ever: the future has no timeout. *)
Example C48_waits_if_lost : exists s, run_from (l_step lit_exec 4) l_init [LLease None; LAccept; LPublished None; LClosed None; LLoseTask 0] = Some s /\
  l_settled lit_exec 4 s /\ l_ret s = None.
Proof.
  eexists. split; [vm_compute; reflexivity|]. split; [|reflexivity].
  intros e NF PR. destruct e as [[]| |[]|[]|i| | |[]|i o|i|i|i|i|]; cbn in *; try discriminate; try reflexivity; now destruct i.
Qed.

Print Assumptions C48_literal_map.
Print Assumptions C48_literal_returns.
Print Assumptions C48_runs_are_finite.
Print Assumptions C48_literal_function.
