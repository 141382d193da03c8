(** C11, continued: adjacent values stay behind only when their calls overlap. *)
From Coq Require Import List Arith NArith Lia Permutation Bool.
From Verif Require Import Base BaseFacts ContiguousModel ContiguousSpec ContiguousProofs ContigConcModel ContigConcSpec ContigConcProofs ContigConcPair ContigConcProps.
Import ListNotations.
Open Scope nat_scope.

Section Overlap.
Context {T : Type}.
Variable key : T -> N.
Variable contig : T -> T -> bool.
Notation step := (conc_step key contig).

(** The call has the value and may still queue it. *)
Definition may_queue (p : phase T) : list T :=
  match p with PFindR v | PReadR v _ _ | PTakeR v _ _ | PFindL v | PReadL v _ _ | PTakeL v _ _ | PQueue v => [v] | _ => [] end.
Definition will_queue (s : cstate T) : list T := flat_map may_queue (c_thr s).

Lemma insert_in : forall (V : Type) k (v : V) (m : cqueue V) e, In e (smap_insert k v m) -> e = (k, v) \/ In e m.
Proof.
  intros V k v m. induction m as [|[k' v'] m IH]; intros e I; cbn in I; [destruct I as [<-|[]]; now left|].
  destruct (N.ltb k k'); [destruct I as [<-|I]; auto|]. destruct (N.eqb k k'); [destruct I as [<-|I]; [auto|right; now right]|]. destruct I as [<-|I]; [right; now left|]. destruct (IH e I) as [->|J]; [now left|right; now right].
Qed.
Lemma remove_in : forall (V : Type) k (m : cqueue V) e, In e (smap_remove k m) -> In e m.
Proof.
  intros V k m. induction m as [|[k' v'] m IH]; intros e I; cbn in I; [exact I|]. destruct (N.eqb k k'); [now right|]. destruct I as [<-|I]; [now left|right; auto].
Qed.
Lemma will_step : forall s e s' y, step s e = Some s' -> In y (will_queue s') -> In y (will_queue s) \/ In y (submitted_by e).
Proof.
  intros s e s' y H I. unfold will_queue in *. apply in_flat_map in I as (p & P & Q). destruct e as [v|v|k|i]; cbn in H.
  - injection H as <-. cbn in P. apply in_app_iff in P. destruct P as [P|[<-|[]]]; [left; apply in_flat_map; eauto|now right].
  - injection H as <-. cbn in P. apply in_app_iff in P. destruct P as [P|[<-|[]]]; [left; apply in_flat_map; eauto|now right].
  - injection H as <-. cbn in P. apply in_app_iff in P. destruct P as [P|[<-|[]]]; [left; apply in_flat_map; eauto|destruct Q].
  - left. destruct (nth_error (c_thr s) i) as [q|] eqn:N; [|discriminate H]. apply nth_error_In in N. apply in_flat_map.
    assert (X : exists q', c_thr s' = upd i q' (c_thr s) /\ incl (may_queue q') (may_queue q)).
    { destruct q; cbn in H; repeat match type of H with Some _ = Some _ => fail 1 | match ?x with _ => _ end = Some _ => destruct x eqn:? end; try discriminate H; injection H as <-; eexists; (split; [reflexivity|]); cbn;
        repeat match goal with |- context [match ?x with _ => _ end] => destruct x end; intros z Z; cbn in *; tauto. }
    destruct X as (q' & E & INC). rewrite E in P. apply In_nth_error in P as (j & J). apply upd_nth in J. destruct J as [[_ ->]|[_ J]]; [exists q; split; [exact N|apply INC, Q]|exists p; split; [eapply nth_error_In; eauto|exact Q]].
Qed.
Lemma cell_upd_none : forall s n m y, In y (opt_list (match nth_error (upd n None (c_cells s)) m with Some o => o | None => None end)) -> In y (opt_list (cell (T := T) s m)).
Proof.
  intros s n m y I. unfold cell. destruct (Nat.eq_dec n m) as [->|N]; [|rewrite upd_nth_other in I by exact N; exact I].
  destruct (nth_error (upd m None (c_cells s)) m) as [o|] eqn:E; [|destruct I]. apply upd_nth in E. destruct E as [[_ ->]|[X _]]; [destruct I|congruence].
Qed.
Lemma queued_step : forall s e s' y, step s e = Some s' -> In y (queued s') -> In y (queued s) \/ In y (will_queue s).
Proof.
  intros s e s' y H I. unfold queued in *. apply in_flat_map in I as ([k n] & E & Q). cbn [snd] in Q. destruct e as [v|v|k0|i]; cbn in H; try (injection H as <-; left; apply in_flat_map; exists (k, n); auto).
  destruct (nth_error (c_thr s) i) as [p|] eqn:N; [|discriminate H]. apply nth_error_In in N.
  assert (KEEP : In (k, n) (c_map s) -> In y (opt_list (cell s n)) -> In y (flat_map (fun e => opt_list (cell s (snd e))) (c_map s)) \/ In y (will_queue s)) by (intros A B; left; apply in_flat_map; exists (k, n); auto).
  destruct p as [v|v k1 n1|v k1 n1|v|v k1 n1|v k1 n1|v w rgt k1|v|k1|n1|r]; cbn in H;
    try (injection H as <-; apply KEEP; assumption).
  - destruct (cell s n1); injection H as <-; apply KEEP; try assumption. exact (cell_upd_none _ _ _ _ Q).
  - destruct (cell s n1); injection H as <-; apply KEEP; try assumption. exact (cell_upd_none _ _ _ _ Q).
  - injection H as <-. cbn in E. apply KEEP; [exact (remove_in _ _ _ _ E)|exact Q].
  - injection H as <-. assert (V : In v (will_queue s)) by (apply in_flat_map; exists (PQueue v); split; [exact N|now left]). cbn in E. unfold cell in Q. cbn [c_cells] in Q.
    destruct (Nat.lt_ge_cases n (length (c_cells s))) as [L|L].
    + rewrite nth_error_app1 in Q by exact L. apply insert_in in E. destruct E as [E|E]; [injection E as -> ->; lia|apply KEEP; [exact E|exact Q]].
    + rewrite nth_error_app2 in Q by exact L. destruct (n - length (c_cells s)) as [|d]; cbn in Q; [|destruct d; destruct Q]. destruct Q as [<-|[]]. now right.
  - destruct (smap_get k1 (c_map s)); injection H as <-; apply KEEP; try assumption. exact (remove_in _ _ _ _ E).
  - injection H as <-. apply KEEP; [exact E|]. exact (cell_upd_none _ _ _ _ Q).
  - discriminate H.
Qed.
(** A value that is in no hand and not queued does not get back without being submitted again. *)
Lemma gone_for_good : forall tr s s' y, run_from step s tr = Some s' -> ~ In y (submitted tr) -> ~ In y (will_queue s) -> ~ In y (will_queue s') /\ (In y (queued s') -> In y (queued s)).
Proof.
  intros tr. induction tr as [|e tr IH]; intros s s' y R NS NW; cbn [run_from] in R; [injection R as <-; auto|]. destruct (step s e) as [m|] eqn:S; [|discriminate R]. unfold submitted in NS. cbn [flat_map] in NS. rewrite in_app_iff in NS.
  assert (W : ~ In y (will_queue m)) by (intros I; destruct (will_step _ _ _ _ S I); tauto).
  destruct (IH m s' y R ltac:(tauto) W) as [A B]. split; [exact A|]. intros I. destruct (queued_step _ _ _ _ S (B I)); tauto.
Qed.
Lemma will_held : forall (s : cstate T) y, In y (will_queue s) -> In y (held_by_calls s).
Proof using. clear key contig. intros s y I. apply in_flat_map in I as (p & P & Q). apply in_flat_map. exists p. split; [exact P|]. destruct p; cbn in *; tauto. Qed.
Lemma queued_cells : forall (s : cstate T) y, In y (queued s) -> In y (in_cells s).
Proof using.
  clear key contig. intros s y I. apply in_flat_map in I as ([k n] & _ & Q). unfold cell in Q. cbn [snd] in Q. destruct (nth_error (c_cells s) n) as [o|] eqn:N; [|destruct Q]. apply in_flat_map. exists o. split; [eapply nth_error_In; eauto|exact Q].
Qed.
Lemma submitted_app : forall (a b : list (cevent T)), submitted (a ++ b) = submitted a ++ submitted b.
Proof. intros. unfold submitted. apply flat_map_app. Qed.
End Overlap.

(** No value is submitted twice. If a call of [x] ended by queueing it, and an adjacent [y] is queued after that, then [y] was not queued
    yet when the call began: its own call was running, or began later. So two adjacent values can only be left if neither call had
    returned when the other began. Missing from the full statement: the calls that do overlap, where it is false. *)
Theorem C11_only_overlapping_partial : forall (A : Type) t1 t2 s1 s (x y : item A),
  Forall (fun e => match e with CDequeue _ => False | _ => True end) (t1 ++ CAcquire x :: t2) ->
  Forall proper (submitted (t1 ++ CAcquire x :: t2)) -> NoDup (submitted (t1 ++ CAcquire x :: t2)) ->
  fresh_run item_key is_contiguous disjoint c_init (t1 ++ CAcquire x :: t2) ->
  conc_run item_key is_contiguous (t1 ++ [CAcquire x]) = Some s1 ->
  conc_run item_key is_contiguous (t1 ++ CAcquire x :: t2) = Some s ->
  nth_error (c_thr s) (length (c_thr s1) - 1) = Some (PDone RetNone) ->
  adjacent x y \/ adjacent y x -> In y (queued s) -> ~ In y (queued s1).
Proof.
  intros A t1 t2 s1 s x y ND PR NS FR R1 R DN AD Q Q1.
  refine (C11_not_overlooked_partial A t1 t2 s1 s x y ND PR FR R1 R AD _ DN). intros u1 u2 m -> RU.
  assert (R2 : run_from (conc_step item_key is_contiguous) s1 (u1 ++ u2) = Some s).
  { unfold conc_run in R1, R. replace (t1 ++ CAcquire x :: u1 ++ u2) with ((t1 ++ [CAcquire x]) ++ (u1 ++ u2)) in R by (rewrite <- app_assoc; reflexivity). apply run_from_app in R as (s1' & E1 & E2). congruence. }
  apply run_from_app in R2 as (m' & E1 & E2). rewrite RU in E1. injection E1 as <-.
  replace (t1 ++ CAcquire x :: u1 ++ u2) with ((t1 ++ [CAcquire x]) ++ u1 ++ u2) in NS by (rewrite <- app_assoc; reflexivity). rewrite submitted_app in NS.
  pose proof (C10_no_duplication _ _ _ _ _ R1) as P1. assert (I1 : In y (submitted (t1 ++ [CAcquire x]))) by (apply (Permutation_in _ (Permutation_sym P1)); rewrite !in_app_iff; right; right; now apply queued_cells).
  assert (N2 : ~ In y (submitted (u1 ++ u2))).
  { intros I2. apply in_split in I1 as (a & b & E). rewrite E, <- app_assoc in NS. cbn [app] in NS. apply NoDup_remove_2 in NS. apply NS. rewrite !in_app_iff. auto. }
  assert (W1 : ~ In y (will_queue s1)).
  { intros W. apply will_held in W. apply queued_cells in Q1. assert (NP : NoDup (held_by_calls s1 ++ given_back s1 ++ in_cells s1)) by (apply (Permutation_NoDup P1); clear - NS; induction (submitted (t1 ++ [CAcquire x])) as [|z l IH]; [constructor|]; cbn in NS; inversion NS; subst; constructor; [intros I; match goal with X : ~ In z _ |- _ => apply X end; apply in_app_iff; now left|auto]).
    apply in_split in W as (a & b & E). rewrite E, <- app_assoc in NP. cbn [app] in NP. apply NoDup_remove_2 in NP. apply NP. rewrite !in_app_iff. auto. }
  rewrite submitted_app, in_app_iff in N2. destruct (gone_for_good item_key is_contiguous u1 s1 m y RU ltac:(tauto) W1) as [WM _].
  exact (proj2 (gone_for_good item_key is_contiguous u2 m s y E2 ltac:(tauto) WM) Q).
Qed.
Print Assumptions C11_only_overlapping_partial.

(** Two overlapping calls leave an adjacent pair; the first value was not queued when the second call began. *)
Example C11_only_overlapping_case :
  let x := mkItem 1 1 11 in let y := mkItem 0 0 10 in
  let t1 := [CAcquire y] in let t2 := [CStep 0; CStep 1; CStep 0; CStep 1; CStep 0; CStep 1] in
  Forall proper (submitted (t1 ++ CAcquire x :: t2)) /\ NoDup (submitted (t1 ++ CAcquire x :: t2)) /\
  fresh_run item_key is_contiguous disjoint c_init (t1 ++ CAcquire x :: t2) /\
  exists s1 s, conc_run item_key is_contiguous (t1 ++ [CAcquire x]) = Some s1 /\ conc_run item_key is_contiguous (t1 ++ CAcquire x :: t2) = Some s /\
    nth_error (c_thr s) (length (c_thr s1) - 1) = Some (PDone RetNone) /\ adjacent y x /\ In y (queued s) /\ In x (queued s).
Proof.
  cbv zeta. split; [repeat constructor; cbn; lia|]. split; [cbn; repeat constructor; cbn; intuition discriminate|]. split; [cbn [app]; fresh_tac|].
  eexists. eexists. split; [vm_compute; reflexivity|]. split; [vm_compute; reflexivity|]. split; [vm_compute; reflexivity|]. split; [reflexivity|]. split; vm_compute; auto.
Qed.
