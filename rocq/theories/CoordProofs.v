(** Invariants of the coordinated channel. *)
From Coq Require Import List Arith NArith Bool Lia.
From Verif Require Import Base BaseFacts CoordModel CoordSpec.
Import ListNotations.
Open Scope nat_scope.
Local Opaque usize_max usize_mod wsucc wpred.

Definition is_inner (p : pub_phase) : bool := match p with PubInner => true | _ => false end.
Definition is_leak (p : pub_phase) : bool := match p with PubDone (PubInnerErr false) => true | _ => false end.
Definition is_sent (p : pub_phase) : bool :=
  match p with PubSent | PubDone PubOk | PubDone (PubInnerErr true) => true | _ => false end.
Definition is_sub (p : ack_phase) : bool := match p with AckSub _ => true | _ => false end.

(** What the pending counter ought to be. *)
Definition npend (s : chan) : nat :=
  cnt is_inner (ch_pubs s) + cnt is_leak (ch_pubs s) + ch_inflight s + ch_lost s + ch_avail s
  + cnt negb (ch_ackers s) + cnt is_sub (ch_acks s).

Record counts (s : chan) : Prop := {
  c_sent_pubs : ch_sent s = cnt is_sent (ch_pubs s);
  c_sent_split : ch_sent s = ch_inflight s + ch_lost s + ch_avail s + length (ch_ackers s);
  c_ackers : length (ch_subs s) + cnt is_sub (ch_acks s) + cnt negb (ch_ackers s) = length (ch_ackers s);
  c_pending : (N.of_nat (length (ch_pubs s)) <= usize_max)%N -> ch_pending s = N.of_nat (npend s)
}.

Lemma three_kinds : forall l, cnt is_inner l + cnt is_leak l + cnt is_sent l <= length l.
Proof.
  induction l as [|p l IH]; [reflexivity|]. rewrite !cnt_cons. cbn [length].
  destruct p as [| | | | [| |[]]]; cbn; lia.
Qed.

Lemma three_kinds_add : forall l i, nth_error l i = Some PubAdd -> cnt is_inner l + cnt is_leak l + cnt is_sent l < length l.
Proof.
  intros l i H. destruct (upd_split _ _ _ _ H) as (a & b & -> & _ & _).
  rewrite !cnt_app, !cnt_cons, app_length. cbn [length is_inner is_leak is_sent b2n].
  pose proof (three_kinds a). pose proof (three_kinds b). lia.
Qed.

Ltac step_cases H :=
  unfold pub_step, close_step, poll_step, ack_step, set_pub, set_closes, set_env, set_poll, set_acks in H;
  repeat match type of H with
         | match ?x with _ => _ end = Some _ => destruct x eqn:?; try discriminate H
         end;
  try (injection H as <-).

Ltac cu y := match goal with
  | HH : nth_error ?l ?i = Some ?x |- _ =>
      pose proof (cnt_upd _ is_inner i l x y HH); pose proof (cnt_upd _ is_leak i l x y HH);
      pose proof (cnt_upd _ is_sent i l x y HH)
  end.

Lemma wpred_pos : forall n, wpred (N.of_nat (S n)) = N.of_nat n.
Proof. intros n. Local Transparent wpred. unfold wpred. Local Opaque wpred. destruct (N.eqb_spec (N.of_nat (S n)) 0); lia. Qed.

Lemma counts_step : forall s e s', e <> EvDupResult -> counts s -> chan_step s e = Some s' -> counts s'.
Proof.
  intros s e s' ND [C1 C2 C3 C4] H.
  assert (SAME : forall k, k <= length (ch_pubs s) -> (N.of_nat (length (ch_pubs s)) <= usize_max)%N -> (N.of_nat k <= usize_max)%N) by lia.
  destruct e as [| i ok | | | i ok | | | | | r | | a | i]; cbn [chan_step] in H.
  - injection H as <-. constructor; cbn; rewrite ?cnt_app, ?cnt_one, ?app_length; cbn; [lia | lia | lia |].
    intros B. rewrite C4 by (cbn in B; lia). unfold npend. cbn. rewrite !cnt_app, ?cnt_one. cbn. lia.
  - destruct (nth_error (ch_pubs s) i) as [p|] eqn:P; [|discriminate]. destruct p as [| | | | r]; cbn in H; try discriminate.
    + injection H as <-. set (y := if ch_closed s then PubDone PubClosed else PubAdd).
      assert (Y : is_inner y = false /\ is_leak y = false /\ is_sent y = false) by (unfold y; destruct (ch_closed s); auto).
      destruct Y as (Y1 & Y2 & Y3). cu y. rewrite Y1, Y2, Y3 in *. cbn [b2n is_inner is_leak is_sent] in *.
      constructor; cbn; rewrite ?upd_length; fold y; [lia | lia | lia |].
      intros B. rewrite C4 by exact B. unfold npend; cbn; fold y. lia.
    + injection H as <-. cu PubInner. cbn [b2n is_inner is_leak is_sent] in *.
      constructor; cbn; rewrite ?upd_length; [lia | lia | lia |].
      intros B. rewrite C4 by exact B.
      assert (LE : npend s < length (ch_pubs s)).
      { pose proof (three_kinds_add _ _ P). unfold npend. lia. }
      rewrite wsucc_small by lia. unfold npend in *; cbn. lia.
    + destruct ok; injection H as <-.
      * cu PubSent. cbn [b2n is_inner is_leak is_sent] in *.
        constructor; cbn; rewrite ?upd_length; [lia | lia | lia |].
        intros B. rewrite C4 by exact B. unfold npend; cbn. lia.
      * cu (PubDone (PubInnerErr false)). cbn [b2n is_inner is_leak is_sent] in *.
        constructor; cbn; rewrite ?upd_length; [lia | lia | lia |].
        intros B. rewrite C4 by exact B. unfold npend; cbn. lia.
    + injection H as <-. set (y := PubDone (if ok then PubOk else PubInnerErr true)).
      assert (Y : is_inner y = false /\ is_leak y = false /\ is_sent y = true) by (unfold y; destruct ok; auto).
      destruct Y as (Y1 & Y2 & Y3). cu y. rewrite Y1, Y2, Y3 in *. cbn [b2n is_inner is_leak is_sent] in *.
      constructor; cbn; rewrite ?upd_length; fold y; [lia | lia | lia |].
      intros B. rewrite C4 by exact B. unfold npend; cbn; fold y. lia.
  - injection H as <-. constructor; assumption.
  - injection H as <-. constructor; assumption.
  - destruct (nth_error (ch_closes s) i) as [p|]; [|discriminate].
    destruct p; cbn in H; try discriminate; injection H as <-; constructor; assumption.
  - destruct (ch_inflight s) as [|k] eqn:K; [discriminate|]. injection H as <-.
    constructor; cbn; [lia | lia | lia |]. intros B. rewrite C4 by exact B. unfold npend; cbn. lia.
  - destruct (ch_inflight s) as [|k] eqn:K; [discriminate|]. injection H as <-.
    constructor; cbn; [lia | lia | lia |]. intros B. rewrite C4 by exact B. unfold npend; cbn. lia.
  - congruence.
  - destruct (ch_poll s); try discriminate. injection H as <-. constructor; assumption.
  - destruct (ch_poll s); try discriminate. destruct r.
    + destruct (ch_avail s) as [|k] eqn:K; [discriminate|]. injection H as <-.
      constructor; cbn; rewrite ?app_length, ?cnt_app, ?cnt_one; cbn; [lia | lia | lia |].
      intros B. rewrite C4 by exact B. unfold npend; cbn. rewrite ?cnt_app, ?cnt_one. cbn. lia.
    + injection H as <-. constructor; assumption.
    + injection H as <-. constructor; assumption.
  - unfold poll_step in H. destruct (ch_poll s); try discriminate; injection H as <-; constructor; assumption.
  - destruct (a <? length (ch_ackers s)); [|discriminate]. injection H as <-.
    constructor; cbn; rewrite ?cnt_app, ?cnt_one; cbn; [lia | lia | lia |].
    intros B. rewrite C4 by exact B. unfold npend; cbn. rewrite ?cnt_app, ?cnt_one. cbn. lia.
  - destruct (nth_error (ch_acks s) i) as [p|] eqn:P; [|discriminate]. destruct p as [a|a|a]; cbn in H; try discriminate.
    + destruct (nth_error (ch_ackers s) a) as [did|] eqn:D; [|discriminate]. injection H as <-.
      pose proof (cnt_upd _ negb a _ _ true D) as E1.
      destruct did.
      * pose proof (cnt_upd _ is_sub i _ _ (AckDone a) P) as E2. cbn [b2n negb is_sub] in *.
        constructor; cbn; rewrite ?upd_length; [lia | lia | lia |].
        intros B. rewrite C4 by exact B. unfold npend; cbn. lia.
      * pose proof (cnt_upd _ is_sub i _ _ (AckSub a) P) as E2. cbn [b2n negb is_sub] in *.
        constructor; cbn; rewrite ?upd_length; [lia | lia | lia |].
        intros B. rewrite C4 by exact B. unfold npend; cbn. lia.
    + injection H as <-. pose proof (cnt_upd _ is_sub i _ _ (AckDone a) P) as E2. cbn [b2n is_sub] in *.
      constructor; cbn; rewrite ?upd_length; [lia | lia | lia |].
      intros B. rewrite C4 by exact B.
      assert (E3 : npend s = S (cnt is_inner (ch_pubs s) + cnt is_leak (ch_pubs s) + ch_inflight s + ch_lost s + ch_avail s
                   + cnt negb (ch_ackers s) + cnt is_sub (upd i (AckDone a) (ch_acks s)))) by (unfold npend; lia).
      rewrite E3, wpred_pos. reflexivity.
Qed.

Lemma counts_init : counts chan_init.
Proof. constructor; reflexivity. Qed.

Lemma counts_run : forall tr s s', no_dup tr -> counts s -> run_from chan_step s tr = Some s' -> counts s'.
Proof.
  intros tr s s' F C H. unfold no_dup in F.
  apply (run_from_inv_where _ _ chan_step (fun e => e <> EvDupResult) counts) with tr s; auto.
  intros; eapply counts_step; eauto.
Qed.

(** The number of publish calls is bounded by the number of events. *)
Lemma pubs_step : forall s e s', chan_step s e = Some s' -> length (ch_pubs s') <= S (length (ch_pubs s)).
Proof.
  intros s e s' H. destruct e; cbn in H; step_cases H; cbn; rewrite ?app_length, ?upd_length; cbn; lia.
Qed.
Lemma pubs_run : forall tr s s', run_from chan_step s tr = Some s' -> length (ch_pubs s') <= length tr + length (ch_pubs s).
Proof.
  induction tr as [|e tr IH]; intros s s' H; cbn in H; [injection H as <-; cbn; lia|].
  destruct (chan_step s e) as [s1|] eqn:E; [|discriminate]. apply pubs_step in E. apply IH in H. cbn. lia.
Qed.

Lemma short_app : forall t1 t2, short (t1 ++ t2) -> short t1.
Proof. intros t1 t2 H. unfold short in *. rewrite app_length in H. lia. Qed.
Lemma no_dup_app : forall t1 t2, no_dup (t1 ++ t2) <-> no_dup t1 /\ no_dup t2.
Proof. intros. unfold no_dup. apply Forall_app. Qed.

Lemma pending_exact : forall tr s, no_dup tr -> short tr -> chan_run tr = Some s -> ch_pending s = N.of_nat (npend s).
Proof.
  intros tr s F B H. apply (counts_run tr chan_init) in H as C; [|exact F|apply counts_init].
  apply (c_pending s C). apply pubs_run in H. cbn in H. unfold short in B. lia.
Qed.

(** Ackers: who has decreased the counter. *)
Record ackers_ok (s : chan) : Prop := {
  a_nodup : NoDup (ch_subs s);
  a_done : forall a, In a (ch_subs s) -> nth_error (ch_ackers s) a = Some true;
  a_true : forall a, nth_error (ch_ackers s) a = Some true -> In a (ch_subs s) \/ In (AckSub a) (ch_acks s);
  a_sub : forall i a, nth_error (ch_acks s) i = Some (AckSub a) -> nth_error (ch_ackers s) a = Some true /\ ~ In a (ch_subs s);
  a_excl : forall i j a, nth_error (ch_acks s) i = Some (AckSub a) -> nth_error (ch_acks s) j = Some (AckSub a) -> i = j;
  a_range : forall i a, nth_error (ch_acks s) i = Some (AckSwap a) -> a < length (ch_ackers s);
  a_fin : forall i a, nth_error (ch_acks s) i = Some (AckDone a) -> nth_error (ch_ackers s) a = Some true
}.

Lemma ackers_same : forall s s', ch_subs s' = ch_subs s -> ch_ackers s' = ch_ackers s -> ch_acks s' = ch_acks s ->
  ackers_ok s -> ackers_ok s'.
Proof. intros s s' E1 E2 E3 []. constructor; rewrite ?E1, ?E2, ?E3; assumption. Qed.

Lemma ackers_step : forall s e s', ackers_ok s -> chan_step s e = Some s' -> ackers_ok s'.
Proof.
  intros s e s' A H.
  destruct e as [| i ok | | | i ok | | | | | r | | a | i]; cbn [chan_step] in H;
    try (step_cases H; apply (ackers_same s); solve [reflexivity | exact A]).
  - (* poll inner *)
    destruct (ch_poll s); try discriminate. destruct r; [| injection H as <-; now apply (ackers_same s) ..].
    destruct (ch_avail s) as [|k]; [discriminate|]. injection H as <-. destruct A.
    assert (UP : forall a b, nth_error (ch_ackers s) a = Some b -> nth_error (ch_ackers s ++ [false]) a = Some b).
    { intros a b E. rewrite nth_error_app1; [exact E|]. apply nth_error_Some. congruence. }
    constructor; cbn.
    + exact a_nodup0.
    + intros a Ia. auto.
    + intros a E. apply nth_app_new in E. destruct E as [[_ E]|E]; [discriminate|auto].
    + intros i a E. destruct (a_sub0 i a E). auto.
    + exact a_excl0.
    + intros i a E. rewrite app_length. apply a_range0 in E. lia.
    + intros i a E. apply a_fin0 in E. auto.
  - (* a new ack call *)
    destruct (Nat.ltb_spec a (length (ch_ackers s))) as [L|L]; [|discriminate]. injection H as <-. destruct A.
    constructor; cbn.
    + exact a_nodup0.
    + exact a_done0.
    + intros b E. apply a_true0 in E. rewrite in_app_iff. tauto.
    + intros i b E. apply nth_app_new in E. destruct E as [[_ E]|E]; [discriminate|eauto].
    + intros i j b E1 E2. apply nth_app_new in E1, E2. destruct E1 as [[_ E1]|E1]; [discriminate|].
      destruct E2 as [[_ E2]|E2]; [discriminate|eauto].
    + intros i b E. apply nth_app_new in E. destruct E as [[_ E]|E]; [congruence|eauto].
    + intros i b E. apply nth_app_new in E. destruct E as [[_ E]|E]; [discriminate|eauto].
  - destruct (nth_error (ch_acks s) i) as [p|] eqn:P; [|discriminate]. destruct p as [a|a|a]; cbn in H; try discriminate.
    + destruct (nth_error (ch_ackers s) a) as [did|] eqn:D; [|discriminate]. injection H as <-.
      destruct A.
      assert (LA : a < length (ch_ackers s)) by (apply nth_error_Some; congruence).
      assert (UP : forall b, nth_error (ch_ackers s) b = Some true -> nth_error (upd a true (ch_ackers s)) b = Some true).
      { intros b E. destruct (Nat.eq_dec a b) as [->|NE]; [now apply upd_nth_same | now rewrite upd_nth_other]. }
      destruct did.
      * constructor; cbn.
        -- exact a_nodup0.
        -- intros b Ib. auto.
        -- intros b E. apply upd_nth in E. destruct E as [[-> _]|[_ E]].
           ++ destruct (a_true0 b D) as [I|I]; [now left|]. right. eapply In_upd_other; eauto. discriminate.
           ++ destruct (a_true0 b E) as [I|I]; [now left|]. right. eapply In_upd_other; eauto. discriminate.
        -- intros j b E. apply upd_nth in E. destruct E as [[_ E]|[_ E]]; [discriminate|].
           destruct (a_sub0 j b E). auto.
        -- intros j k b E1 E2. apply upd_nth in E1, E2. destruct E1 as [[_ E1]|[_ E1]]; [discriminate|].
           destruct E2 as [[_ E2]|[_ E2]]; [discriminate|eauto].
        -- intros j b E. rewrite upd_length. apply upd_nth in E. destruct E as [[_ E]|[_ E]]; [discriminate|eauto].
        -- intros j b E. apply upd_nth in E. destruct E as [[_ E]|[_ E]]; [|eauto].
           injection E as ->. now apply upd_nth_same.
      * assert (NS : ~ In a (ch_subs s)) by (intros I; apply a_done0 in I; congruence).
        assert (NB : forall j, nth_error (ch_acks s) j <> Some (AckSub a)).
        { intros j E. destruct (a_sub0 j a E). congruence. }
        constructor; cbn.
        -- exact a_nodup0.
        -- intros b Ib. auto.
        -- intros b E. apply upd_nth in E. destruct E as [[-> _]|[_ E]].
           ++ right. eapply In_upd_new; eauto.
           ++ destruct (a_true0 b E) as [I|I]; [now left|]. right. eapply In_upd_other; eauto. discriminate.
        -- intros j b E. apply upd_nth in E. destruct E as [[_ E]|[_ E]].
           ++ injection E as ->. split; [now apply upd_nth_same|exact NS].
           ++ destruct (a_sub0 j b E). auto.
        -- intros j k b E1 E2. apply upd_nth in E1, E2. destruct E1 as [[J1 E1]|[J1 E1]].
           ++ injection E1 as ->. destruct E2 as [[J2 E2]|[_ E2]]; [lia|]. now apply NB in E2.
           ++ destruct E2 as [[_ E2]|[_ E2]]; [|eauto]. injection E2 as ->. now apply NB in E1.
        -- intros j b E. rewrite upd_length. apply upd_nth in E. destruct E as [[_ E]|[_ E]]; [discriminate|eauto].
        -- intros j b E. apply upd_nth in E. destruct E as [[_ E]|[_ E]]; [discriminate|]. eauto.
    + injection H as <-. destruct A. destruct (a_sub0 i a P) as [DA NA].
      constructor; cbn.
      * now constructor.
      * intros b [<-|Ib]; auto.
      * intros b E. destruct (a_true0 b E) as [I|I]; [auto|]. destruct (Nat.eq_dec a b) as [->|NE]; [auto|].
        right. eapply In_upd_other; eauto. congruence.
      * intros j b E. apply upd_nth in E. destruct E as [[_ E]|[NJ E]]; [discriminate|].
        destruct (a_sub0 j b E) as [X Y]. split; [exact X|]. intros [<-|I]; [|tauto].
        apply NJ. eapply a_excl0; eauto.
      * intros j k b E1 E2. apply upd_nth in E1, E2. destruct E1 as [[_ E1]|[_ E1]]; [discriminate|].
        destruct E2 as [[_ E2]|[_ E2]]; [discriminate|eauto].
      * intros j b E. apply upd_nth in E. destruct E as [[_ E]|[_ E]]; [discriminate|eauto].
      * intros j b E. apply upd_nth in E. destruct E as [[_ E]|[_ E]]; [congruence|eauto].
Qed.

Lemma ackers_run : forall tr s s', ackers_ok s -> run_from chan_step s tr = Some s' -> ackers_ok s'.
Proof. intros tr s s' A H. eapply (run_from_inv _ _ chan_step ackers_ok); eauto. intros. eapply ackers_step; eauto. Qed.
Lemma ackers_init : ackers_ok chan_init.
Proof.
  constructor; cbn; try (intros [|?] ?; discriminate); try (intros [|?]; discriminate); try now constructor.
  - intros a [].
Qed.

Lemma npend_zero_acked : forall s, counts s -> ackers_ok s -> npend s = 0 -> everything_acked s.
Proof.
  intros s C A Z. unfold npend in Z. destruct C. split; [lia|].
  intros a L. assert (D : exists b, nth_error (ch_ackers s) a = Some b).
  { destruct (nth_error (ch_ackers s) a) eqn:E; [eauto|]. apply nth_error_None in E. lia. }
  destruct D as [b D]. assert (Z1 : cnt negb (ch_ackers s) = 0) by lia. assert (Z2 : cnt is_sub (ch_acks s) = 0) by lia.
  rewrite cnt_zero in Z1, Z2. apply nth_error_In in D as I. apply Z1 in I. destruct b; [|discriminate].
  destruct (a_true s A a D) as [X|X]; [exact X|]. apply Z2 in X. discriminate.
Qed.

Lemma acked_npend_zero : forall s, counts s -> ackers_ok s -> everything_acked s ->
  no_publish_in_progress s -> failed_publishes s = 0 -> npend s = 0.
Proof.
  intros s C A [E1 E2] NP FP. destruct C.
  assert (Z1 : cnt negb (ch_ackers s) = 0).
  { apply cnt_zero. intros b I. apply In_nth_error in I. destruct I as [a I].
    assert (L : a < length (ch_ackers s)) by (apply nth_error_Some; congruence).
    apply E2 in L. apply (a_done s A) in L. rewrite L in I. injection I as <-. reflexivity. }
  assert (Z2 : cnt is_sub (ch_acks s) = 0).
  { apply cnt_zero. intros p I. destruct p as [|a|]; try reflexivity. apply In_nth_error in I. destruct I as [i I].
    destruct (a_sub s A i a I) as [X Y]. exfalso. apply Y, E2. apply nth_error_Some. congruence. }
  assert (Z3 : cnt is_inner (ch_pubs s) = 0).
  { apply cnt_zero. intros p I. apply NP in I. destruct p; try reflexivity. discriminate. }
  assert (Z4 : cnt is_leak (ch_pubs s) = 0) by exact FP.
  unfold npend. lia.
Qed.

(** After the channel is closed and no publish is in progress, nothing is published any more. *)
Definition calm (s : chan) : Prop := ch_closed s = true /\ no_publish_in_progress s.

Lemma closed_step : forall s e s', chan_step s e = Some s' -> ch_closed s = true -> ch_closed s' = true.
Proof. intros s e s' H C. destruct e; cbn in H; step_cases H; cbn; auto. Qed.

Lemma calm_step : forall s e s', chan_step s e = Some s' -> calm s -> calm s'.
Proof.
  intros s e s' H [C N]. split; [eapply closed_step; eauto|].
  destruct e as [| i ok | | | i ok | | | | | r | | a | i]; cbn [chan_step] in H;
    try (step_cases H; exact N).
  - injection H as <-. intros p I. cbn in I. apply in_app_iff in I. destruct I as [I|[<-|[]]]; [now apply N|reflexivity].
  - destruct (nth_error (ch_pubs s) i) as [p|] eqn:P; [|discriminate]. apply nth_error_In in P as I. apply N in I.
    destruct p; try discriminate. cbn in H. rewrite C in H. injection H as <-. intros p I'. cbn in I'.
    apply nth_In_upd in I'. destruct I' as [->|I']; [reflexivity|now apply N].
Qed.

Lemma calm_npend : forall s e s', e <> EvDupResult -> chan_step s e = Some s' -> calm s -> npend s' <= npend s.
Proof.
  intros s e s' ND H [C N].
  destruct e as [| i ok | | | i ok | | | | | r | | a | i]; cbn [chan_step] in H.
  - injection H as <-. unfold npend; cbn. rewrite !cnt_app, ?cnt_one. cbn. lia.
  - destruct (nth_error (ch_pubs s) i) as [p|] eqn:P; [|discriminate]. apply nth_error_In in P as I. apply N in I.
    destruct p; try discriminate. cbn in H. rewrite C in H. injection H as <-.
    cu (PubDone PubClosed). cbn [b2n is_inner is_leak is_sent] in *. unfold npend; cbn. lia.
  - injection H as <-. reflexivity.
  - injection H as <-. reflexivity.
  - step_cases H; reflexivity.
  - destruct (ch_inflight s) as [|k] eqn:K; [discriminate|]. injection H as <-. unfold npend; cbn. lia.
  - destruct (ch_inflight s) as [|k] eqn:K; [discriminate|]. injection H as <-. unfold npend; cbn. lia.
  - congruence.
  - step_cases H; reflexivity.
  - destruct (ch_poll s); try discriminate. destruct r; [|injection H as <-; reflexivity ..].
    destruct (ch_avail s) as [|k] eqn:K; [discriminate|]. injection H as <-. unfold npend; cbn. rewrite !cnt_app, ?cnt_one. cbn. lia.
  - step_cases H; reflexivity.
  - destruct (a <? length (ch_ackers s)); [|discriminate]. injection H as <-. unfold npend; cbn. rewrite !cnt_app, ?cnt_one. cbn. lia.
  - destruct (nth_error (ch_acks s) i) as [p|] eqn:P; [|discriminate]. destruct p as [a|a|a]; cbn in H; try discriminate.
    + destruct (nth_error (ch_ackers s) a) as [did|] eqn:D; [|discriminate]. injection H as <-.
      pose proof (cnt_upd _ negb a _ _ true D) as E1.
      destruct did.
      * pose proof (cnt_upd _ is_sub i _ _ (AckDone a) P) as E2. cbn [b2n negb is_sub] in *. unfold npend; cbn. lia.
      * pose proof (cnt_upd _ is_sub i _ _ (AckSub a) P) as E2. cbn [b2n negb is_sub] in *. unfold npend; cbn. lia.
    + injection H as <-. pose proof (cnt_upd _ is_sub i _ _ (AckDone a) P) as E2. cbn [b2n is_sub] in *. unfold npend; cbn. lia.
Qed.

(** If the counter is exact, a poll that returns None in a step has loaded zero before. *)
Definition poll_sound (Z : Prop) (s : chan) : Prop := forall n, ch_poll s = PollClosed n -> n = 0%N -> Z.

Lemma ends_step : forall s e s', chan_step s e = Some s' ->
  ends s' = ends s \/
  (ends s' = S (ends s) /\ e = EvPollStep /\ ch_poll s' = PollIdle /\
     ((ch_poll s = PollClosed 0 /\ ch_closed s = true) \/ (ch_poll s = PollEnded /\ ch_pending s = 0%N)) /\
   npend s' = npend s).
Proof.
  intros s e s' H. destruct e; cbn [chan_step] in H; try (step_cases H; left; reflexivity).
  unfold poll_step in H. destruct (ch_poll s) as [| | |n|] eqn:P; try discriminate; injection H as <-; cbn.
  - now left.
  - destruct (ch_closed s && (n =? 0)%N) eqn:E; [|now left]. right.
    apply andb_true_iff in E. destruct E as [E1 E2]. apply N.eqb_eq in E2. subst n. auto 10.
  - destruct (N.eqb_spec (ch_pending s) 0) as [E|E]; [|now left]. right. auto 10.
Qed.

(** In a calm state that has not loaded the counter yet, ends are sound from there on. *)
Lemma calm_ends : forall t2 t1 s0 s,
  chan_run t1 = Some s0 -> no_dup (t1 ++ t2) -> short (t1 ++ t2) -> calm s0 ->
  forall k, (ends s0 = k \/ npend s0 = 0) -> (forall n, ch_poll s0 = PollClosed n -> n = 0%N -> npend s0 = 0) ->
  run_from chan_step s0 t2 = Some s -> calm s /\ (ends s = k \/ npend s = 0).
Proof.
  induction t2 as [|e t2 IH]; intros t1 s0 s R F B C k K P H; cbn in H.
  - injection H as <-. auto.
  - destruct (chan_step s0 e) as [s1|] eqn:E; [|discriminate].
    assert (R1 : chan_run (t1 ++ [e]) = Some s1).
    { apply run_from_app. exists s0. split; [exact R|]. cbn. now rewrite E. }
    assert (EQ : t1 ++ e :: t2 = (t1 ++ [e]) ++ t2) by now rewrite <- app_assoc.
    rewrite EQ in F, B.
    assert (F' : no_dup (t1 ++ [e])) by (apply no_dup_app in F; tauto).
    assert (NE : e <> EvDupResult).
    { apply no_dup_app in F'. destruct F' as [_ F']. now inversion F'. }
    assert (PX : ch_pending s0 = N.of_nat (npend s0)).
    { apply no_dup_app in F'. apply (pending_exact t1); [tauto| |exact R]. apply short_app in B. now apply short_app in B. }
    pose proof (calm_npend _ _ _ NE E C) as LE. pose proof (calm_step _ _ _ E C) as C1.
    apply (IH (t1 ++ [e]) s1 s R1 F B C1 k); [| |exact H].
    + destruct (ends_step _ _ _ E) as [EE | (EE & _ & _ & [[PP _]|[PP PZ]] & EN)].
      * destruct K as [K|K]; [left; congruence | right; lia].
      * right. rewrite EN. now apply (P 0%N).
      * right. rewrite EN. rewrite PX in PZ. lia.
    + intros n P1 ->.
      destruct e; cbn [chan_step] in E;
        try (step_cases E; cbn in P1; try discriminate; assert (npend s0 = 0) by eauto; lia).
      unfold poll_step in E. destruct (ch_poll s0) eqn:P0; try discriminate; injection E as <-; cbn in P1; try discriminate.
      injection P1 as P1. rewrite PX in P1. unfold npend in *; cbn in *. lia.
Qed.

(** A leaked failure keeps the counter positive. *)
Lemma leak_step : forall s e s', chan_step s e = Some s' -> cnt is_leak (ch_pubs s) <= cnt is_leak (ch_pubs s').
Proof.
  intros s e s' H. destruct e as [| i ok | | | i ok | | | | | r | | a | i]; cbn [chan_step] in H;
    try (step_cases H; cbn; rewrite ?cnt_app, ?cnt_one; lia).
  destruct (nth_error (ch_pubs s) i) as [p|] eqn:P; [|discriminate].
  destruct p as [| | | | r]; cbn in H; try discriminate.
  - injection H as <-. set (y := if ch_closed s then PubDone PubClosed else PubAdd). cu y. cbn [b2n is_leak] in *. cbn. fold y. lia.
  - injection H as <-. cu PubInner. cbn [b2n is_leak] in *. cbn. lia.
  - destruct ok; injection H as <-; cbn; [cu PubSent | cu (PubDone (PubInnerErr false))]; cbn [b2n is_leak] in *; lia.
  - injection H as <-. set (y := PubDone (if ok then PubOk else PubInnerErr true)). cu y. cbn [b2n is_leak] in *. cbn. fold y. lia.
Qed.

Lemma leak_no_end : forall t2 t1 s0 s,
  chan_run t1 = Some s0 -> no_dup (t1 ++ t2) -> short (t1 ++ t2) ->
  0 < failed_publishes s0 -> (forall n, ch_poll s0 = PollClosed n -> n <> 0%N) ->
  run_from chan_step s0 t2 = Some s -> ends s = ends s0.
Proof.
  induction t2 as [|e t2 IH]; intros t1 s0 s R F B L P H; cbn in H.
  - now injection H as <-.
  - destruct (chan_step s0 e) as [s1|] eqn:E; [|discriminate].
    assert (R1 : chan_run (t1 ++ [e]) = Some s1).
    { apply run_from_app. exists s0. split; [exact R|]. cbn. now rewrite E. }
    assert (EQ : t1 ++ e :: t2 = (t1 ++ [e]) ++ t2) by now rewrite <- app_assoc.
    rewrite EQ in F, B.
    assert (F' : no_dup (t1 ++ [e])) by (apply no_dup_app in F; tauto).
    assert (PX : ch_pending s0 = N.of_nat (npend s0)).
    { apply no_dup_app in F'. apply (pending_exact t1); [tauto| |exact R]. apply short_app in B. now apply short_app in B. }
    assert (LL : failed_publishes s0 = cnt is_leak (ch_pubs s0)) by reflexivity.
    assert (POS : ch_pending s0 <> 0%N) by (rewrite PX; unfold npend; lia).
    assert (E1 : ends s1 = ends s0).
    { destruct (ends_step _ _ _ E) as [EE | (EE & _ & _ & [[PP _]|[PP PZ]] & EN)]; [exact EE| |congruence].
      now apply P in PP. }
    rewrite <- E1. apply (IH (t1 ++ [e]) s1 s R1 F B); [| |exact H].
    + pose proof (leak_step _ _ _ E). change (0 < cnt is_leak (ch_pubs s1)). lia.
    + intros n P1.
      destruct e; cbn [chan_step] in E; (step_cases E; cbn in P1; try discriminate; solve [eauto | congruence]).
Qed.

(** Publish calls made after closing. *)
Lemma late_call_step : forall s e s' i, chan_step s e = Some s' -> ch_closed s = true ->
  (nth_error (ch_pubs s) i = Some PubStart \/ nth_error (ch_pubs s) i = Some (PubDone PubClosed)) -> ~ In i (ch_calls s) ->
  (nth_error (ch_pubs s') i = Some PubStart \/ nth_error (ch_pubs s') i = Some (PubDone PubClosed)) /\ ~ In i (ch_calls s').
Proof.
  intros s e s' i H C P NC.
  destruct e as [| j ok | | | j ok | | | | | r | | a | j]; cbn [chan_step] in H; try (step_cases H; split; assumption).
  - injection H as <-. cbn. split; [|exact NC].
    rewrite nth_error_app1; [exact P|]. apply nth_error_Some. destruct P; congruence.
  - destruct (nth_error (ch_pubs s) j) as [p|] eqn:J; [|discriminate].
    assert (OTHER : forall y, j <> i -> nth_error (upd j y (ch_pubs s)) i = Some PubStart \/ nth_error (upd j y (ch_pubs s)) i = Some (PubDone PubClosed)).
    { intros y NE. now rewrite upd_nth_other. }
    destruct p as [| | | | r]; cbn in H; try discriminate.
    + rewrite C in H. injection H as <-. cbn. split; [|exact NC].
      destruct (Nat.eq_dec j i) as [->|NE]; [|auto]. right. apply upd_nth_same. apply nth_error_Some. congruence.
    + assert (j <> i) by (intros ->; destruct P; congruence). injection H as <-. cbn. auto.
    + assert (j <> i) by (intros ->; destruct P; congruence). destruct ok; injection H as <-; cbn; (split; [auto|]); intros [X|X]; tauto.
    + assert (j <> i) by (intros ->; destruct P; congruence). injection H as <-. cbn. auto.
Qed.

Lemma late_call_run : forall tr s s' i, run_from chan_step s tr = Some s' -> ch_closed s = true ->
  (nth_error (ch_pubs s) i = Some PubStart \/ nth_error (ch_pubs s) i = Some (PubDone PubClosed)) -> ~ In i (ch_calls s) ->
  (nth_error (ch_pubs s') i = Some PubStart \/ nth_error (ch_pubs s') i = Some (PubDone PubClosed)) /\ ~ In i (ch_calls s').
Proof.
  induction tr as [|e tr IH]; intros s s' i H C P NC; cbn in H; [injection H as <-; auto|].
  destruct (chan_step s e) as [s1|] eqn:E; [|discriminate].
  destruct (late_call_step _ _ _ i E C P NC) as [P1 N1]. apply (IH s1 s' i H); auto. eapply closed_step; eauto.
Qed.

Lemma calls_range_step : forall s e s', chan_step s e = Some s' ->
  (forall i, In i (ch_calls s) -> i < length (ch_pubs s)) -> forall i, In i (ch_calls s') -> i < length (ch_pubs s').
Proof.
  intros s e s' H R i I.
  destruct e as [| j ok | | | j ok | | | | | r | | a | j]; cbn [chan_step] in H; try (step_cases H; cbn in *; now apply R).
  - injection H as <-. cbn in *. rewrite app_length. apply R in I. lia.
  - destruct (nth_error (ch_pubs s) j) as [p|] eqn:J; [|discriminate].
    assert (LJ : j < length (ch_pubs s)) by (apply nth_error_Some; congruence).
    destruct p as [| | | | r]; cbn in H; try discriminate; [| |destruct ok|]; injection H as <-; cbn in *; rewrite upd_length; auto;
      destruct I as [<-|I]; auto.
Qed.
Lemma calls_range : forall tr s, chan_run tr = Some s -> forall i, In i (ch_calls s) -> i < length (ch_pubs s).
Proof.
  intros tr s H. eapply (run_from_inv _ _ chan_step (fun s => forall i, In i (ch_calls s) -> i < length (ch_pubs s))); [| |exact H].
  - intros s1 e s2 I E. eapply calls_range_step; eauto.
  - intros i [].
Qed.
