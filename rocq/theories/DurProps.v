(** C84, C85 and C86: restarts of the broker. *)
From Coq Require Import List Arith Lia Bool.
From Verif Require Import Base BaseFacts DurModel DurSpec DurProofs.
Import ListNotations.
Open Scope nat_scope.

Definition reach (evs : list d_event) (s : dst) : Prop := run_from d_step d_init evs = Some s.
Lemma reach_track : forall P : list d_event -> dst -> Prop, P [] d_init -> (forall evs s e s', P evs s -> reach evs s -> d_step s e = Some s' -> P (evs ++ [e]) s') ->
  forall evs s, reach evs s -> P evs s.
Proof.
  intros P P0 PS evs. induction evs as [|e evs IH] using rev_ind; intros s R; [injection R as <-; exact P0|].
  apply run_from_app in R. destruct R as (m & R1 & R2). cbn in R2. destruct (d_step m e) as [s'|] eqn:E; [|discriminate]. injection R2 as <-.
  apply (PS evs m e s' (IH m R1) R1 E).
Qed.

(** * C84 *)
(** Full statement: the broker has a message exactly if it was put in the queue and since then it was not answered, the queue was not deleted and did
    not expire, and the broker did not restart unless message and queue were declared to survive that. *)
Theorem C84_iff : forall evs s n id, reach evs s ->
  (in_queue s n id <-> exists l1 l2 m d, d_log s = l1 ++ LIn n id m :: l2 /\ stands n l2 = Some d /\ kept n id m d l1).
Proof.
  intros evs s n id R. apply dinv_run in R. rewrite (in_queue_inside _ _ _ R). split.
  - intros (m & I). apply inside_in in I; [|apply R]. destruct I as (l1 & l2 & d & E1 & E2 & _ & K). now exists l1, l2, m, d.
  - intros (l1 & l2 & m & d & E & S & K). exists m. pose proof (di_wf _ R) as W. rewrite E in *. now apply (in_inside n id m d l1 l2 W S K).
Qed.

Lemma durable_stays : forall n l1 l2, wf (l1 ++ l2) -> stands n l2 = Some Durable -> ~ In (LDel n) l1 -> stands n (l1 ++ l2) = Some Durable /\ ~ In (LExp n) l1.
Proof.
  intros n l1 l2. induction l1 as [|a l1 IH]; intros W S D; [now split|]. destruct W as [F W]. destruct (IH W S) as [S' X]; [intros Y; apply D; now right|].
  split.
  - destruct a as [n' d'|n' id' m'|n' id'|n'|n'|c|]; cbn in F |- *; try exact S'.
    + destruct (Nat.eqb n' n) eqn:E; [|exact S']. eqs. congruence.
    + destruct (Nat.eqb n' n) eqn:E; [|exact S']. eqs. destruct D. now left.
    + destruct (Nat.eqb n' n) eqn:E; [|exact S']. eqs. congruence.
    + now rewrite S'.
  - intros [-> | Y]; [|now apply X]. cbn in F. congruence.
Qed.
(** A persistent message in a durable queue stays until it is answered or the queue is deleted, however often the broker restarts and however long it takes. *)
Theorem C84_survives : forall evs s n id l1 l2, reach evs s -> d_log s = l1 ++ LIn n id Persistent :: l2 -> stands n l2 = Some Durable ->
  ~ In (LOut n id) l1 -> ~ In (LDel n) l1 -> in_queue s n id.
Proof.
  intros evs s n id l1 l2 R E S O D. apply (C84_iff evs); [exact R|]. exists l1, l2, Persistent, Durable. split; [exact E|]. split; [exact S|].
  apply dinv_run in R. pose proof (di_wf _ R) as W. rewrite E in W. destruct (durable_stays n l1 (LIn n id Persistent :: l2) W S D) as [_ X]. unfold kept. tauto.
Qed.
Lemma in_once : forall l1 l2 n id m n' m', wf (l1 ++ LIn n id m :: l2) -> In (LIn n' id m') (l1 ++ LIn n id m :: l2) -> n' = n /\ m' = m /\ ~ In (LIn n id m) l1 /\ ~ In (LIn n id m) l2.
Proof.
  intros l1 l2 n id m n' m'. induction l1 as [|a l1 IH]; intros W I.
  - cbn in W. destruct W as [[_ F] _]. destruct I as [I|I]; [injection I as -> ->; repeat split; [tauto|apply F]|destruct (F n' m' I)].
  - destruct W as [F W]. destruct I as [-> | I].
    + destruct F as [_ F]. destruct (F n m). apply in_or_app. right. now left.
    + destruct (IH W I) as (A & B & C & D). repeat split; try assumption. intros [-> | X]; [|now apply C]. destruct F as [_ F]. destruct (F n m). apply in_or_app. right. now left.
Qed.
Lemma split_unique : forall (x : dact) l1 l2 r1 r2, l1 ++ x :: l2 = r1 ++ x :: r2 -> ~ In x l1 -> ~ In x l2 -> l1 = r1 /\ l2 = r2.
Proof.
  intros x l1. induction l1 as [|a l1 IH]; intros l2 r1 r2 E N1 N2.
  - destruct r1 as [|b r1]; cbn in E; [injection E as ->; now split|]. injection E as -> E. destruct N2. rewrite E. apply in_or_app. right. now left.
  - destruct r1 as [|b r1]; cbn in E; injection E as E1 E2; [destruct N1; now left|]. destruct (IH l2 r1 r2 E2) as [-> ->]; [intros X; apply N1; now right|exact N2|]. subst. now split.
Qed.
(** Any other message is gone after a restart, from whatever queue. *)
Theorem C84_lost : forall evs s n id m d l1 l2, reach evs s -> d_log s = l1 ++ LIn n id m :: l2 -> stands n l2 = Some d -> In LRestart l1 -> m = Ephemeral \/ d = NonDurable ->
  forall n', ~ in_queue s n' id.
Proof.
  intros evs s n id m d l1 l2 R E S I ED n' Q. apply (C84_iff evs) in Q; [|exact R]. destruct Q as (r1 & r2 & m' & d' & E' & S' & K).
  apply dinv_run in R. pose proof (di_wf _ R) as W. rewrite E in W. assert (X : In (LIn n' id m') (l1 ++ LIn n id m :: l2)).
  { rewrite <- E, E'. apply in_or_app. right. now left. }
  destruct (in_once _ _ _ _ _ _ _ W X) as (-> & -> & N1 & N2). rewrite E in E'. destruct (split_unique _ _ _ _ _ E' N1 N2) as [-> ->].
  destruct K as (_ & _ & _ & K). destruct (K I). destruct ED; congruence.
Qed.
(** Nothing is lost without a restart. *)
Theorem C84_until_restart : forall evs s n id m l1 l2, reach evs s -> d_log s = l1 ++ LIn n id m :: l2 ->
  ~ In (LOut n id) l1 -> ~ In (LDel n) l1 -> ~ In (LExp n) l1 -> ~ In LRestart l1 -> in_queue s n id.
Proof.
  intros evs s n id m l1 l2 R E N1 N2 N3 N4. pose proof R as R'. apply dinv_run in R'. pose proof (di_wf _ R') as W. rewrite E in W. apply wf_app in W. destruct W as [[F _] _].
  destruct (stands n l2) as [d|] eqn:S; [|congruence]. apply (C84_iff evs); [exact R|]. exists l1, l2, m, d. unfold kept. tauto.
Qed.

(** The history says what the caller asked for. *)
Definition asked (evs : list d_event) (o : dop) : Prop :=
  match o with OQueue n o | OExchange n o => exists c, In (EDeclare c n o) evs | OPublish n o => exists c, In (EPublish c n o) evs | _ => True end.
Definition noted (evs : list d_event) (a : dact) : Prop :=
  match a with LMade n d => exists c o, In (EDeclare c n o) evs /\ o_dur o = d | LIn n _ m => exists c o, In (EPublish c n o) evs /\ o_del o = m | _ => True end.
Definition traced (evs : list d_event) (s : dst) : Prop :=
  (forall k o, In k (d_calls s) -> In o (dc_ops k) -> asked evs o) /\ (forall a, In a (d_log s) -> noted evs a).
Lemma asked_more : forall evs e o, asked evs o -> asked (evs ++ [e]) o.
Proof. intros evs e [n o|n o|n|n o|n|n]; cbn; try tauto; intros (c & I); exists c; apply in_or_app; now left. Qed.
Lemma noted_more : forall evs e a, noted evs a -> noted (evs ++ [e]) a.
Proof. intros evs e [n d|n i m|n i|n|n|c|]; cbn; try tauto; intros (c & o & I & E); exists c, o; (split; [apply in_or_app; now left|exact E]). Qed.
Lemma fail_ops : forall c k, dc_ops (fail c k) = dc_ops k /\ dc_conn (fail c k) = dc_conn k /\ dc_handle (fail c k) = dc_handle k.
Proof. intros c k. unfold fail. destruct (Nat.eqb (dc_conn k) c); [|now repeat split]. destruct (dc_ops k) eqn:E; cbn; rewrite ?E; now repeat split. Qed.
Lemma op_calls : forall s c o, d_calls (do_op s c o) = d_calls s \/ d_calls (do_op s c o) = map (fail c) (d_calls s).
Proof.
  intros s c [n o|n o|n|n o|n|n]; cbn; unfold accept; repeat match goal with |- context [match ?x with _ => _ end] => destruct x end; cbn; tauto.
Qed.
Lemma op_log : forall s c o a, In a (d_log (do_op s c o)) -> In a (d_log s) \/
  match a with LMade n d => exists q, o = OQueue n q /\ o_dur q = d | LIn n _ m => exists q, o = OPublish n q /\ o_del q = m | _ => True end.
Proof.
  intros s c o a. destruct o as [n o|n o|n|n o|n|n]; cbn; unfold accept; repeat match goal with |- context [match ?x with _ => _ end] => destruct x end; cbn;
    try tauto; intros [X|I]; try tauto; right; try exact Logic.I; inversion X; subst; eexists; split; reflexivity.
Qed.
Lemma traced_reach : forall evs s, reach evs s -> traced evs s.
Proof.
  apply reach_track; [split; intros; cbn in *; tauto|]. intros evs s e s' [T1 T2] _ H.
  assert (B2 : forall a, In a (d_log s) -> noted (evs ++ [e]) a) by (intros a I; now apply noted_more, T2).
  assert (B1 : forall k o, In k (d_calls s) -> In o (dc_ops k) -> asked (evs ++ [e]) o) by (intros k o I J; apply asked_more; eapply T1; eassumption).
  assert (K : forall c h ops s', call s c h ops = Some s' -> (forall o, In o ops -> asked (evs ++ [e]) o) -> traced (evs ++ [e]) s').
  { intros c h ops s1 C A. unfold call in C. destruct (has c (d_up s)); [|discriminate]. injection C as <-. split; cbn; [|exact B2].
    intros k o I J. apply in_app_or in I. destruct I as [I|[<- |[]]]; [eapply B1; eassumption|now apply A]. }
  assert (F : forall f, (forall k, dc_ops (f k) = dc_ops k) -> forall k o, In k (map f (d_calls s)) -> In o (dc_ops k) -> asked (evs ++ [e]) o).
  { intros f Hf k o I J. apply in_map_iff in I. destruct I as (k0 & <- & I). rewrite Hf in J. eapply B1; eassumption. }
  destruct e as [c|c n o|c n o|c n|i|n id|n|c|]; cbn [d_step] in H.
  - destruct (_ || _)%bool; [discriminate|]. injection H as <-. now split.
  - apply K in H; [exact H|]. intros o' I. assert (X : exists c', In (EDeclare c' n o) (evs ++ [EDeclare c n o])) by (exists c; apply in_or_app; right; now left).
    unfold declare_ops in I. destruct (o_syn o); cbn in I; [destruct I as [<- |[]]|destruct I as [<- |[<- |[<- |[]]]]]; cbn; try exact Logic.I; exact X.
  - destruct (existsb _ _); [|discriminate]. apply K in H; [exact H|]. intros o' [<- |[]]. exists c. apply in_or_app. right. now left.
  - apply K in H; [exact H|]. intros o' [<- |[<- |[]]]; exact Logic.I.
  - destruct (nth_error (d_calls s) i) as [[c h [|o ops] []]|] eqn:NE; try discriminate. injection H as <-. pose proof (nth_error_In _ _ NE) as IN.
    split; cbn.
    + assert (G : forall k o', In k (d_calls (do_op s c o)) -> In o' (dc_ops k) -> asked (evs ++ [EOp i]) o').
      { destruct (op_calls s c o) as [-> | ->]; [exact B1|]. apply F. intros k. apply fail_ops. }
      assert (G2 : forall k o', In k (upd i (mkCall c h ops false) (d_calls (do_op s c o))) -> In o' (dc_ops k) -> asked (evs ++ [EOp i]) o').
      { intros k o' I J. apply In_nth_error in I. destruct I as (j & I). apply upd_nth in I. destruct I as [[_ ->]|I].
        - eapply B1; [exact IN|]. cbn in J |- *. now right.
        - eapply G; [|exact J]. destruct I as [_ I]. exact (nth_error_In _ _ I). }
      intros k o' I J. destruct (nth_error (d_calls (do_op s c o)) i) as [[? ? ? []]|]; [eapply G|eapply G2|eapply G2]; eassumption.
    + intros a I. apply op_log in I. destruct I as [I|I]; [now apply B2|].
      assert (A : asked (evs ++ [EOp i]) o) by (eapply B1; [exact IN|now left]).
      destruct a; try exact Logic.I; destruct I as (q & -> & E); cbn in A; destruct A as (c' & A); exists c', q; now split.
  - destruct (find_q n (d_qs s)) as [q|]; [|discriminate]. destruct (existsb _ (q_msgs q)); [|discriminate]. injection H as <-. split; [exact B1|]. cbn. intros a [<- | I]; [exact Logic.I|now apply B2].
  - destruct (find_q n (d_qs s)) as [q|]; [|discriminate]. destruct (a_expires (q_args q)); [|discriminate]. injection H as <-. split; [exact B1|]. cbn. intros a [<- | I]; [exact Logic.I|now apply B2].
  - destruct (has c (d_up s)); [|discriminate]. injection H as <-. split; cbn; [apply F; intros k; apply fail_ops|exact B2].
  - injection H as <-. split; cbn; [apply F; intros k; apply fail_ops|]. intros a [<- | I]; [exact Logic.I|now apply B2].
Qed.
(** The modes in the history are those that the queue was declared with and the message was published with. *)
Theorem C84_asked : forall evs s, reach evs s ->
  (forall n d, In (LMade n d) (d_log s) -> exists c o, In (EDeclare c n o) evs /\ o_dur o = d) /\
  (forall n id m, In (LIn n id m) (d_log s) -> exists c o, In (EPublish c n o) evs /\ o_del o = m).
Proof. intros evs s R. destruct (traced_reach _ _ R) as [_ T]. split; intros n; [intros d I|intros id m I]; exact (T _ I). Qed.
(** A publication to a queue that exists (and is bound, for broadcast) puts the message in it. *)
Theorem C84_published : forall evs s s' i c h n o, reach evs s -> nth_error (d_calls s) i = Some (mkCall c h [OPublish n o] false) ->
  stands n (d_log s) <> None -> (o_syn o = Broadcast -> In n (d_bind s)) -> d_step s (EOp i) = Some s' ->
  exists id, d_log s' = LIn n id (o_del o) :: d_log s /\ in_queue s' n id.
Proof.
  intros evs s s' i c h n o R NE S BD H. assert (R' : reach (evs ++ [EOp i]) s') by (apply run_from_app; exists s; split; [exact R|]; cbn [run_from]; now rewrite H).
  exists (d_next s). assert (EL : d_log s' = LIn n (d_next s) (o_del o) :: d_log s).
  { pose proof (dinv_run _ _ R) as D. pose proof (di_queue _ D n) as Q. cbn [d_step] in H. rewrite NE in H. injection H as <-. cbn.
    destruct (find_q n (d_qs s)) as [q|]; [|congruence]. destruct (o_syn o); [reflexivity|]. specialize (BD eq_refl). destruct (di_bind _ D n BD) as [A _].
    destruct (find_ex n (d_ex s)); [|congruence]. cbn. apply has_In in BD. now rewrite BD. }
  split; [exact EL|]. now apply (C84_until_restart _ s' n (d_next s) (o_del o) [] (d_log s) R' EL).
Qed.

(** A queue that nobody uses can be deleted by the broker exactly if it was declared not to be durable. *)
Theorem C84_expires_iff : forall evs s n, reach evs s -> (d_step s (EExpire n) <> None <-> stands n (d_log s) = Some NonDurable).
Proof.
  intros evs s n R. pose proof (di_queue _ (dinv_run _ _ R) n) as Q. cbn [d_step]. destruct (find_q n (d_qs s)) as [q|].
  - destruct Q as (d & Q1 & Q2 & _). rewrite Q1, Q2. destruct d; cbn; (split; [congruence|]); [intros _; discriminate|discriminate].
  - rewrite Q. split; [congruence|discriminate].
Qed.

(** * C85 *)
(** Full statement: a task or result that was published on a channel survives a restart of the broker. *)
Definition safe_on_channels : Prop := forall evs s n id m l1 l2, Forall channel_event evs -> reach evs s -> d_log s = l1 ++ LIn n id m :: l2 ->
  ~ In (LOut n id) l1 -> ~ In (LDel n) l1 -> ~ In (LExp n) l1 -> in_queue s n id.
(** It is false: channels ask for persistent messages, but their queues are not durable. *)
Definition lost_run : list d_event := [EConnect 0; EDeclare 0 7 (channel_options ChExactlyOnce); EOp 0; EPublish 0 7 (channel_options ChExactlyOnce); EOp 1; ERestart].
Theorem C85_refuted : exists evs s n id m l1 l2, Forall channel_event evs /\ reach evs s /\ d_log s = l1 ++ LIn n id m :: l2 /\
  ~ In (LOut n id) l1 /\ ~ In (LDel n) l1 /\ ~ In (LExp n) l1 /\ ~ in_queue s n id.
Proof.
  exists lost_run. eexists. exists 7, 0, Persistent, [LRestart], [LMade 7 NonDurable]. split.
  - repeat constructor; now exists ChExactlyOnce.
  - split; [reflexivity|]. split; [reflexivity|]. repeat split; try (intros [X|[]]; discriminate). intros (q & [] & _).
Qed.
Definition chan_op (o : dop) : Prop := match o with OQueue n o | OExchange n o | OPublish n o => exists t, o = channel_options t | _ => True end.
Record chinv (s : dst) : Prop := {
  ch_calls : forall k o, In k (d_calls s) -> In o (dc_ops k) -> chan_op o;
  ch_ex : forall p, In p (d_ex s) -> snd p = args_for NonDurable;
  ch_qs : forall q, In q (d_qs s) -> q_args q = args_for NonDurable
}.
Lemma chan_args : forall t, declare_args (channel_options t) = args_for NonDurable. Proof. now intros []. Qed.
Lemma op_made : forall s c o, (forall p, In p (d_ex (do_op s c o)) -> In p (d_ex s) \/ exists n q, o = OExchange n q /\ p = (n, declare_args q)) /\
  (forall q, In q (d_qs (do_op s c o)) -> (exists q', In q' (d_qs s) /\ q_name q = q_name q' /\ q_args q = q_args q') \/ exists n x, o = OQueue n x /\ q_args q = declare_args x).
Proof.
  intros s c o. split.
  - intros p. destruct o as [n o|n o|n|n o|n|n]; cbn; unfold accept; repeat match goal with |- context [match ?x with _ => _ end] => destruct x end; cbn; try tauto.
    + intros [<- | I]; [|tauto]. right. now exists n, o.
    + intros I. apply filter_In in I. tauto.
  - intros q. assert (Z : In q (d_qs s) -> exists q', In q' (d_qs s) /\ q_name q = q_name q' /\ q_args q = q_args q') by (intros I; now exists q).
    assert (Z2 : forall n m, In q (map (put n (d_next s) m) (d_qs s)) -> exists q', In q' (d_qs s) /\ q_name q = q_name q' /\ q_args q = q_args q').
    { intros n m I. apply in_map_iff in I. destruct I as (q' & <- & I). exists q'. split; [exact I|]. unfold put. destruct (Nat.eqb (q_name q') n); now split. }
    destruct o as [n o|n o|n|n o|n|n]; cbn; unfold accept; repeat match goal with |- context [match ?x with _ => _ end] => destruct x end; cbn; try tauto; intros I.
    + destruct I as [<- | I]; [|tauto]. right. now exists n, o.
    + left. now apply Z2 in I.
    + left. now apply Z2 in I.
    + apply filter_In in I. tauto.
Qed.
Lemma chinv_step : forall s e s', chinv s -> channel_event e -> d_step s e = Some s' -> chinv s'.
Proof.
  intros s e s' [C1 C2 C3] CE H.
  assert (K : forall c h ops s', call s c h ops = Some s' -> (forall o, In o ops -> chan_op o) -> chinv s').
  { intros c h ops s1 C A. unfold call in C. destruct (has c (d_up s)); [|discriminate]. injection C as <-. constructor; cbn; try assumption.
    intros k o I J. apply in_app_or in I. destruct I as [I|[<- |[]]]; [eapply C1; eassumption|now apply A]. }
  assert (F : forall f, (forall k, dc_ops (f k) = dc_ops k) -> forall k o, In k (map f (d_calls s)) -> In o (dc_ops k) -> chan_op o).
  { intros f Hf k o I J. apply in_map_iff in I. destruct I as (k0 & <- & I). rewrite Hf in J. eapply C1; eassumption. }
  destruct e as [c|c n o|c n o|c n|i|n id|n|c|]; cbn [d_step] in H.
  - destruct (_ || _)%bool; [discriminate|]. injection H as <-. now constructor.
  - apply K in H; [exact H|]. intros o' I. unfold declare_ops in I. destruct (o_syn o); cbn in I; [destruct I as [<- |[]]|destruct I as [<- |[<- |[<- |[]]]]]; cbn; try exact Logic.I; exact CE.
  - destruct (existsb _ _); [|discriminate]. apply K in H; [exact H|]. intros o' [<- |[]]. exact CE.
  - apply K in H; [exact H|]. intros o' [<- |[<- |[]]]; exact Logic.I.
  - destruct (nth_error (d_calls s) i) as [[c h [|o ops] []]|] eqn:NE; try discriminate. injection H as <-. pose proof (nth_error_In _ _ NE) as IN.
    assert (CO : chan_op o) by (eapply C1; [exact IN|now left]). destruct (op_made s c o) as [M1 M2]. constructor; cbn.
    + assert (G : forall k o', In k (d_calls (do_op s c o)) -> In o' (dc_ops k) -> chan_op o').
      { destruct (op_calls s c o) as [-> | ->]; [exact C1|]. apply F. intros k. apply fail_ops. }
      assert (G2 : forall k o', In k (upd i (mkCall c h ops false) (d_calls (do_op s c o))) -> In o' (dc_ops k) -> chan_op o').
      { intros k o' I J. apply In_nth_error in I. destruct I as (j & I). apply upd_nth in I. destruct I as [[_ ->]|I].
        - eapply C1; [exact IN|]. cbn in J |- *. now right.
        - eapply G; [|exact J]. destruct I as [_ I]. exact (nth_error_In _ _ I). }
      intros k o' I J. destruct (nth_error (d_calls (do_op s c o)) i) as [[? ? ? []]|]; [eapply G|eapply G2|eapply G2]; eassumption.
    + intros p I. destruct (M1 p I) as [J|(n & q & -> & ->)]; [now apply C2|]. destruct CO as (t & ->). apply chan_args.
    + intros q I. destruct (M2 q I) as [(q' & J & _ & ->)|(n & x & -> & ->)]; [now apply C3|]. destruct CO as (t & ->). apply chan_args.
  - destruct (find_q n (d_qs s)) as [q|]; [|discriminate]. destruct (existsb _ (q_msgs q)); [|discriminate]. injection H as <-. constructor; cbn; try assumption.
    intros q' I. apply in_map_iff in I. destruct I as (q0 & <- & I). apply C3 in I. unfold settle. now destruct (Nat.eqb (q_name q0) n).
  - destruct (find_q n (d_qs s)) as [q|]; [|discriminate]. destruct (a_expires (q_args q)); [|discriminate]. injection H as <-. constructor; cbn; try assumption.
    intros q' I. apply filter_In in I. now apply C3.
  - destruct (has c (d_up s)); [|discriminate]. injection H as <-. constructor; cbn; try assumption. apply F. intros k. apply fail_ops.
  - injection H as <-. constructor; cbn.
    + apply F. intros k. apply fail_ops.
    + intros p I. apply filter_In in I. now apply C2.
    + intros q I. apply in_map_iff in I. destruct I as (q0 & <- & I). apply filter_In in I. cbn. now apply C3.
Qed.
Lemma chinv_run : forall evs s, Forall channel_event evs -> reach evs s -> chinv s.
Proof.
  intros evs s C R. apply (run_from_inv_where _ _ d_step channel_event chinv) with (tr := evs) (s := d_init); try assumption; [|constructor; cbn; tauto].
  intros a e b E I H. eapply chinv_step; eassumption.
Qed.
Lemma filter_none : forall (A : Type) (P : A -> bool) l, (forall x, In x l -> P x = false) -> filter P l = [].
Proof. intros A P l. induction l as [|x l IH]; intros H; [reflexivity|]. cbn. rewrite (H x (or_introl eq_refl)). apply IH. intros y I. apply H. now right. Qed.
(** Exactly: after a restart the broker has nothing at all of a program that uses channels; missing is everything that the full statement promises. *)
Theorem C85_nothing_left_partial : forall evs s, Forall channel_event (evs ++ [ERestart]) -> reach (evs ++ [ERestart]) s -> d_qs s = [] /\ d_ex s = [] /\ d_bind s = [] /\ forall n id, ~ in_queue s n id.
Proof.
  intros evs s C R. pose proof (dinv_run _ _ R) as D. apply run_from_app in R. destruct R as (m & R1 & R2). cbn in R2. injection R2 as <-.
  apply Forall_app in C. destruct C as [C _]. pose proof (chinv_run _ _ C R1) as [C1 C2 C3].
  assert (E1 : d_qs (restart m) = []). { cbn. rewrite filter_none; [reflexivity|]. intros q I. now rewrite (C3 q I). }
  assert (E2 : d_ex (restart m) = []). { cbn. apply filter_none. intros p I. now rewrite (C2 p I). }
  split; [exact E1|]. split; [exact E2|]. split; [|intros n id (q & I & _); rewrite E1 in I; exact I].
  destruct (d_bind (restart m)) as [|n l] eqn:B; [reflexivity|]. destruct (di_bind _ D n) as [A _]; [rewrite B; now left|]. rewrite E2 in A. now destruct A.
Qed.
(** With durable queues the same program would be safe: only the durability is missing. *)
Definition durable_event (e : d_event) : Prop :=
  match e with EDeclare _ _ o | EPublish _ _ o => o_dur o = Durable /\ o_del o = Persistent | _ => True end.
Lemma stands_made : forall n d l, stands n l = Some d -> In (LMade n d) l.
Proof.
  intros n d. induction l as [|a l IH]; [discriminate|]. destruct a as [n' d'|n' id' m'|n' id'|n'|n'|c|]; cbn; intros S; try (right; now apply IH).
  - destruct (Nat.eqb n' n) eqn:E; [|right; now apply IH]. eqs. injection S as ->. now left.
  - destruct (Nat.eqb n' n); [discriminate|right; now apply IH].
  - destruct (Nat.eqb n' n); [discriminate|right; now apply IH].
  - destruct (stands n l) as [[]|]; try discriminate. right. now apply IH.
Qed.
Theorem C85_durable : forall evs s n id m l1 l2, Forall durable_event evs -> reach evs s -> d_log s = l1 ++ LIn n id m :: l2 ->
  ~ In (LOut n id) l1 -> ~ In (LDel n) l1 -> in_queue s n id.
Proof.
  intros evs s n id m l1 l2 C R E O X. destruct (C84_asked _ _ R) as [A1 A2]. rewrite Forall_forall in C.
  assert (M : m = Persistent). { destruct (A2 n id m) as (c & o & I & <-); [rewrite E; apply in_or_app; right; now left|]. apply (C _ I). }
  pose proof (di_wf _ (dinv_run _ _ R)) as W. rewrite E in W. apply wf_app in W. destruct W as [[F _] _]. destruct (stands n l2) as [d|] eqn:S; [|congruence].
  assert (D : d = Durable). { destruct (A1 n d) as (c & o & I & <-); [rewrite E; apply in_or_app; right; right; now apply stands_made|]. apply (C _ I). }
  subst. eapply C84_survives; eassumption.
Qed.

(** * C86 *)
(** Full statement (queue/mod.rs, 73-78): declaring a queue that exists returns it. *)
Definition returns_existing : Prop := forall evs s s' i c h n o ops, reach evs s -> nth_error (d_calls s) i = Some (mkCall c h (OQueue n o :: ops) false) ->
  stands n (d_log s) <> None -> d_step s (EOp i) = Some s' -> nth_error (d_calls s') i = Some (mkCall c h ops false) /\ d_qs s' = d_qs s.
(** It is false when the queue exists with the other durability; the channel closes, with all that the connection had under way. *)
Definition clash_run : list d_event :=
  [EConnect 0; EConnect 1; EDeclare 0 7 (mkO Persistent ExactlyOnce Durable); EOp 0;
   EDeclare 1 8 (channel_options ChExactlyOnce); EOp 1; EPublish 1 8 (channel_options ChExactlyOnce); EDeclare 1 7 (channel_options ChExactlyOnce)].
Definition after (evs : list d_event) : dst := match run_from d_step d_init evs with Some s => s | None => d_init end.
Theorem C86_refuted : exists evs s s' i c h n o ops, reach evs s /\ nth_error (d_calls s) i = Some (mkCall c h (OQueue n o :: ops) false) /\
  stands n (d_log s) <> None /\ d_step s (EOp i) = Some s' /\
  nth_error (d_calls s') i = Some (mkCall c h (OQueue n o :: ops) true) /\ ~ In c (d_up s') /\
  exists j x, nth_error (d_calls s') j = Some (mkCall c None [OPublish 8 x] true).
Proof.
  exists clash_run, (after clash_run), (after (clash_run ++ [EOp 3])), 3, 1, (Some (7, channel_options ChExactlyOnce)), 7, (channel_options ChExactlyOnce), [].
  split; [vm_compute; reflexivity|]. split; [vm_compute; reflexivity|]. split; [vm_compute; discriminate|]. split; [vm_compute; reflexivity|]. split; [vm_compute; reflexivity|].
  split; [vm_compute; lia|]. exists 2, (channel_options ChExactlyOnce). vm_compute. reflexivity.
Qed.
Lemma bargs_eqb_iff : forall d d', bargs_eqb (args_for d) (args_for d') = true <-> d = d'.
Proof. intros [] []; cbn; split; intros H; try reflexivity; discriminate. Qed.
(** Exactly when it fails: missing from the full statement are queues that exist with the other durability. *)
Theorem C86_iff_partial : forall evs s s' i c h n o ops, reach evs s -> nth_error (d_calls s) i = Some (mkCall c h (OQueue n o :: ops) false) ->
  stands n (d_log s) <> None -> d_step s (EOp i) = Some s' ->
  d_qs s' = d_qs s /\ (nth_error (d_calls s') i = Some (mkCall c h ops false) <-> stands n (d_log s) = Some (o_dur o)).
Proof.
  intros evs s s' i c h n o ops R NE S H. apply dinv_run in R. pose proof (di_queue _ R n) as Q. cbn [d_step] in H. rewrite NE in H. injection H as <-. cbn.
  destruct (find_q n (d_qs s)) as [q|]; [|congruence]. destruct Q as (d & Q1 & Q2 & Q3). rewrite Q1, Q2. change (declare_args o) with (args_for (o_dur o)).
  assert (LT : i < length (d_calls s)) by (apply nth_error_Some; congruence).
  destruct (bargs_eqb (args_for d) (args_for (o_dur o))) eqn:E; cbn.
  - apply bargs_eqb_iff in E. subst. rewrite NE. split; [reflexivity|]. rewrite upd_nth_same by exact LT. tauto.
  - split; [reflexivity|]. assert (X : nth_error (map (fail c) (d_calls s)) i = Some (mkCall c h (OQueue n o :: ops) true)).
    { rewrite nth_error_map, NE. cbn. unfold fail. cbn. now rewrite Nat.eqb_refl. }
    rewrite X. rewrite X. split; intros Y; [discriminate|]. injection Y as ->. assert (bargs_eqb (args_for (o_dur o)) (args_for (o_dur o)) = true) by now apply bargs_eqb_iff. congruence.
Qed.

(** Channels never clash: while nothing is deleted, expires or restarts, no call of a program that uses channels fails unless its connection ended. *)
Definition exq (s : dst) (n : nat) : Prop := find_ex n (d_ex s) <> None.
Definition quq (s : dst) (n : nat) : Prop := find_q n (d_qs s) <> None.
Fixpoint ready (E Q : nat -> Prop) (ops : list dop) : Prop :=
  match ops with
  | [] => True
  | OExchange n o :: r => (exists t, o = channel_options t) /\ ready (fun x => E x \/ x = n) Q r
  | OQueue n o :: r => (exists t, o = channel_options t) /\ ready E (fun x => Q x \/ x = n) r
  | OBind n :: r => E n /\ Q n /\ ready E Q r
  | OPublish n o :: r => (o_syn o = Broadcast -> E n) /\ ready E Q r
  | _ => False
  end.
Lemma ready_mono : forall ops (E Q E' Q' : nat -> Prop), (forall x, E x -> E' x) -> (forall x, Q x -> Q' x) -> ready E Q ops -> ready E' Q' ops.
Proof.
  induction ops as [|o ops IH]; intros E Q E' Q' HE HQ H; [exact Logic.I|].
  destruct o as [n o|n o|n|n o|n|n]; cbn in *; try tauto.
  - split; [apply H|]. eapply IH; [| |apply H]; [|exact HQ]. intros x [X|X]; [left; auto|now right].
  - split; [apply H|]. eapply IH; [| |apply H]; [exact HE|]. intros x [X|X]; [left; auto|now right].
  - destruct H as (H1 & H2 & H3). repeat split; auto. eapply IH; eassumption.
  - destruct H as (H1 & H3). split; auto. eapply IH; eassumption.
Qed.
Definition backed (s : dst) (k : dcall) : Prop :=
  forall n o, dc_handle k = Some (n, o) -> o_syn o = Broadcast -> exq s n \/ exists o', In (OExchange n o') (dc_ops k).
Definition sound_call (evs : list d_event) (s : dst) (k : dcall) : Prop :=
  ready (exq s) (quq s) (dc_ops k) /\ backed s k /\ (dc_failed k = true -> In (ECrash (dc_conn k)) evs).
Definition keeps (evs : list d_event) (s : dst) : Prop := Forall channel_event evs -> Forall keeping_event evs -> forall k, In k (d_calls s) -> sound_call evs s k.
Lemma sound_more : forall evs e s s' k, (forall n, exq s n -> exq s' n) -> (forall n, quq s n -> quq s' n) -> sound_call evs s k -> sound_call (evs ++ [e]) s' k.
Proof.
  intros evs e s s' k HE HQ (A & B & C). split; [now apply (ready_mono _ (exq s) (quq s))|]. split.
  - intros n o E1 E2. destruct (B n o E1 E2) as [X|X]; [left; auto|now right].
  - intros F. apply in_or_app. left. now apply C.
Qed.
Lemma find_ex_cons : forall m a l n, find_ex n ((m, a) :: l) = if Nat.eqb m n then Some a else find_ex n l.
Proof. intros. unfold find_ex. cbn. now destruct (Nat.eqb m n). Qed.
Lemma find_ex_in : forall n l a, find_ex n l = Some a -> In (n, a) l.
Proof.
  intros n l a. unfold find_ex. destruct (find _ l) as [[n' a']|] eqn:F; [|discriminate]. cbn. intros H. injection H as ->. apply find_some in F. destruct F as [I E].
  cbn in E. apply Nat.eqb_eq in E. now subst.
Qed.
Lemma bargs_refl : forall d, bargs_eqb (args_for d) (args_for d) = true. Proof. now intros []. Qed.
(** An operation that is ready does not close the channel, removes nothing and makes what it should. *)
Lemma ready_op : forall s c o ops, chinv s -> ready (exq s) (quq s) (o :: ops) ->
  d_calls (do_op s c o) = d_calls s /\ (forall n, exq s n -> exq (do_op s c o) n) /\ (forall n, quq s n -> quq (do_op s c o) n) /\
  ready (exq (do_op s c o)) (quq (do_op s c o)) ops /\ (forall n x, o = OExchange n x -> exq (do_op s c o) n).
Proof.
  intros s c o ops [C1 C2 C3] RD. destruct o as [n o|n o|n|n o|n|n]; cbn [ready] in RD; try tauto; unfold exq, quq in *.
  - destruct RD as ((t & ->) & RD). cbn [do_op]. rewrite chan_args. destruct (find_ex n (d_ex s)) as [a|] eqn:F.
    + pose proof (C2 _ (find_ex_in _ _ _ F)) as EA. cbn in EA. subst a. rewrite bargs_refl. repeat split; auto.
      * eapply ready_mono; [| |exact RD]; [|intros x X; exact X]. intros x [X| ->]; [exact X|congruence].
      * intros n' x X. injection X as <- <-. congruence.
    + cbn. repeat split; auto.
      * intros n' X. rewrite find_ex_cons. destruct (Nat.eqb n n'); [discriminate|exact X].
      * eapply ready_mono; [| |exact RD]; [|intros x X; exact X]. intros x X. rewrite find_ex_cons. destruct (Nat.eqb n x) eqn:E; [discriminate|]. eqs. destruct X as [X|X]; [exact X|congruence].
      * intros n' x X. injection X as <- <-. rewrite find_ex_cons, Nat.eqb_refl. discriminate.
  - destruct RD as ((t & ->) & RD). cbn [do_op]. rewrite chan_args. destruct (find_q n (d_qs s)) as [q|] eqn:F.
    + destruct (find_q_some _ _ _ F) as [I _]. rewrite (C3 _ I), bargs_refl. repeat split; auto; [|discriminate].
      eapply ready_mono; [| |exact RD]; [intros x X; exact X|]. intros x [X| ->]; [exact X|congruence].
    + cbn [d_calls d_ex d_qs]. repeat split; auto; [| |discriminate].
      * intros n' X. rewrite find_q_cons. cbn. destruct (Nat.eqb n n'); [discriminate|exact X].
      * eapply ready_mono; [| |exact RD]; [intros x X; exact X|]. intros x X. rewrite find_q_cons. cbn. destruct (Nat.eqb n x) eqn:E; [discriminate|]. eqs. destruct X as [X|X]; [exact X|congruence].
  - destruct RD as (A & B & RD). cbn [do_op]. destruct (find_ex n (d_ex s)) eqn:E1; [|congruence]. destruct (find_q n (d_qs s)) eqn:E2; [|congruence]. cbn. repeat split; auto; try discriminate.
  - destruct RD as (A & RD). cbn [do_op].
    assert (G : forall b, let s' := accept s n (o_del o) b in d_calls s' = d_calls s /\ (forall n, find_ex n (d_ex s) <> None -> find_ex n (d_ex s') <> None) /\
      (forall n, find_q n (d_qs s) <> None -> find_q n (d_qs s') <> None) /\ ready (fun x => find_ex x (d_ex s') <> None) (fun x => find_q x (d_qs s') <> None) ops /\
      (forall n' x, OPublish n o = OExchange n' x -> find_ex n' (d_ex s') <> None)).
    { intros b. assert (Y : forall x, find_q x (d_qs s) <> None -> find_q x (map (put n (d_next s) (o_del o)) (d_qs s)) <> None).
      { intros x X. rewrite find_q_map by apply put_name. destruct (find_q x (d_qs s)); [discriminate|congruence]. }
      destruct b; cbn; repeat split; auto; try discriminate. eapply ready_mono; [| |exact RD]; [intros x X; exact X|exact Y]. }
    destruct (o_syn o); [apply G|]. specialize (A eq_refl). destruct (find_ex n (d_ex s)) eqn:E1; [|congruence]. cbn [some]. apply G.
Qed.
Lemma keeps_reach : forall evs s, reach evs s -> keeps evs s.
Proof.
  apply reach_track; [intros _ _ k []|]. intros evs s e s' P R H CE KE. apply Forall_app in CE. destruct CE as [CE1 CE2]. apply Forall_app in KE. destruct KE as [KE1 KE2].
  specialize (P CE1 KE1). pose proof (chinv_run _ _ CE1 R) as CH. inversion CE2 as [|? ? CE _]; subst. inversion KE2 as [|? ? KE _]; subst.
  assert (M : forall k, In k (d_calls s) -> forall s', (forall n, exq s n -> exq s' n) -> (forall n, quq s n -> quq s' n) -> sound_call (evs ++ [e]) s' k).
  { intros k I s1 A B. apply (sound_more _ _ s); auto. }
  assert (K : forall c h ops s', call s c h ops = Some s' -> sound_call (evs ++ [e]) s (mkCall c h ops false) -> forall k, In k (d_calls s') -> sound_call (evs ++ [e]) s' k).
  { intros c h ops s1 C A. unfold call in C. destruct (has c (d_up s)); [|discriminate]. injection C as <-. cbn. intros k I. apply in_app_or in I. destruct I as [I|[<- |[]]]; [now apply M|exact A]. }
  destruct e as [c|c n o|c n o|c n|i|n id|n|c|]; cbn [d_step channel_event keeping_event] in *; try tauto.
  - destruct (_ || _)%bool; [discriminate|]. injection H as <-. intros k I. now apply M.
  - apply (K _ _ _ _ H). split; [|split; [|discriminate]].
    + cbn. unfold declare_ops. destruct (o_syn o); cbn; [split; [exact CE|exact Logic.I]|]. split; [exact CE|]. split; [exact CE|]. tauto.
    + intros n' o' E1 E2. cbn in E1. injection E1 as <- <-. right. exists o. cbn. unfold declare_ops. rewrite E2. now left.
  - destruct (existsb _ _) eqn:X; [|discriminate]. apply (K _ _ _ _ H). split; [|split; [intros n' o' Y; discriminate|discriminate]]. cbn. split; [|exact Logic.I]. intros BC.
    apply existsb_exists in X. destruct X as ([c' h' ops' f'] & I & X). unfold handle_of in X. cbn in X. destruct h' as [[n' o']|]; [|now rewrite andb_false_r in X].
    destruct ops'; [|now rewrite andb_false_r in X]. apply andb_true_iff in X. destruct X as [_ X]. apply andb_true_iff in X. destruct X as [X1 X2]. apply Nat.eqb_eq in X1. subst n'.
    destruct (qopts_dec o' o) as [-> |]; [|discriminate]. destruct (P _ I) as (_ & B & _). destruct (B n o eq_refl BC) as [Y|(o' & [])]. exact Y.
  - destruct (nth_error (d_calls s) i) as [[c h [|o ops] []]|] eqn:NE; try discriminate. injection H as <-. pose proof (nth_error_In _ _ NE) as IN.
    destruct (P _ IN) as (A & B & _). cbn in A. destruct (ready_op s c o ops CH A) as (E1 & E2 & E3 & E4 & E5). cbn [d_calls]. rewrite E1, NE. intros k I.
    apply In_nth_error in I. destruct I as (j & I). apply upd_nth in I. destruct I as [[_ ->]|[_ I]].
    + split; [exact E4|]. split; [|discriminate]. intros n q X1 X2. cbn in X1. destruct (B n q X1 X2) as [Y|(o' & [-> | Y])]; [left; now apply E2|left; eapply E5; reflexivity|].
      right. now exists o'.
    + apply M; [exact (nth_error_In _ _ I)|exact E2|exact E3].
  - destruct (find_q n (d_qs s)) as [q|]; [|discriminate]. destruct (existsb _ (q_msgs q)); [|discriminate]. injection H as <-. intros k I. apply M; [exact I|tauto|].
    intros n'. unfold quq. cbn [d_qs]. rewrite find_q_map by apply settle_name. destruct (find_q n' (d_qs s)); [discriminate|congruence].
  - destruct (has c (d_up s)); [|discriminate]. injection H as <-. cbn. intros k I. apply in_map_iff in I. destruct I as (k0 & <- & I).
    specialize (M k0 I s (fun _ x => x) (fun _ x => x)). destruct M as (A & B & C). destruct (fail_ops c k0) as (F1 & F2 & F3).
    split; [now rewrite F1|]. split; [intros n o; rewrite F1, F3; apply B|]. rewrite F2. intros F. unfold fail in F.
    destruct (Nat.eqb (dc_conn k0) c) eqn:E; [|now apply C]. apply Nat.eqb_eq in E. rewrite E. apply in_or_app. right. now left.
Qed.
Theorem C86_channels : forall evs s, Forall channel_event evs -> Forall keeping_event evs -> reach evs s ->
  forall k, In k (d_calls s) -> dc_failed k = true -> In (ECrash (dc_conn k)) evs.
Proof. intros evs s C K R k I F. destruct (keeps_reach _ _ R C K k I) as (_ & _ & H). now apply H. Qed.

(** * Examples *)
(** Two queues, durable and not, with both kinds of messages; after a restart only the persistent message in the durable queue is left. *)
Definition both_run : list d_event :=
  let d := mkO Persistent Broadcast Durable in let e := mkO Ephemeral ExactlyOnce Durable in
  [EConnect 0; EDeclare 0 7 d; EOp 0; EOp 0; EOp 0; EDeclare 0 7 e; EOp 1; EDeclare 0 8 (channel_options ChExactlyOnce); EOp 2;
   EPublish 0 7 d; EOp 3; EPublish 0 7 e; EOp 4; EPublish 0 8 (channel_options ChExactlyOnce); EOp 5; ERestart; EConnect 1; EDeclare 1 7 d; EOp 6; EOp 6; EOp 6].
Example C84_ex : exists s, reach both_run s /\ map (fun q => (q_name q, q_msgs q)) (d_qs s) = [(7, [(0, true)])] /\ d_bind s = [7] /\
  d_log s = [LRestart; LIn 8 2 Persistent; LIn 7 1 Ephemeral; LIn 7 0 Persistent; LMade 8 NonDurable; LMade 7 Durable].
Proof. exists (after both_run). vm_compute. repeat split. Qed.
Example C84_ex_hyps : exists s l1 l2, reach both_run s /\ d_log s = l1 ++ LIn 7 0 Persistent :: l2 /\ stands 7 l2 = Some Durable /\ ~ In (LOut 7 0) l1 /\ ~ In (LDel 7) l1 /\ In LRestart l1.
Proof.
  exists (after both_run), [LRestart; LIn 8 2 Persistent; LIn 7 1 Ephemeral], [LMade 8 NonDurable; LMade 7 Durable]. split; [vm_compute; reflexivity|]. split; [vm_compute; reflexivity|].
  cbn. intuition discriminate.
Qed.
(** Without the restart, the queue of the channel can expire and the durable one cannot. *)
Example C84_ex_expiry : exists s, reach (firstn 15 both_run) s /\ d_step s (EExpire 8) <> None /\ d_step s (EExpire 7) = None.
Proof. exists (after (firstn 15 both_run)). vm_compute. repeat split. discriminate. Qed.
(** Two programs use the same names for channels of both types; one connection ends in between. *)
Definition calm_run : list d_event :=
  [EConnect 0; EConnect 1; EDeclare 0 7 (channel_options ChBroadcast); EDeclare 1 7 (channel_options ChExactlyOnce); EOp 0; EOp 1; EOp 0; EOp 0;
   EPublish 0 7 (channel_options ChBroadcast); EOp 2; EDeclare 1 7 (channel_options ChBroadcast); EOp 3; ECrash 1; ESettle 7 0].
Example C86_ex : exists s, reach calm_run s /\ map dc_failed (d_calls s) = [false; false; false; true] /\ map q_msgs (d_qs s) = [[]].
Proof. exists (after calm_run). vm_compute. repeat split. Qed.
Definition durable_run : list d_event :=
  let o := mkO Persistent ExactlyOnce Durable in [EConnect 0; EDeclare 0 7 o; EOp 0; EPublish 0 7 o; EOp 1; ERestart; ERestart].
Example C85_ex : Forall durable_event durable_run /\ exists s, reach durable_run s /\ in_queue s 7 0 /\ d_log s = [LRestart; LRestart] ++ LIn 7 0 Persistent :: [LMade 7 Durable].
Proof.
  split; [repeat constructor|]. exists (after durable_run). split; [vm_compute; reflexivity|]. split; [|vm_compute; reflexivity].
  eexists. split; [vm_compute; left; reflexivity|]. split; [reflexivity|now left].
Qed.

Print Assumptions C84_iff.
Print Assumptions C84_survives.
Print Assumptions C84_lost.
Print Assumptions C84_until_restart.
Print Assumptions C84_asked.
Print Assumptions C84_published.
Print Assumptions C84_expires_iff.
Print Assumptions C85_refuted.
Print Assumptions C85_nothing_left_partial.
Print Assumptions C85_durable.
Print Assumptions C86_refuted.
Print Assumptions C86_iff_partial.
Print Assumptions C86_channels.
