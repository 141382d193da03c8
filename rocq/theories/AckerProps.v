(** C21: the coordinated acknowledgement follows the broker acknowledgement. *)
From Coq Require Import List NArith Bool Lia.
From Verif Require Import Base CoordModel AckerModel.
Import ListNotations.

(** Two processes behave alike: same result, actions, world and consumption, whatever other tasks do in between. *)
Definition alike {W L E : Type} (p q : @proc W L E) : Prop := forall env w, prun env w p = prun env w q.
Definition same_acker {W L E : Type} (a b : @acker W L E) : Prop := alike (a_ack a) (a_ack b) /\ alike (a_nack a) (a_nack b).

(** The broker's own acker touches only the broker. *)
Inductive broker_only {B E : Type} : @proc (aworld B) act_name E -> Prop :=
| bo_done : forall r, broker_only (Done r)
| bo_act : forall n u k, (forall w, broker_only (k w)) ->
    (forall w, w_did (u w) = w_did w /\ w_pending (u w) = w_pending w) -> broker_only (Act (LBroker n) u k).

Definition is_broker (l : act_name) : Prop := exists n, l = LBroker n.

(** The behaviour of [and_then], independently of how it is written. *)
Lemma and_then_run : forall (W L E : Type) (p q : @proc W L E) env w,
  prun env w (and_then p q) =
  let o := prun env w p in
  match o_res o with
  | None => o
  | Some (RErr e) => o
  | Some (ROk _) => let o2 := prun (o_env o) (o_world o) q in
                    mkOut (o_res o2) (o_acts o ++ o_acts o2) (o_world o2) (o_env o2)
  end.
Proof.
  intros W L E p q. induction p as [r | l u k IH]; intros env w; cbn.
  - destruct r as [[]|e]; cbn; [destruct (prun env w q)|]; reflexivity.
  - destruct env as [|f env]; [reflexivity|]. cbn. rewrite IH. cbn.
    set (o := prun env (u (f w)) (k (f w))). destruct (o_res o) as [[v|e]|] eqn:R; cbn; rewrite ?R; reflexivity.
Qed.

Theorem C21_associative : forall (W L E : Type) (a b c : @acker W L E),
  same_acker (composed (composed a b) c) (composed a (composed b c)).
Proof.
  intros W L E a b c.
  assert (G : forall p q r : @proc W L E, alike (and_then (and_then p q) r) (and_then p (and_then q r))).
  { intros p q r env w. rewrite !and_then_run. cbn. rewrite !and_then_run. cbn.
    set (o := prun env w p). destruct (o_res o) as [[v|e]|] eqn:R; cbn; rewrite ?R; try reflexivity.
    set (o2 := prun (o_env o) (o_world o) q). destruct (o_res o2) as [[v2|e2]|] eqn:R2; cbn; rewrite ?R2, ?and_then_run; cbn; fold o2; rewrite ?R2; cbn; rewrite <- ?app_assoc; reflexivity. }
  split; cbn; apply G.
Qed.
Print Assumptions C21_associative.

Theorem C21_noop_identity : forall (W L E : Type) (a : @acker W L E),
  same_acker (composed noop a) a /\ same_acker (composed a noop) a.
Proof.
  intros W L E a. split; split; cbn; intros env w; try reflexivity; rewrite and_then_run; cbn.
  - set (o := prun env w (a_ack a)). destruct o as [[[[]|e]|] ac wo en]; cbn; rewrite ?app_nil_r; reflexivity.
  - set (o := prun env w (a_nack a)). destruct o as [[[[]|e]|] ac wo en]; cbn; rewrite ?app_nil_r; reflexivity.
Qed.
Print Assumptions C21_noop_identity.

Lemma broker_acts : forall (B E : Type) (p : @proc (aworld B) act_name E), broker_only p ->
  forall env w, Forall is_broker (o_acts (prun env w p)).
Proof.
  intros B E p H. induction H as [r | n u k Hk IH Hu]; intros env w; cbn; [constructor|].
  destruct env as [|f env]; cbn; [constructor|]. constructor; [now exists n|]. apply IH.
Qed.

(** Acking (or nacking) a result: every broker action comes first; the counter is decreased at most once and only after the
    broker acknowledged successfully; if the broker fails its error is returned and nothing of the channel is touched. *)
Definition follows_broker {B E : Type} (b p : @proc (aworld B) act_name E) : Prop :=
  forall env w,
    let o := prun env w b in let r := prun env w p in
    match o_res o with
    | Some (RErr e) => o_res r = Some (RErr e) /\ o_acts r = o_acts o /\ ~ In LSub (o_acts r) /\ ~ In LSwap (o_acts r)
    | None => o_res r = None /\ ~ In LSub (o_acts r) /\ ~ In LSwap (o_acts r)
    | Some (ROk _) =>
        exists rest, o_acts r = o_acts o ++ rest /\ Forall is_broker (o_acts o) /\
          (rest = [] /\ o_res r = None \/ rest = [LSwap] \/ rest = [LSwap; LSub]) /\ (forall e, o_res r <> Some (RErr e))
    end.

Lemma coord_cases : forall (B E : Type) env (w : aworld B),
  let o := prun env w (@coord_proc B E) in
  (o_acts o = [] /\ o_res o = None) \/
  ((o_acts o = [LSwap] \/ o_acts o = [LSwap; LSub]) /\ (o_res o = Some (ROk tt) \/ o_res o = None)).
Proof.
  intros B E env w. destruct env as [|f env]; cbn; [now left|]. right. destruct (w_did (f w)); cbn.
  - auto.
  - destruct env as [|g env]; cbn; auto.
Qed.

Local Opaque coord_proc.
Lemma only_broker_notin : forall l, Forall is_broker l -> ~ In LSub l /\ ~ In LSwap l.
Proof. intros l F. rewrite Forall_forall in F. split; intros I; apply F in I; destruct I; discriminate. Qed.

Theorem C21_broker_first : forall (B E : Type) (broker : @acker (aworld B) act_name E),
  broker_only (a_ack broker) -> broker_only (a_nack broker) ->
  follows_broker (a_ack broker) (a_ack (result_acker broker)) /\
  follows_broker (a_nack broker) (a_nack (result_acker broker)).
Proof.
  intros B E broker H1 H2.
  assert (G : forall b : @proc (aworld B) act_name E, broker_only b -> follows_broker b (and_then b coord_proc)).
  { intros b H env w. cbn. rewrite and_then_run. cbn. pose proof (broker_acts _ _ b H env w) as F.
    set (o := prun env w b) in *. destruct (o_res o) as [[v|e]|] eqn:R; cbn.
    - exists (o_acts (prun (o_env o) (o_world o) (@coord_proc B E))).
      pose proof (coord_cases B E (o_env o) (o_world o)) as CC. cbn in CC.
      set (c := prun (o_env o) (o_world o) (@coord_proc B E)) in *. clearbody c.
      split; [reflexivity|]. split; [exact F|]. destruct CC as [[-> ->]|[X Y]].
      + split; [auto|]. intros e D. discriminate.
      + split; [tauto|]. intros e D. destruct Y; congruence.
    - rewrite ?R. destruct (only_broker_notin _ F). auto.
    - rewrite ?R. destruct (only_broker_notin _ F). auto. }
  split; apply G; assumption.
Qed.
Print Assumptions C21_broker_first.
Local Transparent coord_proc.

(** Alone (no other task interferes) the whole effect is: broker effect, then one decrement unless the acker was used before. *)
Theorem C21_effect : forall (B E : Type) (broker : @acker (aworld B) act_name E) n w,
  broker_only (a_ack broker) ->
  let quiet := repeat (fun x : aworld B => x) n in
  let o := prun quiet w (a_ack broker) in
  match o_res o with
  | Some (ROk _) => forall n', o_env o = repeat (fun x : aworld B => x) (S (S n')) ->
      let r := prun quiet w (a_ack (result_acker broker)) in
      o_res r = Some (ROk tt) /\ w_did (o_world r) = true /\ w_broker (o_world r) = w_broker (o_world o) /\
      w_pending (o_world r) = (if w_did w then w_pending w else wpred (w_pending w))
  | Some (RErr e) => let r := prun quiet w (a_ack (result_acker broker)) in
      o_res r = Some (RErr e) /\ w_pending (o_world r) = w_pending w /\ w_did (o_world r) = w_did w
  | None => True
  end.
Proof.
  intros B E broker n w H quiet o.
  assert (K : forall p : @proc (aworld B) act_name E, broker_only p -> forall n w,
              let o := prun (repeat (fun x : aworld B => x) n) w p in w_did (o_world o) = w_did w /\ w_pending (o_world o) = w_pending w).
  { clear. intros p H. induction H as [r | m u k Hk IH Hu]; intros n w; cbn; [auto|].
    destruct n as [|n]; cbn; [auto|]. destruct (IH w n (u w)) as [A1 A2]. destruct (Hu w) as [B1 B2].
    rewrite A1, A2, B1, B2. auto. }
  destruct (K _ H n w) as [K1 K2]. fold quiet in K1, K2. fold o in K1, K2.
  destruct (o_res o) as [[v|e]|] eqn:R; [| |exact I].
  - intros n' EN r. unfold r, result_acker, composed. cbn [a_ack]. rewrite and_then_run. cbn zeta. fold o. rewrite R, EN. cbn.
    rewrite K1. destruct (w_did w); cbn; rewrite K2; auto.
  - unfold result_acker, composed. cbn [a_ack]. rewrite and_then_run. cbn zeta. fold o. rewrite R. auto.
Qed.
Print Assumptions C21_effect.

(** A broker acker with two actions, the second of which fails when the broker is down. *)
Definition toy_broker : @acker (aworld bool) act_name nat :=
  let p : @proc (aworld bool) act_name nat := Act (LBroker 0) (fun w => w)
             (fun _ => Act (LBroker 1) (fun w => w) (fun w : aworld bool => if w_broker w then Done (ROk tt) else Done (RErr 7%nat))) in
  mkAcker p p.
Example C21_case : broker_only (a_ack toy_broker) /\
  let id4 := repeat (fun x : aworld bool => x) 4 in
  let r := prun id4 (mkAW false 3 true) (a_ack (result_acker toy_broker)) in
  o_acts r = [LBroker 0; LBroker 1; LSwap; LSub] /\ w_pending (o_world r) = 2%N /\
  (* the broker goes down between its two actions *)
  let down := [fun x : aworld bool => x; fun x => mkAW (w_did x) (w_pending x) false; fun x => x; fun x => x] in
  let r2 := prun down (mkAW false 3 true) (a_ack (result_acker toy_broker)) in
  o_acts r2 = [LBroker 0; LBroker 1] /\ o_res r2 = Some (RErr 7%nat) /\ w_pending (o_world r2) = 3%N.
Proof.
  split; [|repeat split; reflexivity].
  constructor; [|auto]. intros _. constructor; [|auto]. intros w. destruct (w_broker w); constructor.
Qed.
