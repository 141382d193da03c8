(** C76 and C77: starting leaders and workers. *)
From Coq Require Import List Arith NArith Bool String Lia.
From Verif Require Import KeyModel KeyProps StartModel.
Import ListNotations.
Local Open Scope string_scope.

(** Two channels are one queue if they are on one connection or broker and have one name. *)
Definition same_queue (a b : channel) : Prop := ch_conn a = ch_conn b /\ ch_name a = ch_name b.
(** Both ends agree on a channel: the queue, how it is distributed, the format of its messages. *)
Definition agree (m : mode) (a b : channel) : Prop := same_queue a b /\ ch_mode a = m /\ ch_mode b = m /\ ch_serializer a = ch_serializer b.
(** A worker works for a leader: each task goes to one worker, each command to all, and what the leader writes is what the worker reads. *)
Definition works_for (w : worker) (l : leader) : Prop := agree Single (w_tasks w) (l_tasks l) /\ agree Broadcast (w_commands w) (l_commands l).

(** C76: a command line that is accepted does not make the program panic. *)
Theorem C76_refuted : exists l g, parse l = Some g /\ forall up me, start_leader up me g = Panics /\ start_worker up me g = Panics.
Proof.
  exists (mkCli (mkGiven None None) (mkGiven None None) (mkGiven None None) (mkGiven None None) (mkGiven None None)), default_config. split; [reflexivity|]. intros up me. split; reflexivity.
Qed.
(** Exactly when. *)
Theorem C76_panics_iff_partial : forall l g up me, parse l = Some g ->
  (start_leader up me g = Panics <-> explicit (c_runtime l) = None /\ explicit (c_uri l) = None) /\
  (start_worker up me g = Panics <-> explicit (c_runtime l) = None /\ explicit (c_uri l) = None).
Proof.
  intros l g up me P. unfold parse in P. unfold start_leader, start_worker, factory.
  destruct (explicit (c_runtime l)) as [[|]|], (explicit (c_uri l)) as [u|]; try discriminate P; injection P as <-; cbn; try destruct (up u); split; split; intros H; try discriminate H; try (destruct H; discriminate); auto.
Qed.
(** Otherwise it starts, or the broker cannot be reached. *)
Theorem C76_fails_iff : forall g up me, start_worker up me g = Fails <-> exists u, g_runtime g = Amqp /\ g_uri g = Some u /\ up u = false.
Proof.
  intros g up me. unfold start_worker, factory. split.
  - destruct (g_runtime g); [|discriminate]. destruct (g_uri g) as [u|]; [|discriminate]. destruct (up u) eqn:U; [discriminate|]. eauto.
  - intros (u & -> & -> & ->). reflexivity.
Qed.
Theorem C76_in_memory : forall up me, exists l, in_memory up me = Starts l /\ ch_serializer (l_tasks l) = Postcard /\ ch_serializer (l_commands l) = Postcard /\ List.length (l_emulated l) = 3 /\ forall w, In w (l_emulated l) -> works_for w l.
Proof.
  intros up me. eexists. split; [reflexivity|]. split; [reflexivity|]. split; [reflexivity|]. split; [reflexivity|]. cbn. intros w [<-|[<-|[<-|[]]]]; repeat split.
Qed.

(** What was configured: an argument wins over the environment, which wins over the default. *)
Definition wins {A : Type} (g : given A) (default x : option A) : Prop :=
  (forall a, v_arg g = Some a -> x = Some a) /\ (forall a, v_arg g = None -> v_env g = Some a -> x = Some a) /\ (v_arg g = None -> v_env g = None -> x = default).
Theorem C76_read : forall l g, parse l = Some g ->
  wins (c_serializer l) (Some Postcard) (Some (g_serializer g)) /\ wins (c_runtime l) (Some Amqp) (Some (g_runtime g)) /\
  wins (c_workers l) None (g_workers g) /\ wins (c_uri l) None (g_uri g) /\ wins (c_key l) None (g_key g).
Proof.
  intros [[a a'] [b b'] [c c'] [d d'] [e e']] g P. unfold parse, explicit in P. cbn in P |- *.
  assert (X : g = mkConfig (or_default (match a with Some x => Some x | None => a' end) Postcard) (or_default (match b with Some x => Some x | None => b' end) Amqp)
    (match c with Some x => Some x | None => c' end) (match d with Some x => Some x | None => d' end) (match e with Some x => Some x | None => e' end)).
  { destruct b as [[|]|]; [| |destruct b' as [[|]|]]; destruct d; try destruct d'; try discriminate P; injection P as <-; reflexivity. }
  rewrite X. unfold wins. cbn. repeat split; intros; subst; reflexivity.
Qed.

(** C77: a worker started with the leader's configuration works for it. *)
Definition expected_key (k : option string) : string := match k with Some s => s | None => "task-ipc-routing-key" end.
Lemma started_leader : forall up me g l, start_leader up me g = Starts l ->
  exists c, factory up me g = Starts (c, g_serializer g) /\ ch_conn (l_tasks l) = c /\ ch_conn (l_commands l) = c /\ ch_name (l_tasks l) = expected_key (g_key g) /\
    ch_name (l_commands l) = "command-ipc-routing-key" /\ ch_serializer (l_tasks l) = g_serializer g /\ ch_serializer (l_commands l) = g_serializer g /\
    ch_mode (l_tasks l) = Single /\ ch_mode (l_commands l) = Broadcast /\
    (forall w, In w (l_emulated l) -> works_for w l) /\ (g_runtime g = InMemory -> List.length (l_emulated l) = N.to_nat (or_default (g_workers g) 3%N)) /\ (g_runtime g = Amqp -> l_emulated l = []).
Proof.
  intros up me g l H. unfold start_leader in H. destruct (factory up me g) as [| |[c se]] eqn:F; try discriminate H. injection H as <-. exists c.
  assert (se = g_serializer g) as ->. { unfold factory in F. destruct (g_runtime g); [destruct (g_uri g); [|discriminate]; destruct (up _); [|discriminate]|]; injection F as _ <-; reflexivity. }
  split; [reflexivity|]. do 8 (split; [reflexivity|]). cbn [l_emulated]. destruct (g_runtime g).
  - split; [intros w []|]. split; [discriminate|reflexivity].
  - split; [intros w H; apply repeat_spec in H; subst w; repeat split|]. split; [intros _; apply repeat_length|discriminate].
Qed.
Lemma started_worker : forall up me g w, start_worker up me g = Starts w ->
  exists c, factory up me g = Starts (c, g_serializer g) /\ ch_conn (w_tasks w) = c /\ ch_conn (w_commands w) = c /\ ch_name (w_tasks w) = expected_key (g_key g) /\
    ch_name (w_commands w) = "command-ipc-routing-key" /\ ch_serializer (w_tasks w) = g_serializer g /\ ch_serializer (w_commands w) = g_serializer g /\
    ch_mode (w_tasks w) = Single /\ ch_mode (w_commands w) = Broadcast.
Proof.
  intros up me g w H. unfold start_worker in H. destruct (factory up me g) as [| |[c se]] eqn:F; try discriminate H. injection H as <-. exists c.
  assert (se = g_serializer g) as ->. { unfold factory in F. destruct (g_runtime g); [destruct (g_uri g); [|discriminate]; destruct (up _); [|discriminate]|]; injection F as _ <-; reflexivity. }
  cbn. repeat split.
Qed.
Theorem C77_refuted : exists l g, parse l = Some g /\ forall up a b, a <> b -> exists ld w, start_leader up a g = Starts ld /\ start_worker up b g = Starts w /\ ~ works_for w ld.
Proof.
  exists (mkCli (mkGiven None None) (mkGiven (Some InMemory) None) (mkGiven None None) (mkGiven None None) (mkGiven None None)), (mkConfig Postcard InMemory None None None). split; [reflexivity|].
  intros up a b NE. eexists. eexists. split; [reflexivity|]. split; [reflexivity|]. intros (((Q & _) & _) & _). cbn in Q. congruence.
Qed.
(** Exactly when a leader and a worker that started work together. *)
Theorem C77_iff_partial : forall up a b gl gw ld w, a <> b -> start_leader up a gl = Starts ld -> start_worker up b gw = Starts w ->
  (works_for w ld <-> g_runtime gl = Amqp /\ g_runtime gw = Amqp /\ g_uri gl = g_uri gw /\ g_serializer gl = g_serializer gw /\ expected_key (g_key gl) = expected_key (g_key gw)).
Proof.
  intros up a b gl gw ld w NE HL HW. destruct (started_leader _ _ _ _ HL) as (cl & FL & L1 & L2 & L3 & L4 & L5 & L6 & L7 & L8 & _). destruct (started_worker _ _ _ _ HW) as (cw & FW & W1 & W2 & W3 & W4 & W5 & W6 & W7 & W8).
  unfold works_for, agree, same_queue. rewrite L1, L2, L3, L4, L5, L6, L7, L8, W1, W2, W3, W4, W5, W6, W7, W8.
  assert (C : cl = cw <-> g_runtime gl = Amqp /\ g_runtime gw = Amqp /\ g_uri gl = g_uri gw).
  { unfold factory in FL, FW. destruct (g_runtime gl), (g_runtime gw).
    - destruct (g_uri gl) as [u|]; [|discriminate]. destruct (up u); [|discriminate]. injection FL as <-. destruct (g_uri gw) as [u'|]; [|discriminate]. destruct (up u'); [|discriminate]. injection FW as <-.
      split; [intros Q; injection Q as ->; auto|intros (_ & _ & Q); congruence].
    - destruct (g_uri gl) as [u|]; [|discriminate]. destruct (up u); [|discriminate]. injection FL as <-. injection FW as <-. split; [discriminate|intros (_ & Q & _); discriminate].
    - destruct (g_uri gw) as [u'|]; [|discriminate]. destruct (up u'); [|discriminate]. injection FL as <-. injection FW as <-. split; [discriminate|intros (Q & _); discriminate].
    - injection FL as <-. injection FW as <-. split; [intros Q; congruence|intros (Q & _); discriminate]. }
  split.
  - intros (((Q1 & Q2) & _ & _ & Q3) & _). symmetry in Q1. apply C in Q1. destruct Q1 as (A & B & D). auto.
  - intros (A & B & D & E & F). assert (cl = cw) by (apply C; auto). subst. repeat split; auto.
Qed.
(** The workers that an in-memory leader emulates work for it, as many as configured: none, if zero is configured. *)
Theorem C77_emulated : forall up a g ld, start_leader up a g = Starts ld ->
  (forall w, In w (l_emulated ld) -> works_for w ld) /\
  N.of_nat (List.length (l_emulated ld)) = match g_runtime g with InMemory => or_default (g_workers g) 3%N | Amqp => 0%N end.
Proof.
  intros up a g ld H. destruct (started_leader _ _ _ _ H) as (c & _ & _ & _ & _ & _ & _ & _ & _ & _ & E & N & N'). split; [exact E|]. destruct (g_runtime g); [rewrite N' by reflexivity; reflexivity|].
  rewrite N by reflexivity. apply N2Nat.id.
Qed.
(** Tasks and commands share a queue exactly if the configured key is that of the commands; nothing rejects it. *)
Theorem C77_key_refuted : exists l g, parse l = Some g /\ forall up a, up "amqp://localhost" = true -> exists ld, start_leader up a g = Starts ld /\ same_queue (l_tasks ld) (l_commands ld) /\
  ch_mode (l_tasks ld) <> ch_mode (l_commands ld).
Proof.
  exists (mkCli (mkGiven None None) (mkGiven (Some Amqp) None) (mkGiven None None) (mkGiven None (Some "amqp://localhost")) (mkGiven (Some "command-ipc-routing-key") None)).
  eexists. split; [reflexivity|]. intros up a U. unfold start_leader, factory. cbn [g_runtime g_uri]. rewrite U. eexists. split; [reflexivity|]. split; [split; reflexivity|discriminate].
Qed.
Theorem C77_apart_iff : forall up a g ld, start_leader up a g = Starts ld -> (same_queue (l_tasks ld) (l_commands ld) <-> g_key g = Some "command-ipc-routing-key").
Proof.
  intros up a g ld H. destruct (started_leader _ _ _ _ H) as (c & _ & L1 & L2 & L3 & L4 & _). unfold same_queue. rewrite L1, L2, L3, L4. destruct (g_key g) as [k|]; cbn.
  - split; [intros [_ ->]; reflexivity|intros Q; injection Q as ->; auto].
  - split; [intros [_ Q]; discriminate|discriminate].
Qed.

(** A leader on the command line and a worker in the environment, the default key spelled out by one of them. *)
Example C77_example :
  let up := fun u => String.eqb u "amqp://broker" in
  exists gl gw ld w, parse (mkCli (mkGiven None None) (mkGiven (Some Amqp) None) (mkGiven None None) (mkGiven (Some "amqp://broker") (Some "amqp://elsewhere")) (mkGiven None None)) = Some gl /\
  parse (mkCli (mkGiven None (Some Postcard)) (mkGiven None None) (mkGiven None None) (mkGiven None (Some "amqp://broker")) (mkGiven None (Some "task-ipc-routing-key"))) = Some gw /\
  start_leader up 0 gl = Starts ld /\ start_worker up 1 gw = Starts w /\ works_for w ld.
Proof.
  cbv zeta. eexists. eexists. eexists. eexists. split; [reflexivity|]. split; [reflexivity|]. split; [reflexivity|]. split; [reflexivity|]. repeat split.
Qed.
Example C77_no_worker : forall up, exists ld, start_leader up 0 (mkConfig Cbor InMemory (Some 0%N) None None) = Starts ld /\ l_emulated ld = [].
Proof. intros up. eexists. split; reflexivity. Qed.
Example C76_example : parse (mkCli (mkGiven None None) (mkGiven None (Some Amqp)) (mkGiven None None) (mkGiven None None) (mkGiven None None)) = None.
Proof. reflexivity. Qed.
Print Assumptions C76_refuted.
Print Assumptions C76_panics_iff_partial.
Print Assumptions C76_fails_iff.
Print Assumptions C76_in_memory.
Print Assumptions C76_read.
Print Assumptions C77_refuted.
Print Assumptions C77_iff_partial.
Print Assumptions C77_emulated.
Print Assumptions C77_key_refuted.
Print Assumptions C77_apart_iff.
