(** C80: both queues behave like a bag. *)
From Coq Require Import List Arith Lia Bool Permutation.
From Verif Require SystemProofs.
From Verif Require Import Base BaseFacts ConnModel AmqpModel AmqpProofs AmqpInv AmqpProps QueueModel QueueProps WorkerModel SystemModel BagSpec.
Import ListNotations.
Open Scope nat_scope.

(** ** Bags *)
Section Facts.
Context {M : Type}.
Lemma bag_run_perm : forall (a b c : bag M) l, Permutation (pending a) (pending b) -> Permutation (taken a) (taken b) -> bag_run b l c -> bag_run a l c.
Proof.
  intros a b c l P T R. destruct R as [p t p' t' P1 T1 | b x b1 l c S R]; destruct a as [pa ta]; cbn in *.
  - constructor; etransitivity; eauto.
  - apply br_step with (b := b1); [|exact R]. destruct S; cbn in *; constructor; rewrite ?P, ?T; assumption.
Qed.
Lemma bag_run_app : forall (a b c : bag M) l l', bag_run a l b -> bag_run b l' c -> bag_run a (l ++ l') c.
Proof.
  intros a b c l l' R. revert c l'. induction R as [p t p' t' P T | a x b l d S R IH]; intros c l' R'; cbn.
  - eapply bag_run_perm; [| | exact R']; assumption.
  - econstructor; eauto.
Qed.
Lemma bag_run_one : forall (a b : bag M) x, bag_step a x b -> bag_run a [x] b.
Proof. intros a [p t] x S. econstructor; [exact S | constructor; reflexivity]. Qed.
Lemma bag_backs : forall (r : list (M * nat)) p t p' t', Permutation t (r ++ t') -> Permutation p' (map fst r ++ p) ->
  bag_run (mkBag p t) (map (fun x => Back (fst x) (snd x)) r) (mkBag p' t').
Proof.
  intros r; induction r as [|[m k] r IH]; intros p t p' t' T P; cbn in *; [constructor; auto using Permutation_sym|].
  apply br_step with (b := mkBag (m :: p) (r ++ t')).
  - constructor; [exact T | reflexivity].
  - apply IH; [reflexivity|]. rewrite P. apply Permutation_middle.
Qed.
(** What went in is what is there, and what was taken was there. *)
Theorem C80_counts : forall (a b : bag M) l, bag_run a l b ->
  Permutation (pending a ++ puts l ++ map fst (backs l)) (pending b ++ map fst (takes l)) /\
  Permutation (taken a ++ takes l) (taken b ++ settles l ++ backs l).
Proof.
  intros a b l R. induction R as [p t p' t' P T | a x b l d S R [IH1 IH2]]; cbn [puts takes settles backs flat_map map app pending taken].
  - rewrite !app_nil_r. auto.
  - unfold puts, takes, settles, backs in *. destruct S; cbn [flat_map app map pending taken fst] in *.
    + split; [rewrite <- IH1; rewrite H; cbn; apply Permutation_sym, Permutation_middle | rewrite <- H0; exact IH2].
    + split; [rewrite H; cbn; rewrite <- Permutation_middle, IH1; reflexivity|].
      rewrite <- IH2, H0. cbn. symmetry. apply Permutation_middle.
    + split; [now rewrite <- H0|]. rewrite H. cbn. rewrite IH2. apply Permutation_middle.
    + split.
      * rewrite <- IH1, H0, !app_assoc. cbn. symmetry. apply Permutation_middle.
      * rewrite H. cbn. rewrite IH2, !app_assoc. apply Permutation_middle.
Qed.
End Facts.

(** ** The AMQP queue *)
Definition in_queue (q : nat) (p : nat * bmsg) : bool := Nat.eqb (fst p) q.
Definition hand (f : flight) : bool := match f_at f with InHand => true | _ => false end.
(** What programs see of queue [q]: a message is taken when [poll_next] has returned it. *)
Definition bag_of (q : nat) (s : broker) : bag bmsg :=
  mkBag (map snd (filter (in_queue q) (b_ready s)) ++ map f_msg (filter (fun f => Nat.eqb (f_q f) q && negb (hand f)) (b_flight s)))
        (map (fun f => (f_msg f, f_cons f)) (filter (fun f => Nat.eqb (f_q f) q && hand f) (b_flight s))).

Lemma iq : forall q a m, in_queue q (a, m) = Nat.eqb a q.
Proof. reflexivity. Qed.
Lemma perm_filter : forall (A : Type) (f : A -> bool) l l', Permutation l l' -> Permutation (filter f l) (filter f l').
Proof.
  intros A f l l' P. induction P; cbn; auto.
  - destruct (f x); auto.
  - destruct (f x), (f y); auto. constructor.
  - etransitivity; eauto.
Qed.
Lemma put_back_perm : forall x l, Permutation (put_back x l) (x :: l).
Proof. intros x l; induction l as [|y l IH]; cbn [put_back]; [reflexivity|]. destruct (m_id (snd x) <? m_id (snd y)); [reflexivity|]. rewrite IH. constructor. Qed.
Lemma put_all_perm : forall xs l, Permutation (fold_right put_back l xs) (xs ++ l).
Proof. intros xs l; induction xs as [|x xs IH]; cbn; [reflexivity|]. rewrite put_back_perm. now constructor. Qed.

Lemma close_pending : forall q (kn oc : flight -> bool) fl, (forall f, f_q f = q -> kn f = true) ->
  Permutation (map snd (filter (in_queue q) (map (fun f => (f_q f, f_msg f)) (filter kn (filter oc fl)))) ++
               map f_msg (filter (fun f => Nat.eqb (f_q f) q && negb (hand f)) (filter (fun f => negb (oc f)) fl)))
              (map fst (map (fun f => (f_msg f, f_cons f)) (filter (fun f => Nat.eqb (f_q f) q && hand f) (filter oc fl))) ++
               map f_msg (filter (fun f => Nat.eqb (f_q f) q && negb (hand f)) fl)).
Proof.
  intros q kn oc fl K. induction fl as [|f fl IH]; cbn [filter]; [reflexivity|].
  destruct (oc f) eqn:O; cbn [negb filter].
  - destruct (Nat.eqb (f_q f) q) eqn:Q; cbn [andb].
    + apply Nat.eqb_eq in Q. rewrite (K f Q). cbn [map filter]. unfold in_queue at 1. cbn [fst]. rewrite Q, Nat.eqb_refl. cbn [map snd app].
      destruct (hand f); cbn [negb map app fst]; [now constructor|]. rewrite IH. apply Permutation_middle.
    + destruct (kn f); cbn [map filter]; [|exact IH]. unfold in_queue at 1. cbn [fst]. rewrite Q. exact IH.
  - destruct (Nat.eqb (f_q f) q && negb (hand f)) eqn:Q; cbn [map app]; [|exact IH].
    rewrite <- Permutation_middle, IH. apply Permutation_middle.
Qed.
Lemma split_taken : forall (A B : Type) (g : A -> B) (h oc : A -> bool) fl,
  Permutation (map g (filter h fl)) (map g (filter h (filter oc fl)) ++ map g (filter h (filter (fun f => negb (oc f)) fl))).
Proof.
  intros A B g h oc fl. induction fl as [|f fl IH]; cbn; [reflexivity|]. destruct (oc f); cbn [negb filter]; destruct (h f); cbn; auto.
  rewrite IH. apply Permutation_middle.
Qed.
(** The connection [c] ends: what its consumers had taken comes back. *)
Definition cut_off (q : nat) (s : broker) (c : nat) : list (bmsg * nat) :=
  map (fun f => (f_msg f, f_cons f)) (filter (fun f => Nat.eqb (f_q f) q && hand f) (filter (fun f => of_conn s c (f_cons f)) (b_flight s))).
Lemma bag_close : forall q s c, known q s = true -> bag_run (bag_of q s) (map (fun x => Back (fst x) (snd x)) (cut_off q s c)) (bag_of q (close s c)).
Proof.
  intros q s c K. unfold bag_of. cbn [close b_ready b_flight]. apply bag_backs.
  - apply split_taken with (oc := fun f => of_conn s c (f_cons f)).
  - rewrite (perm_filter _ _ _ _ (put_all_perm _ _)), filter_app, map_app, <- app_assoc.
    rewrite (Permutation_app_comm (map snd (filter (in_queue q) (b_ready s)))), app_assoc.
    unfold cut_off. rewrite (close_pending q (fun f => known (f_q f) s) (fun f => of_conn s c (f_cons f))) by (now intros f ->).
    rewrite <- app_assoc. apply Permutation_app_head. apply Permutation_app_comm.
Qed.

Definition is_back (a : qact bmsg) : Prop := exists m k, a = Back m k.
Lemma backs_back : forall r : list (bmsg * nat), Forall is_back (map (fun x => Back (fst x) (snd x)) r).
Proof. intros r. apply Forall_forall. intros a H. apply in_map_iff in H. destruct H as ([m k] & <- & _). now exists m, k. Qed.

Section Amqp.
Variable decode : nat -> option nat.
Variable qos : nat -> nat.
Local Notation stp := (b_step decode qos).

(** Operation [o] publishes to queue [q]. *)
Definition publishes (q : nat) (s : broker) (o : bop) (body : nat) : Prop :=
  exists n, (o = OPublish Single n body /\ lookup n (b_map s) = Some q) \/ (o = OPublish Broadcast n body /\ In n (b_exch s) /\ In (n, q) (b_bind s)).
(** What programs see of queue [q] when [e] happens. *)
Definition explains (q : nat) (s : broker) (e : b_event) (t : broker) (l : list (qact bmsg)) : Prop :=
  match e with
  | EOp i => exists c o ops, nth_error (b_calls s) i = Some (c, o :: ops) /\
      ((exists body, publishes q s o body /\ l = [Put (mkM (b_next s) (b_pubs s) body)]) \/ ((forall body, ~ publishes q s o body) /\ Forall is_back l))
  | EPoll k => (exists m y, l = [Take m k] /\ decode (m_body m) = Some y /\ b_log t = BYield k (m_pub m) y :: b_log s) \/
      (l = [] /\ (b_log t = b_log s \/ exists x, nth_error (b_cons s) k = Some x /\ k_q x <> q))
  | EAck id | ENack id => (exists m k, l = [Settle m k] /\ m_id m = id) \/ (l = [] /\ forall m k, In (m, k) (taken (bag_of q s)) -> m_id m <> id)
  | ECrash c => Forall is_back l /\ forall m k, In (m, k) (taken (bag_of q t)) -> of_conn s c k = false
  | _ => l = []
  end.
Inductive traced (q : nat) : broker -> list b_event -> list (qact bmsg) -> broker -> Prop :=
| tr_end : forall s, traced q s [] [] s
| tr_step : forall s e t l es ls u, stp s e = Some t -> explains q s e t l -> traced q t es ls u -> traced q s (e :: es) (l ++ ls) u.

(** Before a queue is made there is nothing in it. *)
Definition nothing (q : nat) (s : broker) : Prop := (forall p, In p (b_ready s) -> fst p <> q) /\ (forall f, In f (b_flight s) -> f_q f <> q).
Lemma nothing_bag : forall q s, nothing q s -> bag_of q s = bag_empty.
Proof.
  intros q s [R F]. unfold bag_of.
  assert (FN : forall (A : Type) (f : A -> bool) l, (forall x, In x l -> f x = false) -> filter f l = []).
  { intros A f l H. induction l as [|x l IH]; cbn; [reflexivity|]. rewrite (H x) by now left. apply IH. intros; apply H; now right. }
  rewrite !FN; [reflexivity | | |]; intros x Hx; cbv beta.
  - destruct (Nat.eqb_spec (f_q x) q) as [E|E]; [now apply F in E | reflexivity].
  - destruct (Nat.eqb_spec (f_q x) q) as [E|E]; [now apply F in E | reflexivity].
  - apply Nat.eqb_neq. now apply R.
Qed.
Lemma unborn : forall q s, inv s -> b_made s <= q -> nothing q s.
Proof.
  intros q s (MI & NI & _) L. split.
  - intros [q' m] Hp E. cbn in E. subst. apply (mi_ready _ MI) in Hp. apply known_spec in Hp. destruct Hp as (n & K). apply (mi_lt _ MI) in K. lia.
  - intros f Hf <-. destruct (ni_flight _ NI f Hf) as (Ro & _). apply (mi_routed _ MI) in Ro. destruct Ro as [K|G].
    + apply known_spec in K. destruct K as (n & K). apply (mi_lt _ MI) in K. lia.
    + apply (mi_gone _ MI) in G. lia.
Qed.
Lemma nothing_close : forall q s c, nothing q s -> nothing q (close s c).
Proof.
  intros q s c [R F]. split; cbn [close b_ready b_flight].
  - intros p H. apply put_all_in in H. destruct H as [H|H]; [|now apply R]. apply in_map_iff in H. destruct H as (f & <- & H). cbn. apply F.
    apply filter_In in H. destruct H as [H _]. now apply filter_In in H.
  - intros f H. apply filter_In in H. now apply F.
Qed.
Lemma nothing_publish : forall q s m n body qs, nothing q s -> ~ In q qs -> nothing q (publish s m n body qs).
Proof.
  intros q s m n body qs. unfold publish. intros N.
  match goal with |- _ -> nothing q (route ?t _ _ _) => assert (N' : nothing q t) by exact N; revert N'; generalize t end. clear N. generalize (b_pubs s).
  induction qs as [|a qs IH]; intros p t N NI; cbn [route]; [exact N|]. apply IH; [|intros H; apply NI; now right]. destruct N as [R F]. split; cbn [b_ready b_flight]; [|exact F].
  intros x H. apply in_app_iff in H. destruct H as [H|[<-|[]]]; [now apply R|]. cbn. intros ->. apply NI. now left.
Qed.
Lemma micro_back : forall q s t, minv s -> micro decode qos s t -> known q t = true -> known q s = true \/ b_made s <= q.
Proof.
  intros q s t MI H K. destruct H; auto.
  - left. apply known_spec in K. apply known_spec. now rewrite H0 in K.
  - apply known_spec in K. destruct K as (n' & K). rewrite H1 in K. destruct K as [K|K]; [injection K as _ <-; now right | left; apply known_spec; eauto].
  - left. now apply (known_gone s n q0 q MI H).
  - left. apply known_spec in K. apply known_spec. unfold publish in K. destruct H as [-> | (q' & -> & _)]; exact K.
Qed.
Lemma made_micro : forall s t, micro decode qos s t -> b_made s <= b_made t.
Proof. intros s t H. destruct H; cbn; auto; try lia. unfold publish. destruct H as [-> | (q' & -> & _)]; cbn; lia. Qed.
Lemma made_micros : forall s t, micros decode qos s t -> b_made s <= b_made t.
Proof. intros s t MS. induction MS as [|s t u H H' IH]; [auto|]. pose proof (made_micro _ _ H). lia. Qed.
Lemma micros_back : forall q s t, inv s -> micros decode qos s t -> known q t = true -> known q s = true \/ b_made s <= q.
Proof.
  intros q s t I H K. induction H as [|s t u H H' IH]; [auto|].
  destruct (IH (inv_micro decode qos _ _ I H) K) as [K1|L]; [eapply micro_back; eauto; apply I|]. right. pose proof (made_micro _ _ H). lia.
Qed.
Lemma step_back : forall q s e t, inv s -> kinv s -> stp s e = Some t -> known q t = true -> known q s = true \/ b_made s <= q.
Proof. intros q s e t I K H. apply micros_back; auto. eapply step_micro; eauto. Qed.
Lemma run_back : forall q tr s t, inv s -> kinv s -> run_from stp s tr = Some t -> known q t = true -> known q s = true \/ b_made s <= q.
Proof.
  intros q tr; induction tr as [|e tr IH]; intros s t I K R KN; cbn in R; [injection R as <-; auto|].
  destruct (stp s e) as [u|] eqn:E; [|discriminate]. pose proof (step_micro decode qos _ _ _ K E) as MS.
  assert (Iu : inv u) by (eapply (micro_inv decode qos inv); eauto; apply inv_micro).
  destruct (IH u t Iu (kinv_step decode qos _ _ _ K E) R KN) as [K1|L]; [eapply micros_back; eauto|].
  right. pose proof (made_micros _ _ MS). lia.
Qed.

(** The bag depends on what is ready and what is under way, and nothing else. *)
Lemma bag_same : forall q s t, b_ready t = b_ready s -> b_flight t = b_flight s -> bag_run (bag_of q s) [] (bag_of q t).
Proof. intros q s t R F. unfold bag_of. rewrite R, F. constructor; reflexivity. Qed.
Lemma bag_gone : forall q q' s n, q' <> q -> bag_run (bag_of q s) [] (bag_of q (gone s n q')).
Proof.
  intros q q' s n NE. unfold bag_of. cbn [gone b_ready b_flight].
  assert (E : filter (in_queue q) (filter (fun p => negb (Nat.eqb (fst p) q')) (b_ready s)) = filter (in_queue q) (b_ready s)).
  { induction (b_ready s) as [|[a m] l IH]; [reflexivity|]. cbn [filter fst]. replace (in_queue q (a, m)) with (Nat.eqb a q) by reflexivity.
    destruct (Nat.eqb a q') eqn:Q'; cbn [negb filter].
    - apply Nat.eqb_eq in Q'. subst. destruct (Nat.eqb q' q) eqn:X; [apply Nat.eqb_eq in X; easy | exact IH].
    - replace (in_queue q (a, m)) with (Nat.eqb a q) by reflexivity. destruct (Nat.eqb a q); now rewrite IH. }
  rewrite E. constructor; reflexivity.
Qed.
Lemma bag_put : forall q s m n body, bag_run (bag_of q s) [Put (mkM (b_next s) (b_pubs s) body)] (bag_of q (publish s m n body [q])).
Proof.
  intros q s m n body. unfold publish, bag_of. cbn [route b_ready b_flight]. apply bag_run_one. rewrite filter_app, map_app. cbn [filter]. rewrite iq, Nat.eqb_refl.
  cbn [map snd]. constructor; [|reflexivity]. rewrite <- app_assoc. symmetry. apply Permutation_middle.
Qed.
Lemma bag_miss : forall q s m n body qs, ~ In q qs -> bag_run (bag_of q s) [] (bag_of q (publish s m n body qs)).
Proof.
  intros q s m n body qs NI. unfold publish.
  match goal with |- bag_run (bag_of q s) [] (bag_of q (route ?t _ _ _)) => assert (B : bag_of q t = bag_of q s) by reflexivity; rewrite <- B; generalize t end.
  generalize (b_pubs s). clear B. induction qs as [|a qs IH]; intros p t; cbn [route]; [apply bag_same; reflexivity|].
  apply bag_run_app with (l := []) (b := bag_of q (mkB (b_map t) (b_made t) (b_exch t) (b_bind t) (b_ready t ++ [(a, mkM (b_next t) p body)]) (b_flight t) (b_cons t) (b_dead t) (b_calls t) (b_pubs t) (S (b_next t)) (BRoute p (b_next t) a :: b_log t))).
  - unfold bag_of. cbn [b_ready b_flight]. rewrite filter_app. cbn [filter]. rewrite iq.
    destruct (Nat.eqb a q) eqn:Q; [apply Nat.eqb_eq in Q; exfalso; apply NI; now left|]. rewrite app_nil_r. constructor; reflexivity.
  - apply IH. intros H. apply NI. now right.
Qed.

Lemma bound_in : forall s n q, In q (bound s n) <-> In (n, q) (b_bind s).
Proof.
  intros s n q. unfold bound. rewrite in_map_iff. split.
  - intros ([a b] & E & H). apply filter_In in H. destruct H as [H X]. cbn in *. apply Nat.eqb_eq in X. now subst.
  - intros H. exists (n, q). split; [reflexivity|]. apply filter_In. split; [exact H | apply Nat.eqb_refl].
Qed.
Lemma op_bag : forall q s c o, inv s -> kinv s -> known q s = true -> known q (do_op s c o) = true -> exists l, bag_run (bag_of q s) l (bag_of q (do_op s c o)) /\
  ((exists body, publishes q s o body /\ l = [Put (mkM (b_next s) (b_pubs s) body)]) \/ ((forall body, ~ publishes q s o body) /\ Forall is_back l)).
Proof.
  intros q s c o I K KN KN'. destruct o; cbn [do_op] in *.
  - exists []. split; [apply bag_same; reflexivity|]. right. split; [intros body (n' & [[X _]|[X _]]); discriminate | constructor].
  - exists []. split; [destruct (lookup n (b_map s)); apply bag_same; reflexivity|]. right. split; [intros body (n' & [[X _]|[X _]]); discriminate | constructor].
  - assert (D : forall t, t = close s c \/ (b_ready t = b_ready s /\ b_flight t = b_flight s) -> exists l, bag_run (bag_of q s) l (bag_of q t) /\ Forall is_back l).
    { intros t [-> | [R F]]; [eexists; split; [now apply bag_close | apply backs_back] | exists []; split; [now apply bag_same | constructor]]. }
    edestruct D as (l & Bl & Fl); [| exists l; split; [exact Bl|]; right; split; [intros body (n' & [[X _]|[X _]]); discriminate | exact Fl]].
    destruct (has n (b_exch s)); [|now left]. destruct (lookup n (b_map s)); [now right | now left].
  - exists []. split; [|right; split; [intros body (n' & [[X _]|[X _]]); discriminate | constructor]].
    destruct (lookup n (b_map s)) as [q'|] eqn:L; [|apply bag_same; reflexivity]. apply bag_gone. intros ->. now apply (known_gone s n q q (proj1 I) L) in KN'.
  - exists []. split; [apply bag_same; reflexivity|]. right. split; [intros body (n' & [[X _]|[X _]]); discriminate | constructor].
  - destruct m.
    + destruct (lookup n (b_map s)) as [q'|] eqn:L.
      * destruct (Nat.eq_dec q' q) as [-> | NE].
        -- eexists. split; [apply bag_put|]. left. exists body. split; [exists n; auto | reflexivity].
        -- exists []. split; [apply bag_miss; intros [X|[]]; easy|]. right. split; [|constructor].
           intros b (n' & [[X Y]|[X _]]); [injection X as <- <-; congruence | discriminate].
      * exists []. split; [apply bag_miss; easy|]. right. split; [|constructor]. intros b (n' & [[X Y]|[X _]]); [injection X as <- <-; congruence | discriminate].
    + destruct (has n (b_exch s)) eqn:HE.
      * destruct (bound_one s n K) as [E|(q' & E & L)]; rewrite E.
        -- exists []. split; [apply bag_miss; easy|]. right. split; [|constructor].
           intros b (n' & [[X _]|[X [_ Y]]]); [discriminate|]. injection X as <- <-. apply bound_in in Y. now rewrite E in Y.
        -- destruct (Nat.eq_dec q' q) as [-> | NE].
           ++ eexists. split; [apply bag_put|]. left. exists body. split; [|reflexivity].
              exists n. right. split; [reflexivity|]. split; [now apply has_spec | apply bound_in; rewrite E; now left].
           ++ exists []. split; [apply bag_miss; intros [X|[]]; easy|]. right. split; [|constructor].
              intros b (n' & [[X _]|[X [_ Y]]]); [discriminate|]. injection X as <- <-. apply bound_in in Y. rewrite E in Y. destruct Y as [Y|[]]. congruence.
      * eexists. split.
        -- eapply bag_run_app; [apply (bag_miss q s Broadcast n body []); easy|]. apply bag_close. exact KN.
        -- right. split; [|apply backs_back]. intros b (n' & [[X _]|[X [Y _]]]); [discriminate|]. injection X as <- <-. apply has_spec in Y. congruence.
  - assert (D : forall t, t = close s c \/ (b_ready t = b_ready s /\ b_flight t = b_flight s) -> exists l, bag_run (bag_of q s) l (bag_of q t) /\ Forall is_back l).
    { intros t [-> | [R F]]; [eexists; split; [now apply bag_close | apply backs_back] | exists []; split; [now apply bag_same | constructor]]. }
    edestruct D as (l & Bl & Fl); [| exists l; split; [exact Bl|]; right; split; [intros body (n' & [[X _]|[X _]]); discriminate | exact Fl]].
    destruct (lookup n (b_map s)); [now right | now left].
Qed.

Lemma bag_ready_mid : forall q a p b, Permutation (map snd (filter (in_queue q) (a ++ p :: b))) ((if in_queue q p then [snd p] else []) ++ map snd (filter (in_queue q) (a ++ b))).
Proof.
  intros q a p b. rewrite !filter_app, !map_app. cbn [filter]. destruct (in_queue q p); cbn [map app]; [|reflexivity]. symmetry. apply Permutation_middle.
Qed.
Lemma bag_mid : forall (B : Type) (g : flight -> B) (h : flight -> bool) a f b, Permutation (map g (filter h (a ++ f :: b))) ((if h f then [g f] else []) ++ map g (filter h (a ++ b))).
Proof.
  intros B g h a f b. rewrite !filter_app, !map_app. cbn [filter]. destruct (h f); cbn [map app]; [|reflexivity]. symmetry. apply Permutation_middle.
Qed.
Lemma bag_deliver : forall q s t a q' m b k, b_ready s = a ++ (q', m) :: b -> b_ready t = a ++ b -> b_flight t = b_flight s ++ [mkF m q' k InBuffer] ->
  bag_run (bag_of q s) [] (bag_of q t).
Proof.
  intros q s t a q' m b k R R' F'. unfold bag_of. rewrite R, R', F'. constructor.
  - rewrite bag_ready_mid, iq, (bag_mid _ f_msg _ (b_flight s) _ []), app_nil_r. cbn [f_q hand f_at f_msg snd]. rewrite andb_true_r. destruct (Nat.eqb q' q); [|reflexivity].
    cbn [app]. apply Permutation_middle.
  - rewrite (bag_mid _ _ _ (b_flight s) _ []), app_nil_r. cbn [f_q hand f_at]. rewrite andb_false_r. reflexivity.
Qed.
Lemma bag_yield : forall q s t a f b, b_flight s = a ++ f :: b -> b_flight t = a ++ move f InHand :: b -> b_ready t = b_ready s -> hand f = false ->
  bag_run (bag_of q s) (if Nat.eqb (f_q f) q then [Take (f_msg f) (f_cons f)] else []) (bag_of q t).
Proof.
  intros q s t a f b F F' R H. unfold bag_of. rewrite R, F, F'. destruct (Nat.eqb (f_q f) q) eqn:Q.
  - apply bag_run_one. constructor.
    + rewrite !bag_mid. cbn [move f_q hand f_at]. rewrite H, Q. cbn [andb negb app]. rewrite <- Permutation_middle. reflexivity.
    + rewrite !bag_mid. cbn [move f_q hand f_at f_msg f_cons]. rewrite H, Q. cbn [andb negb app]. reflexivity.
  - constructor; rewrite !bag_mid; cbn [move f_q hand f_at]; rewrite Q; reflexivity.
Qed.
Lemma bag_drop : forall q s t a f b, b_flight s = a ++ f :: b -> b_flight t = a ++ move f Dropped :: b -> b_ready t = b_ready s -> hand f = false -> bag_run (bag_of q s) [] (bag_of q t).
Proof.
  intros q s t a f b F F' R H. unfold bag_of. rewrite R, F, F'. constructor; rewrite !bag_mid; cbn [move f_q hand f_at f_msg f_cons]; rewrite H; reflexivity.
Qed.
Lemma bag_answer : forall q s t a f b, b_flight s = a ++ f :: b -> b_flight t = a ++ b -> b_ready t = b_ready s -> hand f = true ->
  bag_run (bag_of q s) (if Nat.eqb (f_q f) q then [Settle (f_msg f) (f_cons f)] else []) (bag_of q t).
Proof.
  intros q s t a f b F F' R H. unfold bag_of. rewrite R, F, F'. destruct (Nat.eqb (f_q f) q) eqn:Q.
  - apply bag_run_one. constructor; rewrite bag_mid, H, Q; cbn [andb negb app]; reflexivity.
  - constructor; rewrite bag_mid, Q; reflexivity.
Qed.
Lemma taken_in : forall q s m k, In (m, k) (taken (bag_of q s)) <-> exists f, In f (b_flight s) /\ f_q f = q /\ hand f = true /\ f_msg f = m /\ f_cons f = k.
Proof.
  intros q s m k. unfold bag_of. cbn [taken]. rewrite in_map_iff. split.
  - intros (f & E & H). apply filter_In in H. destruct H as [H X]. apply andb_true_iff in X. destruct X as [X1 X2]. apply Nat.eqb_eq in X1. injection E as <- <-. eauto 6.
  - intros (f & H & Q & X & <- & <-). exists f. split; [reflexivity|]. apply filter_In. split; [exact H|]. rewrite X, Q, Nat.eqb_refl. reflexivity.
Qed.

Ltac brk H :=
  repeat match type of H with
  | match ?x with _ => _ end = _ => let E := fresh "M" in destruct x eqn:E; try discriminate H
  | (if ?x then _ else _) = _ => let E := fresh "M" in destruct x eqn:E; try discriminate H
  | (let (_, _) := ?x in _) = _ => let E := fresh "M" in destruct x eqn:E; try discriminate H
  end.
Lemma step_bag : forall q s e t, inv s -> kinv s -> stp s e = Some t -> known q s = true -> known q t = true -> exists l, bag_run (bag_of q s) l (bag_of q t) /\ explains q s e t l.
Proof.
  intros q s e t I K H KN KN'. destruct e; cbn in H; brk H; injection H as <-; cbn [explains].
  - exists []. split; [apply bag_same; reflexivity | reflexivity].
  - match goal with |- context [do_op ?u _ _] => set (s0 := u) in * end.
    assert (I0 : inv s0) by (eapply (inv_micro decode qos); [exact I | apply m_frame; reflexivity]).
    destruct (op_bag q s0 n b I0 (kinv_same s s0 eq_refl eq_refl K) KN KN') as (lb & Bl & X). exists lb. split; [exact Bl|]. do 3 eexists. split; [exact M | exact X].
  - exists []. split; [|reflexivity]. apply cut_spec in M1. destruct M1 as (E & _). eapply bag_deliver; [exact E | reflexivity | reflexivity].
  - apply cut_spec in M1. destruct M1 as (E & F & _). apply andb_true_iff in F. destruct F as [F1 F2]. apply Nat.eqb_eq in F1.
    eexists. split; [eapply bag_yield; [exact E | reflexivity | reflexivity | unfold hand; now destruct (f_at f)]|].
    destruct (Nat.eqb (f_q f) q) eqn:Q.
    + left. exists (f_msg f), n. rewrite F1. now repeat split.
    + right. split; [reflexivity|]. right. exists k0. split; [exact M|]. destruct (ni_flight _ (proj1 (proj2 I)) f) as (_ & _ & x & X & Y & _); [rewrite E; apply in_elt|].
      apply Nat.eqb_neq in Q. congruence.
  - apply cut_spec in M1. destruct M1 as (E & F & _). apply andb_true_iff in F. destruct F as [F1 F2].
    exists []. split; [eapply bag_drop; [exact E | reflexivity | reflexivity | unfold hand; now destruct (f_at f)]|]. right. split; [reflexivity | now left].
  - exists []. split; [apply bag_same; reflexivity|]. right. split; [reflexivity | now left].
  - exists []. split; [apply bag_same; reflexivity | reflexivity].
  - apply cut_spec in M. destruct M as (E & F & _). apply andb_true_iff in F. destruct F as [F1 F2]. apply Nat.eqb_eq in F1.
    eexists. split; [eapply bag_answer; [exact E | reflexivity | reflexivity | exact F2]|]. destruct (Nat.eqb (f_q f) q) eqn:Q.
    + left. eauto.
    + right. split; [reflexivity|]. intros m k Hm X. apply taken_in in Hm. destruct Hm as (g & G & Gq & _ & Gm & _). rewrite E in G. apply Nat.eqb_neq in Q.
      apply in_app_iff in G. destruct (Nat.eq_dec (f_q g) (f_q f)) as [D|D]; [congruence|].
      eapply (places_unique_f s _ f _ g (proj1 (proj2 I)) E); [|congruence]. apply in_app_iff. destruct G as [G|[G|G]]; [now left | congruence | now right].
  - apply cut_spec in M. destruct M as (E & F & _). apply andb_true_iff in F. destruct F as [F1 F2]. apply Nat.eqb_eq in F1.
    eexists. split; [eapply bag_answer; [exact E | reflexivity | reflexivity | exact F2]|]. destruct (Nat.eqb (f_q f) q) eqn:Q.
    + left. eauto.
    + right. split; [reflexivity|]. intros m k Hm X. apply taken_in in Hm. destruct Hm as (g & G & Gq & _ & Gm & _). rewrite E in G. apply Nat.eqb_neq in Q.
      apply in_app_iff in G. destruct (Nat.eq_dec (f_q g) (f_q f)) as [D|D]; [congruence|].
      eapply (places_unique_f s _ f _ g (proj1 (proj2 I)) E); [|congruence]. apply in_app_iff. destruct G as [G|[G|G]]; [now left | congruence | now right].
  - eexists. split; [now apply bag_close|]. split; [apply backs_back|]. intros m k Hm. apply taken_in in Hm. destruct Hm as (g & G & _ & _ & _ & <-).
    cbn [close b_flight] in G. apply filter_In in G. now apply negb_true_iff.
  - exists []. split; [|reflexivity]. apply bag_gone. intros ->. now apply (known_gone s n q q (proj1 I) M) in KN'.
Qed.

Lemma unborn_name : forall q s n, minv s -> b_made s <= q -> lookup n (b_map s) <> Some q.
Proof. intros q s n MI L H. apply lookup_in, (mi_lt _ MI) in H. lia. Qed.
Lemma nothing_step : forall q s e t, inv s -> kinv s -> stp s e = Some t -> b_made s <= q -> nothing q t.
Proof.
  intros q s e t I K H L. pose proof (unborn q s I L) as N. pose proof N as [NR NF]. destruct e; cbn in H; brk H; injection H as <-; try exact N.
  - match goal with |- context [do_op ?u _ _] => set (s0 := u) in * end. assert (N0 : nothing q s0) by exact N.
    assert (I0 : inv s0) by (eapply (inv_micro decode qos); [exact I | apply m_frame; reflexivity]). assert (K0 : kinv s0) by now apply (kinv_same s).
    assert (U : forall n', lookup n' (b_map s0) <> Some q) by (intros n'; apply unborn_name; [apply I0 | exact L]).
    destruct b; cbn [do_op].
    + exact N0.
    + destruct (lookup n0 (b_map s0)); exact N0.
    + destruct (has n0 (b_exch s0)); [|now apply nothing_close]. destruct (lookup n0 (b_map s0)); [exact N0 | now apply nothing_close].
    + destruct (lookup n0 (b_map s0)); [|exact N0]. split; cbn [gone b_ready b_flight]; [|exact NF]. intros p' Hp. apply filter_In in Hp. now apply NR.
    + exact N0.
    + destruct m.
      * apply nothing_publish; [exact N0|]. destruct (lookup n0 (b_map s0)) eqn:E; [|easy]. intros [<-|[]]. now apply U in E.
      * destruct (has n0 (b_exch s0)); [|apply nothing_close; now apply nothing_publish]. apply nothing_publish; [exact N0|]. rewrite bound_in. intros Hb. now apply (ki_name _ K0), U in Hb.
    + destruct (lookup n0 (b_map s0)); [exact N0 | now apply nothing_close].
  - apply cut_spec in M1. destruct M1 as (E & _). split; cbn [b_ready b_flight].
    + intros x Hx. apply NR. rewrite E. apply in_app_iff in Hx. apply in_app_iff. destruct Hx; [now left | right; now right].
    + intros f Hf. apply in_app_iff in Hf. destruct Hf as [Hf|[<-|[]]]; [now apply NF|]. cbn. apply (NR (n, b)). rewrite E. apply in_elt.
  - apply cut_spec in M1. destruct M1 as (E & _). split; [exact NR|]. intros g Hg. cbn [set_flight b_flight] in Hg. apply in_app_iff in Hg.
    destruct Hg as [Hg|[<-|Hg]]; [apply NF; rewrite E; apply in_app_iff; now left | apply (NF f); rewrite E; apply in_elt | apply NF; rewrite E; apply in_app_iff; right; now right].
  - apply cut_spec in M1. destruct M1 as (E & _). split; [exact NR|]. intros g Hg. cbn [set_flight b_flight] in Hg. apply in_app_iff in Hg.
    destruct Hg as [Hg|[<-|Hg]]; [apply NF; rewrite E; apply in_app_iff; now left | apply (NF f); rewrite E; apply in_elt | apply NF; rewrite E; apply in_app_iff; right; now right].
  - apply cut_spec in M. destruct M as (E & _). split; [exact NR|]. intros g Hg. apply NF. rewrite E. apply in_app_iff in Hg. apply in_app_iff. destruct Hg; [now left | right; now right].
  - apply cut_spec in M. destruct M as (E & _). split; [exact NR|]. intros g Hg. apply NF. rewrite E. apply in_app_iff in Hg. apply in_app_iff. destruct Hg; [now left | right; now right].
  - now apply nothing_close.
  - split; cbn [gone b_ready b_flight]; [|exact NF]. intros p' Hp. apply filter_In in Hp. now apply NR.
Qed.
Lemma unborn_explains : forall q s e t, inv s -> kinv s -> stp s e = Some t -> b_made s <= q -> explains q s e t [].
Proof.
  intros q s e t I K H L. pose proof (unborn q s I L) as N. pose proof (nothing_step q s e t I K H L) as N'. destruct e; cbn [explains]; try reflexivity.
  - cbn in H. brk H. do 3 eexists. split; [reflexivity|]. right. split; [|constructor].
    intros body (n' & [[-> X]|[-> [_ X]]]); [now apply (unborn_name q s n' (proj1 I) L) | apply (ki_name _ K) in X; now apply (unborn_name q s n' (proj1 I) L)].
  - right. split; [reflexivity|]. cbn in H. brk H; injection H as <-; try (left; reflexivity). right. exists k0. split; [first [reflexivity | exact M]|].
    apply cut_spec in M1. destruct M1 as (E & F & _). apply andb_true_iff in F. destruct F as [F1 _]. apply Nat.eqb_eq in F1.
    assert (Hf : In f (b_flight s)) by (rewrite E; apply in_elt). destruct (ni_flight _ (proj1 (proj2 I)) f Hf) as (_ & _ & x & X & Y & _). apply N in Hf. congruence.
  - right. split; [reflexivity|]. now rewrite (nothing_bag _ _ N).
  - right. split; [reflexivity|]. now rewrite (nothing_bag _ _ N).
  - split; [constructor|]. now rewrite (nothing_bag _ _ N').
Qed.
Lemma run_bag : forall q tr s t, inv s -> kinv s -> run_from stp s tr = Some t -> known q t = true -> exists ls, traced q s tr ls t /\ bag_run (bag_of q s) ls (bag_of q t).
Proof.
  intros q tr; induction tr as [|e tr IH]; intros s t I K R KN; cbn in R; [injection R as <-; exists []; split; [constructor | apply bag_same; reflexivity]|].
  destruct (stp s e) as [u|] eqn:E; [|discriminate].
  assert (Iu : inv u) by (eapply (micro_inv decode qos inv); [apply inv_micro | exact I | eapply step_micro; eauto]). pose proof (kinv_step decode qos _ _ _ K E) as Ku.
  destruct (IH u t Iu Ku R KN) as (ls & T & B).
  enough (X : exists l, bag_run (bag_of q s) l (bag_of q u) /\ explains q s e u l).
  { destruct X as (l & Bl & X). exists (l ++ ls). split; [econstructor; eauto | eapply bag_run_app; eauto]. }
  destruct (run_back q (e :: tr) s t I K) as [K0|L0]; [cbn; now rewrite E | exact KN | |].
  - destruct (run_back q tr u t Iu Ku R KN) as [K1|L1]; [now apply step_bag|]. exfalso. apply known_spec in K0. destruct K0 as (n & K0). apply (mi_lt _ (proj1 I)) in K0.
    pose proof (made_micros _ _ (step_micro decode qos _ _ _ K E)). lia.
  - exists []. rewrite (nothing_bag q s (unborn q s I L0)), (nothing_bag q u (nothing_step q s e u I K E L0)). split; [constructor; reflexivity | now apply unborn_explains].
Qed.

(** ** C80 *)
(** What programs see of an AMQP queue, from the beginning on, is a bag. *)
Theorem C80_amqp : forall tr s n q, run_from stp b_init tr = Some s -> lookup n (b_map s) = Some q ->
  exists ls, traced q b_init tr ls s /\ bag_run bag_empty ls (bag_of q s).
Proof.
  intros tr s n q R L. change (@bag_empty bmsg) with (bag_of q b_init). apply run_bag; [apply inv_init | constructor; [constructor | easy] | exact R | eapply lookup_known; eauto].
Qed.
End Amqp.

(** ** The in-memory queue *)
Section Memory.
Context {M : Type}.
Definition memory_bag (s : queue M) : bag (nat * M) := mkBag (q_msgs s) (map (fun p => (snd p, fst p)) (q_taken s)).
(** Nothing that was taken comes back, whatever becomes of the consumer: the acker does nothing (paladin-core/src/acker.rs:149-166). *)
Definition memory_explains (s : queue M) (e : q_event M) (l : list (qact (nat * M))) : Prop :=
  match e with
  | EvQPubStep i => (exists m, nth_error (q_pubs s) i = Some (m, QPush) /\ l = [Put (i, m)]) \/ (exists m, nth_error (q_pubs s) i = Some (m, QPermit) /\ l = [])
  | EvQPop c => exists m, l = [Take m c]
  | _ => l = []
  end.
Inductive memory_traced : queue M -> list (q_event M) -> list (qact (nat * M)) -> queue M -> Prop :=
| mt_end : forall s, memory_traced s [] [] s
| mt_step : forall s e t l es ls u, q_step s e = Some t -> memory_explains s e l -> memory_traced t es ls u -> memory_traced s (e :: es) (l ++ ls) u.
Lemma memory_same : forall s t : queue M, q_msgs t = q_msgs s -> q_taken t = q_taken s -> bag_run (memory_bag s) [] (memory_bag t).
Proof. intros s t E F. unfold memory_bag. rewrite E, F. constructor; reflexivity. Qed.
Lemma release_same : forall s : queue M, q_msgs (q_release s) = q_msgs s /\ q_taken (q_release s) = q_taken s.
Proof. intros s. unfold q_release. now destruct (q_waiters s). Qed.
Lemma memory_step : forall (s : queue M) e t, q_panic t = false -> q_step s e = Some t -> exists l, memory_explains s e l /\ bag_run (memory_bag s) l (memory_bag t).
Proof.
  intros s e t NP H. destruct e; cbn [q_step memory_explains] in *.
  - injection H as <-. exists []. split; [reflexivity | now apply memory_same].
  - destruct (nth_error (q_pubs s) i) as [[m [| |]]|]; try discriminate; injection H as <-.
    + exists [Put (i, m)]. split; [left; eauto|]. apply bag_run_one. constructor; [|reflexivity]. apply Permutation_sym, Permutation_cons_append.
    + exists []. split; [right; eauto|]. apply memory_same; now rewrite (proj1 (release_same _)) || rewrite (proj2 (release_same _)).
  - injection H as <-. exists []. split; [reflexivity | now apply memory_same].
  - destruct (nth_error (q_cons s) c) as [[| | | |]|]; try discriminate; [destruct (q_permits s)| |]; injection H as <-; exists []; (split; [reflexivity | now apply memory_same]).
  - destruct (nth_error (q_cons s) c) as [[| | | |]|]; try discriminate. destruct (q_msgs s) as [|m ms] eqn:E; injection H as <-; [discriminate|].
    exists [Take m c]. split; [now exists m|]. apply bag_run_one. unfold memory_bag. rewrite E. constructor; [reflexivity|]. cbn [q_taken]. rewrite map_app. apply Permutation_sym, Permutation_cons_append.
  - destruct (nth_error (q_cons s) c) as [[| | | |]|]; try discriminate; injection H as <-; exists []; (split; [reflexivity|]).
    + now apply memory_same.
    + now apply memory_same.
    + apply memory_same; now rewrite (proj1 (release_same _)) || rewrite (proj2 (release_same _)).
Qed.
Lemma panic_stays : forall tr (s t : queue M), run_from q_step s tr = Some t -> q_panic t = false -> q_panic s = false.
Proof.
  intros tr; induction tr as [|e tr IH]; intros s t R P; cbn in R; [injection R as <-; exact P|]. destruct (q_step s e) as [u|] eqn:E; [|discriminate].
  specialize (IH u t R P). clear R P. destruct e; cbn in E.
  - now injection E as <-.
  - destruct (nth_error (q_pubs s) i) as [[m [| |]]|]; try discriminate; injection E as <-; [exact IH|]. revert IH. unfold q_release. cbn. now destruct (q_waiters s).
  - now injection E as <-.
  - destruct (nth_error (q_cons s) c) as [[| | | |]|]; try discriminate; [destruct (q_permits s)| |]; injection E as <-; exact IH.
  - destruct (nth_error (q_cons s) c) as [[| | | |]|]; try discriminate. destruct (q_msgs s); injection E as <-; [discriminate | exact IH].
  - destruct (nth_error (q_cons s) c) as [[| | | |]|]; try discriminate; injection E as <-; try exact IH. revert IH. unfold q_release. cbn. now destruct (q_waiters s).
Qed.
Lemma memory_run : forall tr (s t : queue M), run_from q_step s tr = Some t -> q_panic t = false -> exists ls, memory_traced s tr ls t /\ bag_run (memory_bag s) ls (memory_bag t).
Proof.
  intros tr; induction tr as [|e tr IH]; intros s t R P; cbn in R; [injection R as <-; exists []; split; [constructor | now apply memory_same]|].
  destruct (q_step s e) as [u|] eqn:E; [|discriminate]. destruct (memory_step s e u (panic_stays _ _ _ R P) E) as (l & X & B). destruct (IH u t R P) as (ls & T & B').
  exists (l ++ ls). split; [econstructor; eauto | eapply bag_run_app; eauto].
Qed.
(** What programs see of an in-memory queue is a bag from which nothing comes back. *)
Theorem C80_memory : forall (ms : list (nat * M)) tr s, run_from q_step (q_init ms) tr = Some s ->
  exists ls, memory_traced (q_init ms) tr ls s /\ bag_run (mkBag ms []) ls (memory_bag s) /\ settles ls = [] /\ backs ls = [].
Proof.
  intros ms tr s R. destruct (memory_run tr (q_init ms) s R (C23_no_panic M ms tr s R)) as (ls & T & B). exists ls. split; [exact T|]. split; [exact B|]. clear - T.
  induction T as [|s e t l es ls u H X T [IH1 IH2]]; [now split|]. unfold settles, backs in *. rewrite !flat_map_app, IH1, IH2, !app_nil_r.
  destruct e; cbn in X; subst; try now split.
  - destruct X as [(m & _ & ->) | (m & _ & ->)]; now split.
  - destruct X as (m & ->). now split.
Qed.
End Memory.

(** ** The queue of whole systems *)
(** The system model leaves nothing out: whatever the bag allows to happen next can happen there. *)
Lemma pick_any : forall (A : Type) (l : list A) x, In x l -> exists j r, pick j l = Some (x, r).
Proof.
  intros A l x; induction l as [|y l IH]; intros H; [easy|]. destruct H as [->|H]; [now exists 0, l|]. destruct (IH H) as (j & r & E). exists (S j), (y :: r). cbn. now rewrite E.
Qed.
Theorem C80_system_take : forall may tr s w ws n b t, run_from (y_step may) y_init tr = Some s ->
  nth_error (y_workers s) w = Some ws -> w_main ws = WpWait -> bag_step (mkBag (y_queue s) t) (Take n w) b ->
  exists j s' ws' i, y_step may s (YTake w j) = Some s' /\ Permutation (y_queue s') (pending b) /\ nth_error (y_workers s') w = Some ws' /\ body_of i (w_log ws') = Some n.
Proof.
  intros may tr s w ws n b t R W P B. inversion B as [| p0 t0 m0 k0 p' t' Q T | |]; subst. cbn [pending].
  pose proof (SystemProofs.sinv_run may tr s R) as I.
  assert (IN : In n (y_queue s)) by (rewrite Q; now left).
  assert (L : n < length (y_sent s)).
  { pose proof (SystemProofs.si_count _ _ I n) as C. destruct (n <? length (y_sent s)) eqn:X; [now apply Nat.ltb_lt|].
    assert (1 <= cnt (SystemProofs.same n) (y_queue s)) by (eapply cnt_in; [exact IN | unfold SystemProofs.same; apply Nat.eqb_refl]).
    destruct (Nat.eq_dec (cnt (SystemProofs.back_n n) (y_back s)) 0) as [Z|Z]; [lia|].
    apply Nat.neq_0_lt_0 in Z. destruct (filter (SystemProofs.back_n n) (y_back s)) as [|[[a i] m] l] eqn:F.
    - exfalso. assert (cnt (SystemProofs.back_n n) (y_back s) = 0) by (apply cnt_zero; intros x Hx; destruct (SystemProofs.back_n n x) eqn:Y; [|reflexivity];
        assert (In x (filter (SystemProofs.back_n n) (y_back s))) by (apply filter_In; auto); now rewrite F in *). lia.
    - assert (IB : In (a, i, m) (filter (SystemProofs.back_n n) (y_back s))) by (rewrite F; now left). apply filter_In in IB. destruct IB as [IB Y]. apply Nat.eqb_eq in Y. cbn in Y. subst m.
      eapply SystemProofs.si_back; eauto. }
  destruct (pick_any _ _ _ IN) as (j & r & PK). destruct (nth_error (y_sent s) n) as [[d x]|] eqn:SN; [|apply nth_error_None in SN; lia].
  pose proof (SystemProofs.si_sent _ _ I _ _ _ SN) as LD. destruct (nth_error (y_dirs s) d) as [dd|] eqn:DD; [|apply nth_error_None in DD; lia].
  exists j. cbn [y_step]. rewrite W, PK, SN, DD. unfold w_step. rewrite P. eexists _, _, (w_taken ws). split; [reflexivity|]. cbn [y_queue y_workers]. split; [|split].
  - apply pick_perm in PK. rewrite Q in PK. now apply Permutation_cons_inv in PK.
  - apply upd_nth_same. apply nth_error_Some. congruence.
  - cbn [w_log body_of]. rewrite Nat.eqb_refl. reflexivity.
Qed.
Theorem C80_system_back : forall may s w ws i n b t, nth_error (y_workers s) w = Some ws -> body_of i (w_log ws) = Some n ->
  (forall tm, ~ In (tm, AAck i) (w_log ws)) -> (forall m, ~ In (w, i, m) (y_back s)) -> bag_step (mkBag (y_queue s) t) (Back n w) b ->
  exists s', y_step may s (YBack w i) = Some s' /\ Permutation (y_queue s') (pending b) /\ y_workers s' = y_workers s.
Proof.
  intros may s w ws i n b t W B NA NB S. assert (A : acked i (w_log ws) = false).
  { apply not_true_iff_false. intros X. apply existsb_exists in X. destruct X as ([tm a] & I & X). cbn in X. destruct a; try discriminate. apply Nat.eqb_eq in X. subst. exact (NA tm I). }
  assert (C : came_back w i (y_back s) = false).
  { destruct (came_back w i (y_back s)) eqn:E; [|reflexivity]. apply existsb_exists in E. destruct E as ([[w' i'] m] & I & E). apply andb_true_iff in E. destruct E as [E1 E2].
    apply Nat.eqb_eq in E1. apply Nat.eqb_eq in E2. cbn in E1, E2. subst. destruct (NB m I). }
  inversion S as [| | | p0 t0 m0 k0 p' t' T Q]; subst. cbn [y_step pending]. rewrite W, B, A, C. cbn [orb]. eexists. split; [reflexivity|]. cbn [y_queue y_workers].
  split; [|reflexivity]. rewrite Q. apply Permutation_sym, Permutation_cons_append.
Qed.
(** It does not come back once the worker has acked it, as the bag keeps nothing of what is settled. *)
Theorem C80_system_settled : forall may s w ws i tm, nth_error (y_workers s) w = Some ws -> In (tm, AAck i) (w_log ws) -> y_step may s (YBack w i) = None.
Proof.
  intros may s w ws i tm W I. cbn [y_step]. rewrite W. destruct (body_of i (w_log ws)); [|reflexivity].
  assert (A : acked i (w_log ws) = true) by (apply existsb_exists; exists (tm, AAck i); split; [exact I|cbn; apply Nat.eqb_refl]). now rewrite A.
Qed.

(** ** Cases *)
(** A message is taken by consumer 0, whose connection is lost; consumer 1 takes it and acks it. *)
Definition lost_then_acked : list b_event :=
  [ECall 0 (receiver_ops Single 7); EOp 0; EOp 0; ECall 1 (receiver_ops Single 7); EOp 1; EOp 1; ECall 2 (publish_ops Single 7 5); EOp 2; ECall 2 (publish_ops Single 7 6); EOp 3;
   EDeliver 0; EPoll 0; ECrash 0; EDeliver 1; EPoll 1; EAck 0].
Example C80_amqp_case : exists s, run_from (b_step ok (prefetch 1)) b_init lost_then_acked = Some s /\ lookup 7 (b_map s) = Some 0 /\ bag_of 0 s = mkBag [mkM 1 1 6] [] /\
  bag_run bag_empty [Put (mkM 0 0 5); Put (mkM 1 1 6); Take (mkM 0 0 5) 0; Back (mkM 0 0 5) 0; Take (mkM 0 0 5) 1; Settle (mkM 0 0 5) 1] (bag_of 0 s).
Proof.
  eexists. split; [vm_compute; reflexivity|]. split; [reflexivity|]. split; [reflexivity|]. vm_compute.
  apply br_step with (mkBag [mkM 0 0 5] []); [constructor; reflexivity|]. apply br_step with (mkBag [mkM 0 0 5; mkM 1 1 6] []); [constructor; [apply perm_swap | reflexivity]|].
  apply br_step with (mkBag [mkM 1 1 6] [(mkM 0 0 5, 0)]); [constructor; reflexivity|]. apply br_step with (mkBag [mkM 0 0 5; mkM 1 1 6] []); [constructor; reflexivity|].
  apply br_step with (mkBag [mkM 1 1 6] [(mkM 0 0 5, 1)]); [constructor; reflexivity|]. apply bag_run_one. constructor; reflexivity.
Qed.
Example C80_memory_case : exists s, run_from q_step (q_init [(7, 70)]) [EvQConsumer; EvQPublish 5; EvQPubStep 0; EvQPoll 0; EvQPop 0; EvQDrop 0] = Some s /\
  memory_bag s = mkBag [(0, 5)] [((7, 70), 0)].
Proof. eexists. split; vm_compute; reflexivity. Qed.
(** Two tasks are waiting, and the second one is taken first. *)
Example C80_system_case : exists s ws, run_from (y_step (fun _ _ => true)) y_init [YLease 3; YSend 0 8; YSend 0 9; YStart 1] = Some s /\ nth_error (y_workers s) 0 = Some ws /\ w_main ws = WpWait /\
  bag_step (mkBag (y_queue s) []) (Take 1 0) (mkBag [0] [(1, 0)]).
Proof. eexists _, _. split; [vm_compute; reflexivity|]. split; [reflexivity|]. split; [reflexivity|]. cbn. constructor; [apply perm_swap | reflexivity]. Qed.

Print Assumptions C80_amqp.
Print Assumptions C80_memory.
Print Assumptions C80_counts.
Print Assumptions C80_system_take.
Print Assumptions C80_system_back.
Print Assumptions C80_system_settled.
