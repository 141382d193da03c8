(** Invariants of broadcast queues. *)
From Coq Require Import List Arith Bool Lia.
From Verif Require Import Base BaseFacts BroadcastModel BroadcastSpec.
Import ListNotations.
Open Scope nat_scope.

Lemma mem_In : forall x l, mem x l = true <-> In x l.
Proof.
  intros x l. unfold mem. rewrite existsb_exists. split.
  - intros (y & I & E). apply Nat.eqb_eq in E. now subst.
  - intros I. exists x. split; [exact I|apply Nat.eqb_refl].
Qed.
Lemma mem_not : forall x l, mem x l = false <-> ~ In x l.
Proof. intros x l. rewrite <- mem_In. destruct (mem x l); split; congruence. Qed.

Section Proofs.
Variable shards : nat.
Variable shard : nat -> nat.
Notation step := (b_step shards shard).

Definition enq_of (s : bq) (n id : nat) : Prop := exists c, In c (b_cons s) /\ bc_name c = n /\ In id (bc_enq c).
Definition placed (s : bq) (id : nat) : Prop := kept s id \/ in_drain s id \/ exists n, enq_of s n id.

Ltac bcases H :=
  unfold pub_step_b, decl_step_b, set_bpub, set_bdecl in H; cbv zeta in H;
  repeat match type of H with
         | match ?x with _ => _ end = Some _ => destruct x eqn:?; try discriminate H
         | (if ?x then _ else _) = Some _ => destruct x eqn:?; try discriminate H
         end;
  try discriminate H; try (injection H as <-).

Lemma deliver_name : forall p id c, bc_name (deliver p id c) = bc_name c.
Proof. intros [] id c; cbn; [destruct (mem id (bc_seen c))|]; reflexivity. Qed.
Lemma deliver_enq : forall p id c x, In x (bc_enq c) -> In x (bc_enq (deliver p id c)).
Proof. intros [] id c x I; cbn; [destruct (mem id (bc_seen c)); cbn|cbn]; rewrite ?in_app_iff; auto. Qed.
Lemma deliver_to_names : forall p n id l, names (deliver_to p n id l) = names l.
Proof.
  intros. unfold names, deliver_to. rewrite map_map. apply map_ext. intros c.
  destruct (Nat.eqb (bc_name c) n); [apply deliver_name|reflexivity].
Qed.

(** What a step can do to the consumers. *)
Lemma cons_step : forall s e s', step s e = Some s' ->
  b_cons s' = b_cons s \/
  (exists i id j vis n, e = EvBVisit i n /\ nth_error (b_pubs s) i = Some (BIter id (S j) vis) /\ ~ In n vis /\ In n (names (b_cons s)) /\ shard n = j /\
     b_cons s' = deliver_to (b_persistent s) n id (b_cons s)) \/
  (exists j n got, e = EvBDeclStep j /\ nth_error (b_decls s) j = Some (DIns n got) /\ b_cons s' = b_cons s ++ [mkBC n got got]).
Proof.
  intros s e s' H. destruct e as [| i | i n | n | j | n]; cbn in H.
  - injection H as <-. now left.
  - destruct (nth_error (b_pubs s) i) as [p|] eqn:P; [|discriminate]. left. destruct p; cbn in H; bcases H; reflexivity.
  - destruct (nth_error (b_pubs s) i) as [[| | |id [|j] vis|]|] eqn:P; try discriminate.
    destruct (Nat.eqb (shard n) j && mem n (names (b_cons s)) && negb (mem n vis)) eqn:C; [|discriminate].
    injection H as <-. right; left. apply andb_true_iff in C. destruct C as [C C3]. apply andb_true_iff in C. destruct C as [C1 C2].
    apply Nat.eqb_eq in C1. apply mem_In in C2. apply negb_true_iff, mem_not in C3.
    exists i, id, j, vis, n. repeat split; auto.
  - injection H as <-. now left.
  - destruct (nth_error (b_decls s) j) as [d|] eqn:D; [|discriminate]. destruct d; cbn in H; bcases H; try (now left).
    right; right. eauto 6.
  - bcases H. now left.
Qed.

Lemma persistent_step : forall s e s', step s e = Some s' -> b_persistent s' = b_persistent s.
Proof. intros s e s' H. destruct e; cbn in H; bcases H; reflexivity. Qed.

Lemma names_step : forall s e s' n, step s e = Some s' -> In n (names (b_cons s)) -> In n (names (b_cons s')).
Proof.
  intros s e s' n H I. destruct (cons_step _ _ _ H) as [-> | [(i & id & j & vis & m & _ & _ & _ & _ & _ & ->) | (j & m & got & _ & _ & ->)]].
  - exact I.
  - now rewrite deliver_to_names.
  - unfold names. rewrite map_app, in_app_iff. now left.
Qed.

Lemma enq_step : forall s e s' n id, step s e = Some s' -> enq_of s n id -> enq_of s' n id.
Proof.
  intros s e s' n id H (c & I & EN & X).
  destruct (cons_step _ _ _ H) as [E | [(i & id' & j & vis & m & _ & _ & _ & _ & _ & E) | (j & m & got & _ & _ & E)]]; unfold enq_of; rewrite E.
  - eauto.
  - exists (if Nat.eqb (bc_name c) m then deliver (b_persistent s) id' c else c). split; [|split].
    + unfold deliver_to. apply in_map_iff. eauto.
    + destruct (Nat.eqb (bc_name c) m); [now rewrite deliver_name|exact EN].
    + destruct (Nat.eqb (bc_name c) m); [now apply deliver_enq|exact X].
  - exists c. rewrite in_app_iff. auto.
Qed.

(** The number of a publish call. *)
Definition pid (p : bpub) : option nat :=
  match p with BStart => None | BScan id _ _ | BHist id | BIter id _ _ | BDone id => Some id end.
Definition scanning (p : bpub) : bool := match p with BScan _ _ _ | BHist _ => true | _ => false end.
Definition locked (d : bdecl) : option nat :=
  match d with DLocked n | DDrain n _ | DIns n _ => Some n | _ => None end.
Definition gotten (d : bdecl) : list nat := match d with DDrain _ g | DIns _ g => g | _ => [] end.

Record binv (s : bq) : Prop := {
  bi_names : NoDup (names (b_cons s));
  bi_locked : forall j d n, nth_error (b_decls s) j = Some d -> locked d = Some n -> ~ In n (names (b_cons s));
  bi_excl : forall j k d e n, nth_error (b_decls s) j = Some d -> nth_error (b_decls s) k = Some e ->
              locked d = Some n -> locked e = Some n -> j = k;
  bi_done : forall n f, In (DDone n f) (b_decls s) -> In n (names (b_cons s));
  bi_pid : forall i p id, nth_error (b_pubs s) i = Some p -> pid p = Some id -> id < b_next s;
  bi_pids : forall i j p q id, nth_error (b_pubs s) i = Some p -> nth_error (b_pubs s) j = Some q ->
              pid p = Some id -> pid q = Some id -> i = j;
  bi_got : forall d, In d (b_decls s) -> NoDup (gotten d);
  bi_enq : forall c, In c (b_cons s) -> NoDup (bc_enq c);
  bi_seen : b_persistent s = true -> forall c, In c (b_cons s) -> bc_seen c = bc_enq c;
  bi_scan : b_persistent s = false -> forall p, In p (b_pubs s) -> scanning p = false;
  bi_eph : b_persistent s = false ->
    b_hist s = [] /\ (forall d, In d (b_decls s) -> gotten d = []) /\
    forall c id, In c (b_cons s) -> In id (bc_enq c) ->
      exists i p, nth_error (b_pubs s) i = Some p /\ pid p = Some id /\
                  ((exists k vis, p = BIter id k vis /\ In (bc_name c) vis) \/ p = BDone id)
}.

Lemma binv_init : forall p, binv (b_init p).
Proof.
  intros p. constructor; cbn; try tauto; try constructor; try (intros [|?] ? ?; discriminate).
Qed.

Lemma nth_lt_b : forall (A : Type) (l : list A) i x, nth_error l i = Some x -> i < length l.
Proof. intros A l i x H. apply nth_error_Some. congruence. Qed.

(** A publish call moves on without changing its number, or gets a fresh one; consumers may be delivered to. *)
Lemma binv_pub : forall s s' i p p',
  binv s -> nth_error (b_pubs s) i = Some p ->
  b_persistent s' = b_persistent s -> b_decls s' = b_decls s -> b_pubs s' = upd i p' (b_pubs s) ->
  b_cons s' = b_cons s ->
  (pid p' = pid p /\ b_next s' = b_next s) \/ (pid p = None /\ pid p' = Some (b_next s) /\ b_next s' = S (b_next s)) ->
  (b_persistent s = false -> b_hist s' = []) ->
  (forall id k vis, p = BIter id k vis -> (exists k', p' = BIter id k' vis) \/ p' = BDone id) ->
  (forall id, p <> BDone id) -> (b_persistent s = false -> scanning p' = false) ->
  binv s'.
Proof.
  intros s s' i p p' [] P E1 E2 E3 E4 ID EH IT ND SC.
  assert (LI : i < length (b_pubs s)) by (eapply nth_lt_b; eauto).
  constructor; rewrite ?E1, ?E2, ?E3, ?E4; auto.
  - intros j q id J Q. apply upd_nth in J. destruct J as [[<- ->]|[NE J]].
    + destruct ID as [[X ->]|(X & Y & ->)]; [rewrite X in Q; eauto|]. rewrite Y in Q. injection Q as <-. lia.
    + apply bi_pid0 with (2 := Q) in J. destruct ID as [[_ ->]|(_ & _ & ->)]; lia.
  - intros j k q r id J K Q R. apply upd_nth in J, K.
    destruct J as [[<- ->]|[NJ J]]; destruct K as [[<- ->]|[NK K]]; try reflexivity.
    + destruct ID as [[X _]|(X & Y & _)]; [rewrite X in Q; exact (bi_pids0 i k p r id P K Q R)|].
      rewrite Y in Q. injection Q as <-. apply bi_pid0 with (2 := R) in K. lia.
    + destruct ID as [[X _]|(X & Y & _)]; [rewrite X in R; exact (bi_pids0 j i q p id J P Q R)|].
      rewrite Y in R. injection R as <-. apply bi_pid0 with (2 := Q) in J. lia.
    + eapply bi_pids0; eauto.
  - intros EP q I. apply nth_In_upd in I. destruct I as [->|I]; auto.
  - intros EP. destruct (bi_eph0 EP) as (H1 & H2 & H3). split; [auto|]. split; [exact H2|].
    intros c id IC IX. destruct (H3 c id IC IX) as (j & q & J & Q & W).
    destruct (Nat.eq_dec i j) as [<-|NE].
    + rewrite P in J. injection J as <-. exists i, p'. split; [now apply upd_nth_same|].
      destruct W as [(k & vis & -> & V)|W]; [|now apply ND in W].
      destruct (IT _ _ _ eq_refl) as [[k' ->] | ->]; cbn; (split; [reflexivity|]); [left; eauto|auto].
    + exists j, q. rewrite upd_nth_other by auto. auto.
Qed.

Lemma binv_visit : forall s i n s', binv s -> step s (EvBVisit i n) = Some s' -> binv s'.
Proof.
  intros s i n s' B H. pose proof H as H0. cbn in H.
  destruct (nth_error (b_pubs s) i) as [[| | |id [|j] vis|]|] eqn:P; try discriminate.
  destruct (Nat.eqb (shard n) j && mem n (names (b_cons s)) && negb (mem n vis)) eqn:C; [|discriminate].
  injection H as <-. apply andb_true_iff in C. destruct C as [C C3]. apply andb_true_iff in C. destruct C as [C1 C2].
  apply mem_In in C2. apply negb_true_iff, mem_not in C3. destruct B.
  assert (LI : i < length (b_pubs s)) by (eapply nth_lt_b; eauto).
  constructor; cbn; auto.
  - now rewrite deliver_to_names.
  - intros k d m D L. rewrite deliver_to_names. eauto.
  - intros m f I. rewrite deliver_to_names. eauto.
  - intros k q x K Q. apply upd_nth in K. destruct K as [[<- ->]|[NE K]]; [|eauto]. cbn in Q. injection Q as <-.
    eapply bi_pid0; [exact P|reflexivity].
  - intros k l q r x K L Q R. apply upd_nth in K, L.
    destruct K as [[<- ->]|[NJ K]]; destruct L as [[<- ->]|[NK L]]; try reflexivity.
    + exact (bi_pids0 i l _ r x P L Q R).
    + exact (bi_pids0 k i q _ x K P Q R).
    + eapply bi_pids0; eauto.
  - intros c I. unfold deliver_to in I. apply in_map_iff in I. destruct I as (d & <- & I).
    destruct (Nat.eqb_spec (bc_name d) n) as [EN|EN]; [|auto]. unfold deliver. destruct (b_persistent s) eqn:EP.
    + destruct (mem id (bc_seen d)) eqn:MS; [auto|]. cbn. apply mem_not in MS. rewrite (bi_seen0 eq_refl d I) in MS.
      apply (Permutation.Permutation_NoDup (l := id :: bc_enq d)); [apply Permutation.Permutation_cons_append|].
      constructor; auto.
    + cbn. apply (Permutation.Permutation_NoDup (l := id :: bc_enq d)); [apply Permutation.Permutation_cons_append|].
      constructor; [|auto]. intros X. destruct (bi_eph0 eq_refl) as (_ & _ & H3).
      destruct (H3 d id I X) as (k & q & K & Q & W). assert (k = i) by (eapply bi_pids0; eauto; reflexivity). subst k.
      rewrite P in K. injection K as <-. destruct W as [(k & v & E & V)|W]; [|discriminate]. injection E as <- <-. congruence.
  - intros EP c I. unfold deliver_to in I. apply in_map_iff in I. destruct I as (d & <- & I).
    destruct (Nat.eqb_spec (bc_name d) n) as [EN|EN]; [|auto]. unfold deliver. rewrite EP.
    destruct (mem id (bc_seen d)); [auto|]. cbn. now rewrite bi_seen0.
  - intros EP q I. apply nth_In_upd in I. destruct I as [->|I]; [reflexivity|auto].
  - intros EP. destruct (bi_eph0 EP) as (H1 & H2 & H3). split; [exact H1|]. split; [exact H2|].
    intros c x I X. unfold deliver_to in I. apply in_map_iff in I. destruct I as (d & <- & I).
    assert (OLD : In x (bc_enq d) -> exists (i0 : nat) (p : bpub),
      nth_error (upd i (BIter id (S j) (n :: vis)) (b_pubs s)) i0 = Some p /\ pid p = Some x /\
      ((exists k v, p = BIter x k v /\ In (bc_name d) v) \/ p = BDone x)).
    { intros IX. destruct (H3 d x I IX) as (k & q & K & Q & W). destruct (Nat.eq_dec i k) as [<-|NE].
      - rewrite P in K. injection K as <-. cbn in Q. injection Q as <-. exists i. eexists. split; [now apply upd_nth_same|].
        split; [reflexivity|]. left. destruct W as [(k & v & E & V)|W]; [|discriminate]. injection E as <- <-.
        exists (S j), (n :: vis). split; [reflexivity|now right].
      - exists k, q. rewrite upd_nth_other by auto. auto. }
    destruct (Nat.eqb_spec (bc_name d) n) as [EN|EN]; [|auto]. rewrite deliver_name.
    unfold deliver in X. rewrite EP in X. cbn in X. apply in_app_iff in X. destruct X as [X|[<-|[]]]; [auto|].
    exists i. eexists. split; [now apply upd_nth_same|]. split; [reflexivity|]. left. exists (S j), (n :: vis). split; [reflexivity|].
    left. auto.
Qed.

Lemma decl_locks_none : forall s k j d n, write_locked shard s k = false -> nth_error (b_decls s) j = Some d -> locked d = Some n -> shard n <> k.
Proof.
  intros s k j d n W J L E. unfold write_locked in W. assert (existsb (decl_locks shard k) (b_decls s) = true); [|congruence].
  apply existsb_exists. exists d. split; [eapply nth_error_In; eauto|]. destruct d; cbn in *; try discriminate; injection L as ->;
    now apply Nat.eqb_eq.
Qed.

(** A declaration changes phase without touching the map. *)
Lemma binv_decl : forall s s' j d d',
  binv s -> nth_error (b_decls s) j = Some d ->
  b_persistent s' = b_persistent s -> b_cons s' = b_cons s -> b_pubs s' = b_pubs s -> b_next s' = b_next s ->
  b_decls s' = upd j d' (b_decls s) ->
  (locked d' = locked d \/ locked d' = None \/ exists n, locked d = None /\ locked d' = Some n /\ ~ In n (names (b_cons s)) /\ write_locked shard s (shard n) = false) ->
  (forall n f, d' = DDone n f -> In n (names (b_cons s))) ->
  NoDup (gotten d') ->
  (b_persistent s = false -> gotten d' = [] /\ b_hist s' = []) ->
  binv s'.
Proof.
  intros s s' j d d' [] D E1 E2 E3 E4 E5 LK DN NG EP.
  constructor; rewrite ?E1, ?E2, ?E3, ?E4, ?E5; auto.
  - intros k e n K L. apply upd_nth in K. destruct K as [[<- ->]|[NE K]]; [|eauto].
    destruct LK as [X|[X|(m & X & Y & Z & _)]]; [rewrite X in L; eauto|congruence|]. rewrite Y in L. now injection L as <-.
  - intros k l e f n K L EK EL. apply upd_nth in K, L.
    destruct K as [[<- ->]|[NK K]]; destruct L as [[<- ->]|[NL L]]; try reflexivity.
    + destruct LK as [X|[X|(m & X & Y & Z & W)]]; [rewrite X in EK; exact (bi_excl0 j l d f n D L EK EL)|congruence|].
      rewrite Y in EK. injection EK as <-. now apply (decl_locks_none s _ l f m W L) in EL.
    + destruct LK as [X|[X|(m & X & Y & Z & W)]]; [rewrite X in EL; exact (bi_excl0 k j e d n K D EK EL)|congruence|].
      rewrite Y in EL. injection EL as <-. now apply (decl_locks_none s _ k e m W K) in EK.
    + eapply bi_excl0; eauto.
  - intros n f I. apply nth_In_upd in I. destruct I as [<-|I]; [eauto|eauto].
  - intros e I. apply nth_In_upd in I. destruct I as [->|I]; auto.
  - intros P. destruct (bi_eph0 P) as (H1 & H2 & H3). destruct (EP P) as [G1 G2]. split; [exact G2|]. split; [|exact H3].
    intros e I. apply nth_In_upd in I. destruct I as [->|I]; auto.
Qed.

Lemma binv_insert : forall s s' j n got,
  binv s -> nth_error (b_decls s) j = Some (DIns n got) ->
  b_persistent s' = b_persistent s -> b_cons s' = b_cons s ++ [mkBC n got got] -> b_pubs s' = b_pubs s -> b_next s' = b_next s ->
  b_hist s' = b_hist s -> b_decls s' = upd j (DDone n true) (b_decls s) -> binv s'.
Proof.
  intros s s' j n got [] D E1 E2 E3 E4 E5 E6.
  assert (NN : ~ In n (names (b_cons s))) by (eapply bi_locked0; eauto; reflexivity).
  assert (NM : forall l, names (l ++ [mkBC n got got]) = names l ++ [n]) by (intros; unfold names; now rewrite map_app).
  constructor; rewrite ?E1, ?E2, ?E3, ?E4, ?E5, ?E6, ?NM; auto.
  - apply (Permutation.Permutation_NoDup (l := n :: names (b_cons s))); [apply Permutation.Permutation_cons_append|now constructor].
  - intros k e m K L. apply upd_nth in K. destruct K as [[<- ->]|[NE K]]; [discriminate|].
    rewrite in_app_iff. intros [X|[<-|[]]]; [eapply bi_locked0; eauto|]. apply NE. eapply bi_excl0; eauto; reflexivity.
  - intros k l e f m K L EK EL. apply upd_nth in K, L.
    destruct K as [[<- ->]|[NK K]]; [discriminate|]. destruct L as [[<- ->]|[NL L]]; [discriminate|]. eapply bi_excl0; eauto.
  - intros m f I. rewrite in_app_iff. apply nth_In_upd in I. destruct I as [X|I]; [injection X as <- _; right; now left|left; eauto].
  - intros e I. apply nth_In_upd in I. destruct I as [->|I]; [constructor|auto].
  - intros c I. apply in_app_iff in I. destruct I as [I|[<-|[]]]; [auto|]. cbn.
    apply (bi_got0 (DIns n got)). eapply nth_error_In; eauto.
  - intros P c I. apply in_app_iff in I. destruct I as [I|[<-|[]]]; [auto|reflexivity].
  - intros P. destruct (bi_eph0 P) as (H1 & H2 & H3). split; [exact H1|]. split.
    + intros e I. apply nth_In_upd in I. destruct I as [->|I]; auto.
    + intros c x I X. apply in_app_iff in I. destruct I as [I|[<-|[]]]; [auto|]. cbn in X.
      assert (GE : gotten (DIns n got) = []) by (apply H2; eapply nth_error_In; eauto). cbn in GE. subst got. destruct X.
Qed.

Lemma binv_step : forall s e s', binv s -> step s e = Some s' -> binv s'.
Proof.
  intros s e s' B H. destruct e as [| i | i n | n | j | n].
  - cbn in H. injection H as <-. destruct B. constructor; cbn; auto.
    + intros i p id I P. apply nth_app_new in I. destruct I as [[_ ->]|I]; [discriminate|eauto].
    + intros i j p q id I J P Q. apply nth_app_new in I, J. destruct I as [[_ ->]|I]; [discriminate|].
      destruct J as [[_ ->]|J]; [discriminate|eauto].
    + intros EP q I. apply in_app_iff in I. destruct I as [I|[<-|[]]]; [auto|reflexivity].
    + intros P. destruct (bi_eph0 P) as (H1 & H2 & H3). split; [exact H1|]. split; [exact H2|].
      intros c x I X. destruct (H3 c x I X) as (k & q & K & Q & W). exists k, q. split; [|auto].
      rewrite nth_error_app1; [exact K|]. eapply nth_lt_b; eauto.
  - cbn in H. destruct (nth_error (b_pubs s) i) as [p|] eqn:P; [|discriminate].
    assert (EH : b_persistent s = false -> b_hist s = []) by (intros X; apply (bi_eph s B X)).
    assert (SCN : b_persistent s = false -> scanning p = false).
    { intros X. apply (bi_scan s B X). eapply nth_error_In; eauto. }
    destruct p as [|id k acc|id|id k vis|id]; cbn in H; try discriminate.
    + injection H as <-. (eapply (binv_pub s _ i _ _ B P); [reflexivity|reflexivity|reflexivity|reflexivity|..]); cbn; try discriminate; try exact EH.
      * right. split; [reflexivity|]. split; [|reflexivity]. destruct (b_persistent s); reflexivity.
      * intros X. now rewrite X.
    + bcases H;
        (eapply (binv_pub s _ i _ _ B P); [reflexivity|reflexivity|reflexivity|reflexivity|..]); cbn; try discriminate; try exact EH.
      * left. split; reflexivity.
      * intros X. apply SCN in X. discriminate.
      * left. split; [|reflexivity]. destruct acc; reflexivity.
      * intros X. apply SCN in X. discriminate.
    + injection H as <-. (eapply (binv_pub s _ i _ _ B P); [reflexivity|reflexivity|reflexivity|reflexivity|..]); cbn; try discriminate; try exact EH.
      * left. split; reflexivity.
      * intros X. apply SCN in X. discriminate.
      * reflexivity.
    + bcases H;
        (eapply (binv_pub s _ i _ _ B P); [reflexivity|reflexivity|reflexivity|reflexivity|..]); cbn; try discriminate; try exact EH; try (left; split; reflexivity); try (intros _; reflexivity).
      * intros id' k' vis' E. injection E as <- <- <-. left. eauto.
      * intros id' k' vis' E. injection E as <- <- <-. now right.
  - eapply binv_visit; eauto.
  - cbn in H. injection H as <-. destruct B. constructor; cbn; auto.
    + intros k d m K L. apply nth_app_new in K. destruct K as [[_ ->]|K]; [discriminate|eauto].
    + intros k l d e m K L X Y. apply nth_app_new in K, L. destruct K as [[_ ->]|K]; [discriminate|].
      destruct L as [[_ ->]|L]; [discriminate|eauto].
    + intros m f I. apply in_app_iff in I. destruct I as [I|[I|[]]]; [eauto|discriminate].
    + intros d I. apply in_app_iff in I. destruct I as [I|[<-|[]]]; [auto|constructor].
    + intros P. destruct (bi_eph0 P) as (H1 & H2 & H3). split; [exact H1|]. split; [|exact H3].
      intros d I. apply in_app_iff in I. destruct I as [I|[<-|[]]]; [auto|reflexivity].
  - cbn in H. destruct (nth_error (b_decls s) j) as [d|] eqn:D; [|discriminate].
    assert (GD : forall d, In d (b_decls s) -> b_persistent s = false -> gotten d = []).
    { intros d0 I X. destruct (bi_eph s B X) as (_ & H2 & _). auto. }
    assert (EH : b_persistent s = false -> b_hist s = []) by (intros X; apply (bi_eph s B X)).
    assert (ID : In d (b_decls s)) by (eapply nth_error_In; eauto).
    destruct d as [n|n|n got|n got|n f]; cbn in H; try discriminate.
    + destruct (write_locked shard s (shard n)) eqn:WL; [discriminate|]. destruct (read_locked s (shard n)); [discriminate|]. cbn in H.
      destruct (mem n (names (b_cons s))) eqn:MN; injection H as <-.
      * apply mem_In in MN. (eapply (binv_decl s _ j _ _ B D); [reflexivity|reflexivity|reflexivity|reflexivity|reflexivity|..]); cbn; [auto| |constructor|auto].
        intros m f E. now injection E as <- _.
      * apply mem_not in MN. (eapply (binv_decl s _ j _ _ B D); [reflexivity|reflexivity|reflexivity|reflexivity|reflexivity|..]); cbn; [|discriminate|constructor|auto].
        right; right. exists n. auto.
    + destruct (b_persistent s && negb match b_hist s with [] => true | _ => false end); injection H as <-;
        (eapply (binv_decl s _ j _ _ B D); [reflexivity|reflexivity|reflexivity|reflexivity|reflexivity|..]); cbn; try discriminate; try constructor; auto; reflexivity.
    + destruct (b_hist s) as [|id h] eqn:HH; injection H as <-.
      * (eapply (binv_decl s _ j _ _ B D); [reflexivity|reflexivity|reflexivity|reflexivity|reflexivity|..]); cbn; [left; reflexivity|discriminate| |].
        -- apply (bi_got s B (DDrain n got)). exact ID.
        -- intros X. split; [apply (GD (DDrain n got)); auto|auto].
      * (eapply (binv_decl s _ j _ _ B D); [reflexivity|reflexivity|reflexivity|reflexivity|reflexivity|..]); cbn; [left; reflexivity|discriminate| |].
        -- pose proof (bi_got s B (DDrain n got) ID) as NG. cbn in NG.
           destruct (mem id got) eqn:M; [exact NG|]. apply mem_not in M.
           apply (Permutation.Permutation_NoDup (l := id :: got)); [apply Permutation.Permutation_cons_append|now constructor].
        -- intros X. apply EH in X. discriminate.
    + injection H as <-. eapply (binv_insert s _ j); eauto; reflexivity.
  - cbn in H. destruct (mem n (b_live s)); [|discriminate]. injection H as <-. destruct B. constructor; auto.
Qed.

Lemma binv_run : forall p tr s, b_run shards shard p tr = Some s -> binv s.
Proof.
  intros p tr s H. eapply (run_from_inv _ _ step binv); [|apply binv_init|exact H]. intros. eapply binv_step; eauto.
Qed.

Lemma names_run : forall tr s s' n, run_from step s tr = Some s' -> In n (names (b_cons s)) -> In n (names (b_cons s')).
Proof.
  intros tr s s' n H I. eapply (run_from_inv _ _ step (fun s => In n (names (b_cons s)))); [|exact I|exact H].
  intros s1 e s2 I1 E. eapply names_step; eauto.
Qed.

(** All of shard [j] was visited. *)
Lemma all_visited_in : forall vis j cs n, forallb (fun c => mem (bc_name c) vis) (in_shard shard j cs) = true ->
  In n (names cs) -> shard n = j -> In n vis.
Proof.
  intros vis j cs n F I S. unfold names in I. apply in_map_iff in I. destruct I as (c & <- & I).
  rewrite forallb_forall in F. apply mem_In, F. unfold in_shard. apply filter_In. split; [exact I|now apply Nat.eqb_eq].
Qed.

(** The loop of a publish call does not miss consumer [n]. *)
Definition not_missed (n : nat) (s : bq) (p : bpub) : Prop :=
  match p with
  | BIter id k vis => (shard n + 1 < k -> In n vis) /\ (In n vis -> enq_of s n id)
  | BDone id => enq_of s n id
  | _ => True
  end.

Lemma deliver_to_enq : forall s s' n id, binv s -> In n (names (b_cons s)) -> b_cons s' = deliver_to (b_persistent s) n id (b_cons s) -> enq_of s' n id.
Proof.
  intros s s' n id B I E. unfold names in I. apply in_map_iff in I. destruct I as (c & EN & I).
  exists (deliver (b_persistent s) id c). rewrite E. split; [|split].
  - unfold deliver_to. apply in_map_iff. exists c. split; [|exact I]. rewrite EN, Nat.eqb_refl. reflexivity.
  - now rewrite deliver_name.
  - unfold deliver. destruct (b_persistent s) eqn:P.
    + destruct (mem id (bc_seen c)) eqn:M; [|cbn; rewrite in_app_iff; right; now left].
      apply mem_In in M. now rewrite <- (bi_seen s B P c I).
    + cbn. rewrite in_app_iff. right; now left.
Qed.

Lemma not_missed_mono : forall n s e s' p, step s e = Some s' -> not_missed n s p -> not_missed n s' p.
Proof.
  intros n s e s' p H N. destruct p as [|id k acc|id|id k vis|id]; cbn in *; auto.
  - destruct N as [N1 N2]. split; [exact N1|]. intros I. eapply enq_step; eauto.
  - eapply enq_step; eauto.
Qed.

Lemma not_missed_step : forall n s e s' i p',
  shard n < shards -> binv s -> In n (names (b_cons s)) -> step s e = Some s' -> nth_error (b_pubs s') i = Some p' ->
  (forall p, nth_error (b_pubs s) i = Some p -> not_missed n s p) -> not_missed n s' p'.
Proof.
  intros n s e s' i p' SN B IN H P' OLD.
  assert (SAME : b_pubs s' = b_pubs s -> not_missed n s' p').
  { intros E. rewrite E in P'. eapply not_missed_mono; eauto. }
  pose proof H as H0.
  destruct e as [| i0 | i0 m | m | j | m]; cbn in H.
  - injection H as <-. cbn in P'. apply nth_app_new in P'. destruct P' as [[_ ->]|P']; [exact Logic.I|].
    eapply not_missed_mono; eauto.
  - destruct (nth_error (b_pubs s) i0) as [p|] eqn:P; [|discriminate].
    assert (OTHER : forall q, b_pubs s' = upd i0 q (b_pubs s) -> (i0 = i -> not_missed n s q) -> not_missed n s' p').
    { intros q E NQ. rewrite E in P'. apply upd_nth in P'. destruct P' as [[-> ->]|[NE P']].
      - eapply not_missed_mono; eauto.
      - eapply not_missed_mono; eauto. }
    destruct p as [|id k acc|id|id k vis|id]; cbn in H; bcases H; cbn in OTHER; eapply OTHER; try reflexivity; intros ->; cbn; auto.
    + destruct (b_persistent s); cbn; [exact Logic.I|]. split; [lia|intros []].
    + destruct (acc =? 0) eqn:A; cbn; [exact Logic.I|]. split; [lia|intros []].
    + split; [lia|intros []].
    + destruct (OLD _ P) as [O1 O2]. split; [|exact O2]. intros L. destruct k as [|k]; [lia|].
      destruct (Nat.eq_dec (shard n) k) as [E|NE]; [|apply O1; lia]. eapply all_visited_in; eauto.
    + destruct (OLD _ P) as [O1 O2]. apply O2. assert (LT : Nat.ltb k shards = false) by assumption. apply Nat.ltb_ge in LT.
      destruct k as [|k]; [lia|].
      destruct (Nat.eq_dec (shard n) k) as [E|NE]; [|apply O1; lia]. eapply all_visited_in; eauto.
  - destruct (nth_error (b_pubs s) i0) as [[| | |id [|j] vis|]|] eqn:P; try discriminate.
    destruct (Nat.eqb (shard m) j && mem m (names (b_cons s)) && negb (mem m vis)) eqn:C; [|discriminate].
    injection H as <-. cbn in P'. apply upd_nth in P'. destruct P' as [[-> ->]|[NE P']].
    + destruct (OLD _ P) as [O1 O2]. cbn. split; [intros L; right; now apply O1|].
      intros [->|I].
      * eapply deliver_to_enq; eauto.
      * eapply enq_step; eauto.
    + eapply not_missed_mono; eauto.
  - injection H as <-. apply SAME. reflexivity.
  - destruct (nth_error (b_decls s) j) as [d|] eqn:D; [|discriminate]. destruct d; cbn in H; bcases H; apply SAME; reflexivity.
  - bcases H. apply SAME. reflexivity.
Qed.

Lemma not_missed_run : forall n tr s0 s i, shard n < shards -> binv s0 -> In n (names (b_cons s0)) -> length (b_pubs s0) <= i ->
  run_from step s0 tr = Some s -> forall p, nth_error (b_pubs s) i = Some p -> not_missed n s p.
Proof.
  intros n tr s0 s i SN B IN L H.
  assert (G : forall tr s0, binv s0 -> In n (names (b_cons s0)) -> (forall p, nth_error (b_pubs s0) i = Some p -> not_missed n s0 p) ->
     run_from step s0 tr = Some s -> forall p, nth_error (b_pubs s) i = Some p -> not_missed n s p).
  { clear - SN. induction tr as [|e tr IH]; intros s0 B IN NM H p P; cbn in H; [injection H as <-; auto|].
    destruct (step s0 e) as [s1|] eqn:E; [|discriminate].
    apply (IH s1); auto; [eapply binv_step; eauto | eapply names_step; eauto |].
    intros q Q. eapply not_missed_step; eauto. }
  apply (G tr s0); auto. intros p P. apply nth_lt_b in P. lia.
Qed.

(** Persistent queues keep every message somewhere. *)
Definition not_lost (s : bq) (p : bpub) : Prop :=
  match p with
  | BScan id k acc => acc > 0 -> names (b_cons s) <> []
  | BIter id k vis => placed s id \/ exists n, In n (names (b_cons s)) /\ not_missed n s p
  | BDone id => placed s id
  | _ => True
  end.

Lemma placed_step : forall s e s' id, step s e = Some s' -> placed s id -> placed s' id.
Proof.
  intros s e s' id H [K|[K|(n & K)]].
  - (* in the history *)
    unfold kept in K.
    destruct e as [| i | i n | n | j | n]; cbn in H.
    + injection H as <-. now left.
    + destruct (nth_error (b_pubs s) i) as [p|] eqn:P; [|discriminate]. destruct p; cbn in H; bcases H; left; unfold kept; cbn; auto.
      rewrite in_app_iff. now left.
    + bcases H. left. exact K.
    + injection H as <-. now left.
    + destruct (nth_error (b_decls s) j) as [d|] eqn:D; [|discriminate]. destruct d as [n|n|n got|n got|n f]; cbn in H; bcases H; try (left; exact K).
      * destruct K as [->|K]; [|left; exact K].
        right; left. exists n. eexists. split; [|left; cbn; eapply In_upd_new; eauto].
        destruct (mem id got) eqn:M; [now apply mem_In|]. rewrite in_app_iff. right; now left.
    + bcases H. left. exact K.
  - destruct K as (n & got & I & K).
    assert (KEEP : forall d, (d = DDrain n got \/ d = DIns n got) -> In d (b_decls s) ->
               (forall j, nth_error (b_decls s) j = Some d -> e <> EvBDeclStep j) -> In d (b_decls s')).
    { intros d ED ID NJ. destruct e as [| i | i m | m | j | m]; cbn in H; try (bcases H; exact ID).
      - injection H as <-. cbn. rewrite in_app_iff. now left.
      - destruct (nth_error (b_decls s) j) as [d0|] eqn:D; [|discriminate].
        assert (d <> d0) by (intros ->; now apply (NJ j)).
        destruct d0; cbn in H; bcases H; cbn; eapply In_upd_other; eauto. }
    assert (CASE : (exists j d, nth_error (b_decls s) j = Some d /\ e = EvBDeclStep j /\ (d = DDrain n got \/ d = DIns n got)) \/
                   (In (DDrain n got) (b_decls s') \/ In (DIns n got) (b_decls s'))).
    { destruct e as [| i | i m | m | j | m]; try (right; destruct K as [K|K]; [left|right]; apply KEEP; auto; intros; discriminate).
      destruct (nth_error (b_decls s) j) as [d0|] eqn:D; [|cbn in H; rewrite D in H; discriminate].
      assert (DD : (d0 = DDrain n got \/ d0 = DIns n got) \/ ~ (d0 = DDrain n got \/ d0 = DIns n got)).
      { destruct d0 as [a|a|a g|a g|a f]; try (right; intros [X|X]; discriminate).
        - destruct (Nat.eq_dec a n) as [->|NE]; [|right; intros [X|X]; congruence].
          destruct (list_eq_dec Nat.eq_dec g got) as [->|NE]; [auto|right; intros [X|X]; congruence].
        - destruct (Nat.eq_dec a n) as [->|NE]; [|right; intros [X|X]; congruence].
          destruct (list_eq_dec Nat.eq_dec g got) as [->|NE]; [auto|right; intros [X|X]; congruence]. }
      destruct DD as [DD|DD]; [left; eauto 6|]. right.
      destruct K as [K|K]; [left|right]; apply KEEP; auto; intros k KK EQ; injection EQ as <-; rewrite D in KK; injection KK as ->; tauto. }
    destruct CASE as [(j & d & D & -> & [-> | ->])|K']; [| |right; left; exists n, got; auto].
    + cbn in H. rewrite D in H. cbn in H. destruct (b_hist s) as [|x h]; injection H as <-; right; left.
      * exists n, got. split; [exact I|]. right. cbn. eapply In_upd_new; eauto.
      * exists n. eexists. split; [|left; cbn; eapply In_upd_new; eauto].
        destruct (mem x got); [exact I|]. rewrite in_app_iff. now left.
    + cbn in H. rewrite D in H. cbn in H. injection H as <-. right; right. exists n. exists (mkBC n got got). cbn.
      split; [rewrite in_app_iff; right; now left|auto].
  - right; right. exists n. eapply enq_step; eauto.
Qed.

Lemma in_shard_nonempty : forall k l, length (in_shard shard k l) > 0 -> names l <> [].
Proof. intros k l H E. destruct l; [cbn in H; lia|discriminate]. Qed.

Lemma not_lost_mono : forall s e s' p, step s e = Some s' -> not_lost s p -> not_lost s' p.
Proof.
  intros s e s' p H N. destruct p as [|id k acc|id|id k vis|id]; cbn [not_lost] in *; auto.
  - intros G E. specialize (N G). destruct (names (b_cons s)) as [|n l] eqn:EN; [congruence|].
    pose proof (names_step s e s' n H) as X. rewrite EN, E in X. apply X. now left.
  - destruct N as [N|(n & I & N)]; [left; eapply placed_step; eauto|]. right. exists n.
    split; [eapply names_step; eauto|eapply not_missed_mono; eauto].
  - eapply placed_step; eauto.
Qed.

Lemma not_lost_step : forall s e s' i p', (forall n, shard n < shards) -> binv s -> b_persistent s = true ->
  step s e = Some s' -> nth_error (b_pubs s') i = Some p' ->
  (forall p, nth_error (b_pubs s) i = Some p -> not_lost s p) -> not_lost s' p'.
Proof.
  intros s e s' i p' SN B PE H P' OLD.
  assert (SAME : b_pubs s' = b_pubs s -> not_lost s' p').
  { intros E. rewrite E in P'. eapply not_lost_mono; eauto. }
  pose proof H as H0.
  destruct e as [| i0 | i0 m | m | j | m]; cbn in H.
  - injection H as <-. cbn in P'. apply nth_app_new in P'. destruct P' as [[_ ->]|P']; [exact Logic.I|].
    eapply not_lost_mono; eauto.
  - destruct (nth_error (b_pubs s) i0) as [p|] eqn:P; [|discriminate].
    assert (OTHER : forall q, b_pubs s' = upd i0 q (b_pubs s) -> (i0 = i -> not_lost s' q) -> not_lost s' p').
    { intros q E NQ. rewrite E in P'. apply upd_nth in P'. destruct P' as [[-> ->]|[NE P']]; [auto|].
      eapply not_lost_mono; eauto. }
    destruct p as [|id k acc|id|id k vis|id]; cbn in H.
    + bcases H. cbn in OTHER. eapply OTHER; [reflexivity|]. intros ->. rewrite PE. cbn. lia.
    + bcases H; cbn in OTHER; (eapply OTHER; [reflexivity|]); intros ->.
      * cbn. intros G. destruct acc as [|acc]; [|apply (OLD _ P); cbn; lia]. eapply in_shard_nonempty. cbn in G. exact G.
      * destruct acc as [|acc]; cbn [Nat.eqb]; [exact Logic.I|]. cbn [not_lost]. right.
        pose proof (OLD _ P) as O. cbn in O. specialize (O ltac:(lia)). cbn.
        destruct (names (b_cons s)) as [|n l] eqn:EN; [congruence|]. exists n.
        split; [fold (names (b_cons s)); rewrite EN; now left|]. cbn. split; [intros; lia|tauto].
    + bcases H. cbn in OTHER. eapply OTHER; [reflexivity|]. intros ->. cbn. left. left. unfold kept. cbn. rewrite in_app_iff. right; now left.
    + destruct (Nat.eq_dec i0 i) as [->|NE].
      * assert (Q : p' = BIter id (S k) vis \/ p' = BDone id).
        { bcases H; cbn in P'; rewrite upd_nth_same in P' by (eapply nth_lt_b; eauto); injection P' as <-; auto. }
        destruct (OLD _ P) as [O|(n & I & NM)].
        -- apply (placed_step _ _ _ _ H0) in O. destruct Q as [-> | ->]; [left; exact O|exact O].
        -- assert (NM' : not_missed n s' p').
           { eapply not_missed_step; eauto. intros p QQ. rewrite P in QQ. injection QQ as <-. exact NM. }
           destruct Q as [-> | ->]; [right; exists n; split; [eapply names_step; eauto|exact NM']|].
           right; right. exists n. exact NM'.
      * assert (Q : exists q, b_pubs s' = upd i0 q (b_pubs s)) by (bcases H; eexists; reflexivity).
        destruct Q as [q Q]. apply (OTHER q Q). tauto.
    + discriminate.
  - destruct (nth_error (b_pubs s) i0) as [[| | |id [|j] vis|]|] eqn:P; try discriminate.
    destruct (Nat.eqb (shard m) j && mem m (names (b_cons s)) && negb (mem m vis)) eqn:C; [|discriminate].
    injection H as <-. cbn in P'. apply upd_nth in P'. destruct P' as [[-> ->]|[NE P']].
    + left. right; right. exists m. eapply deliver_to_enq; [exact B| |reflexivity].
      apply andb_true_iff in C. destruct C as [C _]. apply andb_true_iff in C. destruct C as [_ C]. now apply mem_In.
    + eapply not_lost_mono; eauto.
  - injection H as <-. apply SAME. reflexivity.
  - destruct (nth_error (b_decls s) j) as [d|] eqn:D; [|discriminate]. destruct d; cbn in H; bcases H; apply SAME; reflexivity.
  - bcases H. apply SAME. reflexivity.
Qed.

Lemma not_lost_run : forall tr s i p, (forall n, shard n < shards) -> b_run shards shard true tr = Some s ->
  nth_error (b_pubs s) i = Some p -> not_lost s p.
Proof.
  intros tr s i p SN H. revert i p.
  assert (G : binv s /\ b_persistent s = true /\ forall i p, nth_error (b_pubs s) i = Some p -> not_lost s p).
  { eapply (run_from_inv _ _ step (fun s => binv s /\ b_persistent s = true /\ forall i p, nth_error (b_pubs s) i = Some p -> not_lost s p)); [| |exact H].
    - intros s1 e s2 (B & PE & NL) E. split; [eapply binv_step; eauto|]. split; [now rewrite (persistent_step _ _ _ E)|].
      intros i p P. eapply not_lost_step; eauto.
    - split; [apply binv_init|]. split; [reflexivity|]. intros [|i] p P; discriminate. }
  tauto.
Qed.

(** * A fresh declaration empties the history of what was published before it *)

Definition past_drain (d : bdecl) : bool := match d with DIns _ _ | DDone _ true => true | _ => false end.

Lemma done_step : forall s e s' i id, step s e = Some s' -> nth_error (b_pubs s) i = Some (BDone id) -> nth_error (b_pubs s') i = Some (BDone id).
Proof.
  intros s e s' i id H P. destruct e as [| i0 | i0 m | m | j | m]; cbn in H.
  - injection H as <-. cbn. rewrite nth_error_app1; [exact P|eapply nth_lt_b; eauto].
  - destruct (nth_error (b_pubs s) i0) as [p|] eqn:P0; [|discriminate].
    assert (i0 <> i) by (intros ->; rewrite P in P0; injection P0 as <-; discriminate).
    destruct p; bcases H; cbn; rewrite upd_nth_other by assumption; exact P.
  - destruct (nth_error (b_pubs s) i0) as [p|] eqn:P0; [|discriminate].
    assert (i0 <> i) by (intros ->; rewrite P in P0; injection P0 as <-; discriminate).
    destruct p as [| | |id' [|j] vis|]; try discriminate. bcases H. cbn. rewrite upd_nth_other by assumption. exact P.
  - injection H as <-. exact P.
  - destruct (nth_error (b_decls s) j) as [d|]; [|discriminate]. destruct d; bcases H; exact P.
  - bcases H. exact P.
Qed.

(** The number of a message whose publish has returned is never put in the history again. *)
Lemma hist_step : forall s e s' i id, binv s -> step s e = Some s' -> nth_error (b_pubs s) i = Some (BDone id) ->
  kept s' id -> kept s id.
Proof.
  unfold kept. intros s e s' i id B H P K. destruct e as [| i0 | i0 m | m | j | m]; cbn in H.
  - injection H as <-. exact K.
  - destruct (nth_error (b_pubs s) i0) as [p|] eqn:P0; [|discriminate].
    destruct p as [|id0 k acc|id0|id0 k vis|id0]; bcases H; cbn in K; auto.
    apply in_app_iff in K. destruct K as [K|[<-|[]]]; [exact K|].
    assert (i0 = i) as -> by (eapply (bi_pids _ B _ _ _ _ id0 P0 P); reflexivity). congruence.
  - bcases H; exact K.
  - injection H as <-. exact K.
  - destruct (nth_error (b_decls s) j) as [d|]; [|discriminate]. destruct d; bcases H; cbn in K; auto; now right.
  - bcases H. exact K.
Qed.

Lemma drained_run : forall tr s0 s i id j, binv s0 -> b_persistent s0 = true ->
  nth_error (b_pubs s0) i = Some (BDone id) -> length (b_decls s0) <= j ->
  run_from step s0 tr = Some s ->
  forall d, nth_error (b_decls s) j = Some d -> past_drain d = true -> ~ kept s id.
Proof.
  intros tr s0 s i id j B PE P L H.
  assert (G : binv s /\ b_persistent s = true /\ nth_error (b_pubs s) i = Some (BDone id) /\
              forall d, nth_error (b_decls s) j = Some d -> past_drain d = true -> ~ kept s id).
  { eapply (run_from_inv _ _ step (fun s => binv s /\ b_persistent s = true /\ nth_error (b_pubs s) i = Some (BDone id) /\
              forall d, nth_error (b_decls s) j = Some d -> past_drain d = true -> ~ kept s id)); [| |exact H].
    - clear - shard. intros s e s' (B & PE & P & NK) H. split; [eapply binv_step; eauto|]. split; [now rewrite (persistent_step _ _ _ H)|].
      split; [eapply done_step; eauto|]. intros d' D' PD K.
      assert (KO : kept s id) by (eapply hist_step; eauto).
      assert (OLD : nth_error (b_decls s) j = Some d' -> False) by (intros D; apply (NK _ D PD KO)).
      unfold kept in K. destruct e as [| i0 | i0 m | m | j0 | m]; cbn in H; try (bcases H; auto; fail).
      + injection H as <-. cbn in D'. apply nth_app_new in D'. destruct D' as [[_ ->]|D']; [discriminate|auto].
      + destruct (nth_error (b_decls s) j0) as [d|] eqn:D; [|discriminate].
        destruct d as [n|n|n got|n got|n f]; bcases H; cbn in D', K; apply upd_nth in D'; destruct D' as [[-> ->]|[_ D']]; auto; try discriminate PD; try tauto.
        * match goal with X : (_ && _)%bool = false |- _ => rewrite PE in X; cbn in X end.
          destruct (b_hist s); [tauto|discriminate].
        * apply (NK _ D); [reflexivity|exact KO].
    - split; [exact B|]. split; [exact PE|]. split; [exact P|]. intros d D. exfalso. apply nth_lt_b in D. lia. }
  tauto.
Qed.

(** Every consumer was put in the map by a declaration that found its name vacant. *)
Lemma names_from_run : forall p tr s n, b_run shards shard p tr = Some s -> In n (names (b_cons s)) -> In (DDone n true) (b_decls s).
Proof.
  intros p tr s n H. revert n.
  eapply (run_from_inv _ _ step (fun s => forall n, In n (names (b_cons s)) -> In (DDone n true) (b_decls s))); [| |exact H]; [|cbn; tauto].
  clear. intros s e s' IH H n I. pose proof H as H0.
  assert (KEEP : In (DDone n true) (b_decls s) -> In (DDone n true) (b_decls s')).
  { intros X. destruct e as [| i0 | i0 m | m | j | m]; cbn in H; try (bcases H; exact X).
    - injection H as <-. cbn. rewrite in_app_iff. now left.
    - destruct (nth_error (b_decls s) j) as [d|] eqn:D; [|discriminate].
      destruct d; bcases H; cbn; eapply In_upd_other; eauto; discriminate. }
  destruct (cons_step _ _ _ H0) as [E|[(i & id & j & vis & m & _ & _ & _ & _ & _ & E)|(j & m & got & -> & D & E)]]; rewrite E in I.
  - auto.
  - rewrite deliver_to_names in I. auto.
  - unfold names in I. rewrite map_app, in_app_iff in I. destruct I as [I|[<-|[]]]; [auto|].
    cbn in H. rewrite D in H. cbn in H. injection H as <-. cbn. eapply In_upd_new; eauto.
Qed.

Lemma published_run : forall tr s0 s i id, run_from step s0 tr = Some s -> published s0 i id -> published s i id.
Proof.
  intros tr s0 s i id H P. eapply (run_from_inv _ _ step (fun s => published s i id)); [|exact P|exact H].
  intros s1 e s2 P1 E. eapply done_step; eauto.
Qed.

Lemma enq_times : forall s n id, binv s -> (times_enqueued s n id = 1 <-> enq_of s n id) /\ times_enqueued s n id <= 1.
Proof using.
  clear shards shard. intros s n id B. unfold times_enqueued, enq_of. pose proof (bi_names _ B) as ND. pose proof (bi_enq _ B) as NE. clear B.
  induction (b_cons s) as [|c l IH]; cbn.
  - split; [|lia]. split; [discriminate|]. intros (c & [] & _).
  - inversion ND as [|x y NI ND' EQ]; subst.
    destruct IH as [IH1 IH2]; [exact ND'|intros; apply NE; now right|].
    destruct (Nat.eqb (bc_name c) n) eqn:E.
    + apply Nat.eqb_eq in E. subst n. cbn. rewrite count_occ_app.
      assert (Z : flat_map bc_enq (filter (fun c0 => bc_name c0 =? bc_name c) l) = []).
      { clear - NI. induction l as [|d l IH]; [reflexivity|]. cbn in *. destruct (Nat.eqb_spec (bc_name d) (bc_name c)); [exfalso; auto|]. apply IH. tauto. }
      rewrite Z. cbn. rewrite Nat.add_0_r.
      assert (NC : NoDup (bc_enq c)) by (apply NE; now left).
      pose proof (proj1 (NoDup_count_occ Nat.eq_dec (bc_enq c)) NC id) as LE. split; [|exact LE]. split.
      * intros C. exists c. repeat split; auto. apply (count_occ_In Nat.eq_dec). lia.
      * intros (d & [-> | ID] & EN & I).
        -- apply (count_occ_In Nat.eq_dec) in I. lia.
        -- exfalso. apply NI. rewrite <- EN. now apply in_map.
    + split; [|exact IH2]. rewrite IH1. apply Nat.eqb_neq in E. split.
      * intros (d & I & X). exists d. tauto.
      * intros (d & [-> | I] & EN & X); [congruence|]. exists d. tauto.
Qed.
End Proofs.
