(** C88: the order in which the consumers of a broadcast queue get the messages. C89: what the queue keeps. *)
From Coq Require Import List Arith Bool Lia.
From Verif Require Import Base BaseFacts BroadcastModel BroadcastSpec BroadcastProofs BroadcastProps BroadcastLive.
Import ListNotations.
Open Scope nat_scope.

(** [a] stands before [b] in the list. *)
Definition before (a b : nat) (l : list nat) : Prop := exists l1 l2 l3, l = l1 ++ a :: l2 ++ b :: l3.
(** What was put in the queue of consumer [n], first to last. *)
Definition queue_of (s : bq) (n : nat) : list nat := flat_map bc_enq (filter (fun c => Nat.eqb (bc_name c) n) (b_cons s)).

Section Order.
Variable shards : nat.
Variable shard : nat -> nat.
Hypothesis shard_ok : forall n, shard n < shards.
Notation step := (b_step shards shard).

(** All numbers in use are below the counter. *)
Record small (s : bq) : Prop := {
  sm_enq : forall c x, In c (b_cons s) -> In x (bc_enq c) -> x < b_next s;
  sm_hist : forall x, In x (b_hist s) -> x < b_next s;
  sm_got : forall d x, In d (b_decls s) -> In x (gotten d) -> x < b_next s;
  sm_pid : forall p x, In p (b_pubs s) -> pid p = Some x -> x < b_next s
}.
Lemma small_init : forall p, small (b_init p). Proof using. intros p. constructor; cbn; tauto. Qed.
Lemma deliver_new : forall p n id l c x, In c (deliver_to p n id l) -> In x (bc_enq c) -> x = id \/ exists c', In c' l /\ In x (bc_enq c').
Proof using.
  intros p n id l c x I X. unfold deliver_to in I. apply in_map_iff in I. destruct I as (d & <- & I).
  destruct (Nat.eqb (bc_name d) n); [|eauto]. unfold deliver in X. destruct p; cbn in X.
  - destruct (mem id (bc_seen d)); [eauto|]. cbn in X. apply in_app_iff in X. destruct X as [X|[<- |[]]]; eauto.
  - apply in_app_iff in X. destruct X as [X|[<- |[]]]; eauto.
Qed.
Ltac cases H :=
  unfold pub_step_b, decl_step_b, set_bpub, set_bdecl in H; cbv zeta in H;
  repeat match type of H with
         | match ?x with _ => _ end = Some _ => destruct x eqn:?; try discriminate H
         | (if ?x then _ else _) = Some _ => destruct x eqn:?; try discriminate H
         end;
  try discriminate H; try (injection H as <-).
Ltac idq Q := cbn in Q; repeat match type of Q with context[if ?x then _ else _] => destruct x end; injection Q as <-.
Lemma small_step : forall s e s', small s -> step s e = Some s' -> small s'.
Proof using.
  intros s e s' [A B C D] H. destruct e as [|i|i n|n|j|n]; cbn in H.
  - injection H as <-. constructor; cbn; try assumption. intros p x I. apply in_app_or in I. destruct I as [I|[<- |[]]]; [now apply D|discriminate].
  - destruct (nth_error (b_pubs s) i) as [p|] eqn:P; [|discriminate]. pose proof (nth_error_In _ _ P) as IP. destruct p as [|id k acc|id|id k vis|id]; cbn in H.
    + injection H as <-. constructor; cbn; try (intros; apply Nat.lt_lt_succ_r; eauto; fail).
      intros q x I Q. apply nth_In_upd in I. destruct I as [-> | I]; [|apply Nat.lt_lt_succ_r; eauto]. destruct (b_persistent s); injection Q as <-; lia.
    + cases H; constructor; cbn; try assumption; intros q x I Q; apply nth_In_upd in I; (destruct I as [-> | I]; [idq Q; apply (D _ _ IP eq_refl)|eauto]).
    + injection H as <-. constructor; cbn; try assumption.
      * intros x I. apply in_app_or in I. destruct I as [I|[<- |[]]]; [auto|apply (D _ _ IP eq_refl)].
      * intros q x I Q; apply nth_In_upd in I; (destruct I as [-> | I]; [idq Q; apply (D _ _ IP eq_refl)|eauto]).
    + cases H; constructor; cbn; try assumption; intros q x I Q; apply nth_In_upd in I; (destruct I as [-> | I]; [idq Q; apply (D _ _ IP eq_refl)|eauto]).
    + discriminate.
  - destruct (nth_error (b_pubs s) i) as [[| | |id [|j] vis|]|] eqn:P; try discriminate. pose proof (nth_error_In _ _ P) as IP. cases H. constructor; cbn; try assumption.
    + intros c x I X. destruct (deliver_new _ _ _ _ _ _ I X) as [-> |(c' & I' & X')]; [apply (D _ _ IP eq_refl)|eauto].
    + intros q x I Q; apply nth_In_upd in I; (destruct I as [-> | I]; [idq Q; apply (D _ _ IP eq_refl)|eauto]).
  - injection H as <-. constructor; cbn; try assumption. intros d x I. apply in_app_or in I. destruct I as [I|[<- |[]]]; [now apply C|intros []].
  - destruct (nth_error (b_decls s) j) as [d|] eqn:DJ; [|discriminate]. pose proof (nth_error_In _ _ DJ) as ID.
    assert (U : forall d', (forall x, In x (gotten d') -> x < b_next s) -> forall d0 x, In d0 (upd j d' (b_decls s)) -> In x (gotten d0) -> x < b_next s)
      by (intros d' O d0 x I; apply nth_In_upd in I; destruct I as [-> | I]; [apply O|eauto]).
    destruct d as [n|n|n got|n got|n f]; cbn in H.
    + cases H; constructor; cbn; try assumption; apply U; intros x [].
    + cases H; constructor; cbn; try assumption; apply U; intros x [].
    + destruct (b_hist s) as [|y h] eqn:EH.
      * injection H as <-. constructor; cbn; rewrite ?EH; try assumption. apply U. intros x. apply (C _ x ID).
      * injection H as <-. constructor; cbn; try assumption.
        -- intros x I. apply B. now right.
        -- apply U. cbn. intros x I. destruct (mem y got); [apply (C _ x ID I)|]. apply in_app_or in I. destruct I as [I|[<- |[]]]; [apply (C _ x ID I)|apply B; now left].
    + injection H as <-. constructor; cbn; try assumption; [|apply U; intros x []].
      intros c x I X. apply in_app_or in I. destruct I as [I|[<- |[]]]; [eauto|]. apply (C _ x ID X).
    + discriminate.
  - cases H. now constructor.
Qed.
Lemma small_run : forall p tr s, b_run shards shard p tr = Some s -> small s.
Proof using. intros p tr s H. eapply (run_from_inv _ _ step small); [|apply small_init|exact H]. exact small_step. Qed.

(** [a] does not come after a number that is [m] or more. *)
Definition early (a m : nat) (l : list nat) : Prop := forall l1 x l2, l = l1 ++ x :: l2 -> m <= x -> ~ In a l2.
Lemma early_below : forall a m l, (forall x, In x l -> x < m) -> early a m l.
Proof using. intros a m l H l1 x l2 -> L. assert (x < m) by (apply H, in_or_app; right; now left). lia. Qed.
Lemma early_add : forall a m l x, early a m l -> x <> a -> early a m (l ++ [x]).
Proof using.
  intros a m l x H NE l1 y l2 EQ L I. destruct l2 as [|z l2 _] using rev_ind; [destruct I|].
  change (l1 ++ y :: l2 ++ [z]) with (l1 ++ (y :: l2) ++ [z]) in EQ. rewrite app_assoc in EQ. apply app_inj_tail in EQ. destruct EQ as [-> ->].
  apply in_app_or in I. destruct I as [I|[<- |[]]]; [exact (H l1 y l2 eq_refl L I)|congruence].
Qed.
Lemma early_drop : forall a m l x r, early a m (l ++ x :: r) -> early a m (l ++ r).
Proof using.
  intros a m l x r H l1 y l2 EQ L I. revert r H EQ. revert l1. induction l as [|z l IH]; intros l1 r H EQ.
  - cbn in *. apply (H (x :: l1) y l2); [cbn; now rewrite EQ|exact L|exact I].
  - destruct l1 as [|w l1]; cbn in EQ; injection EQ as <- EQ.
    + apply (H [] z (l ++ x :: r)); [reflexivity|exact L|]. rewrite <- EQ in I. apply in_app_or in I. apply in_or_app. destruct I; [now left|right; now right].
    + apply (IH l1 r); [|exact EQ]. intros k1 k k2 E LK. apply (H (z :: k1) k k2); [cbn; now rewrite E|exact LK].
Qed.
Lemma early_prefix : forall a m l r, early a m (l ++ r) -> early a m l.
Proof using. intros a m l r H l1 x l2 -> L I. apply (H l1 x (l2 ++ r)); [now rewrite <- app_assoc|exact L|apply in_or_app; now left]. Qed.

(** What holds from the moment on when the publication of [a] has returned; [k] calls were made before, and the counter was [m]. *)
Record later (a m k : nat) (s : bq) : Prop := {
  la_next : m <= b_next s;
  la_pid : forall i p x, nth_error (b_pubs s) i = Some p -> k <= i -> pid p = Some x -> m <= x;
  la_done : forall p, In p (b_pubs s) -> pid p = Some a -> p = BDone a;
  la_below : a < m;
  la_len : k <= length (b_pubs s);
  la_enq : forall c, In c (b_cons s) -> early a m (bc_enq c);
  la_hist : early a m (b_hist s);
  la_got : forall d, In d (b_decls s) -> early a m (gotten d ++ b_hist s)
}.
Lemma later_start : forall p tr s i a, b_run shards shard p tr = Some s -> published s i a -> later a (b_next s) (length (b_pubs s)) s.
Proof using.
  intros p tr s i a H P. pose proof (small_run _ _ _ H) as [A B C D]. pose proof (binv_run _ _ _ _ _ H) as BI. unfold published in P.
  constructor; try lia.
  - intros j q x J L. apply nth_lt_b in J. lia.
  - intros q I Q. apply In_nth_error in I. destruct I as (j & J). rewrite (bi_pids _ BI _ _ _ _ _ J P Q eq_refl) in J. congruence.
  - apply (D _ _ (nth_error_In _ _ P) eq_refl).
  - intros c I. apply early_below. intros x X. eauto.
  - apply early_below. exact B.
  - intros d I. apply early_below. intros x X. apply in_app_or in X. destruct X; eauto.
Qed.
Lemma later_step : forall a m k s e s', later a m k s -> step s e = Some s' -> later a m k s'.
Proof using.
  intros a m k s e s' [A B C BL LN D HI F] H.
  assert (UP : forall i p p', nth_error (b_pubs s) i = Some p -> pid p <> Some a -> (pid p' = pid p \/ exists nx, m <= nx /\ pid p' = Some nx) ->
    (forall j q x, nth_error (upd i p' (b_pubs s)) j = Some q -> k <= j -> pid q = Some x -> m <= x) /\
    (forall q, In q (upd i p' (b_pubs s)) -> pid q = Some a -> q = BDone a)).
  { intros i p p' P NA ID. split.
    - intros j q x J L Q. apply upd_nth in J. destruct J as [[-> ->]|[_ J]]; [|eauto]. destruct ID as [ID|(nx & M & ID)]; [rewrite ID in Q; eauto|]. congruence.
    - intros q I Q. apply nth_In_upd in I. destruct I as [-> | I]; [|eauto]. destruct ID as [ID|(nx & M & ID)]; [congruence|]. rewrite ID in Q. injection Q as ->. lia. }
  destruct e as [|i|i n|n|j|n]; cbn in H.
  - injection H as <-. constructor; cbn; try assumption.
    + intros j p x J L P. apply nth_app_new in J. destruct J as [[_ J]|J]; [subst; discriminate|eauto].
    + intros p I P. apply in_app_or in I. destruct I as [I|[<- |[]]]; [auto|discriminate].
    + rewrite app_length. lia.
  - destruct (nth_error (b_pubs s) i) as [p|] eqn:P; [|discriminate]. pose proof (nth_error_In _ _ P) as IP.
    assert (NA : match p with BDone _ => False | _ => True end -> pid p <> Some a) by (intros X Y; rewrite (C _ IP Y) in X; exact X).
    destruct p as [|id q acc|id|id q vis|id]; cbn in H.
    + injection H as <-. destruct (UP i _ (if b_persistent s then BScan (b_next s) 0 0 else BIter (b_next s) 0 []) P) as [U1 U2]; [discriminate|right; exists (b_next s); split; [exact A|now destruct (b_persistent s)]|].
      constructor; cbn; try assumption; [lia|]. now rewrite upd_length.
    + specialize (NA Logic.I). cases H; constructor; cbn; rewrite ?upd_length; try assumption; try (apply (UP i _ _ P NA); left; cbn; repeat match goal with |- context [if ?x then _ else _] => destruct x end; reflexivity).
    + specialize (NA Logic.I). injection H as <-. constructor; cbn; rewrite ?upd_length; try assumption; try (apply (UP i _ _ P NA); now left).
      * apply early_add; [exact HI|]. cbn in NA. congruence.
      * intros d I. rewrite app_assoc. apply early_add; [now apply F|]. cbn in NA. congruence.
    + specialize (NA Logic.I). cases H; constructor; cbn; rewrite ?upd_length; try assumption; apply (UP i _ _ P NA); now left.
    + discriminate.
  - destruct (nth_error (b_pubs s) i) as [[| | |id [|j] vis|]|] eqn:P; try discriminate. pose proof (nth_error_In _ _ P) as IP.
    assert (NA : id <> a) by (intros ->; specialize (C _ IP eq_refl); discriminate).
    assert (NA' : pid (BIter id (S j) vis) <> Some a) by (cbn; congruence).
    cases H. constructor; cbn; rewrite ?upd_length; try assumption; try (apply (UP i _ _ P NA'); now left).
    intros c I. unfold deliver_to in I. apply in_map_iff in I. destruct I as (d & <- & I). specialize (D d I).
    destruct (Nat.eqb (bc_name d) n); [|exact D]. unfold deliver. destruct (b_persistent s); [destruct (mem id (bc_seen d)); [exact D|]|]; cbn; now apply early_add.
  - injection H as <-. constructor; cbn; try assumption. intros d I. apply in_app_or in I. destruct I as [I|[<- |[]]]; [now apply F|]. exact HI.
  - destruct (nth_error (b_decls s) j) as [d|] eqn:DJ; [|discriminate]. pose proof (nth_error_In _ _ DJ) as ID.
    assert (U : forall d' h, early a m (gotten d' ++ h) -> (forall d0, In d0 (b_decls s) -> early a m (gotten d0 ++ h)) -> forall d0, In d0 (upd j d' (b_decls s)) -> early a m (gotten d0 ++ h))
      by (intros d' h O O2 d0 I; apply nth_In_upd in I; destruct I as [-> | I]; [exact O|now apply O2]).
    destruct d as [n|n|n got|n got|n f]; cbn in H.
    + cases H; constructor; cbn; try assumption; now apply U.
    + cases H; constructor; cbn; try assumption; apply U; try assumption; cbn; apply HI.
    + pose proof (F _ ID) as G. cbn in G. destruct (b_hist s) as [|x h] eqn:EH.
      * injection H as <-. constructor; cbn; rewrite ?EH; try assumption. now apply U.
      * injection H as <-. constructor; cbn; try assumption.
        -- exact (early_drop a m [] x h HI).
        -- apply U; cbn; [|intros d0 I; exact (early_drop a m _ x h (F d0 I))]. destruct (mem x got); [now apply early_drop in G|]. now rewrite <- app_assoc.
    + injection H as <-. constructor; cbn; try assumption; [|now apply U].
      intros c I. apply in_app_or in I. destruct I as [I|[<- |[]]]; [now apply D|]. cbn. apply (early_prefix a m got (b_hist s)), (F _ ID).
    + discriminate.
  - cases H. now constructor.
Qed.
Lemma later_run : forall a m k tr s s', later a m k s -> run_from step s tr = Some s' -> later a m k s'.
Proof using. intros a m k tr s s' L R. eapply (run_from_inv _ _ step (later a m k)); [|exact L|exact R]. intros x e y. apply later_step. Qed.

Lemma queue_of_one : forall s n x, binv s -> In x (queue_of s n) -> exists c, In c (b_cons s) /\ bc_name c = n /\ queue_of s n = bc_enq c.
Proof using.
  intros s n x B I. unfold queue_of in *. pose proof (bi_names _ B) as ND. unfold names in ND. induction (b_cons s) as [|c l IH]; [destruct I|].
  cbn in ND. inversion ND as [|? ? NI ND']; subst. cbn in I |- *. destruct (Nat.eqb_spec (bc_name c) n) as [EN|NE].
  - exists c. split; [now left|]. split; [exact EN|]. cbn. rewrite <- EN. clear - NI. induction l as [|d l IH]; cbn; [now rewrite app_nil_r|].
    destruct (Nat.eqb_spec (bc_name d) (bc_name c)) as [E|E]; [destruct NI; left; exact E|]. apply IH. intros X. apply NI. now right.
  - destruct (IH I ND') as (d & I1 & I2 & I3). exists d. split; [now right|now split].
Qed.
(** * C88 *)
(** If the publication of [a] had returned when that of [b] was called, nobody gets [b] before [a], whatever else happens meanwhile. *)
Theorem C88_in_order : forall persistent t1 t2 s0 s n i j a b, b_run shards shard persistent t1 = Some s0 -> published s0 i a ->
  run_from step s0 t2 = Some s -> length (b_pubs s0) <= j -> published s j b -> In a (queue_of s n) -> In b (queue_of s n) -> before a b (queue_of s n).
Proof using.
  intros p t1 t2 s0 s n i j a b R P R2 L Q IA IB. pose proof (later_run _ _ _ _ _ _ (later_start _ _ _ _ _ R P) R2) as LA.
  assert (BI : binv s) by (apply (binv_run shards shard p (t1 ++ t2)); apply run_from_app; exists s0; split; [exact R|exact R2]).
  destruct (queue_of_one s n a BI IA) as (c & IC & _ & E). rewrite E in *.
  pose proof (la_enq _ _ _ _ LA c IC) as EA. pose proof (la_pid _ _ _ _ LA _ _ _ Q L eq_refl) as M. pose proof (la_below _ _ _ _ LA) as BE.
  apply in_split in IB. destruct IB as (l1 & l2 & EB). specialize (EA l1 b l2 EB M). rewrite EB in IA. apply in_app_or in IA. destruct IA as [IA|[-> | IA]]; [|lia|tauto].
  apply in_split in IA. destruct IA as (k1 & k2 & ->). exists k1, k2, l2. rewrite EB, <- app_assoc. reflexivity.
Qed.
Lemma pubs_run : forall tr s s', run_from step s tr = Some s' -> length (b_pubs s) <= length (b_pubs s').
Proof using.
  intros tr s s' R. eapply (run_from_inv _ _ step (fun x => length (b_pubs s) <= length (b_pubs x))); [|apply Nat.le_refl|exact R].
  intros x e y L H. destruct e as [|i|i n|n|j|n]; cbn in H; cases H; cbn; rewrite ?app_length, ?upd_length; lia.
Qed.
(** A consumer that was declared before gets both, each once, in this order. *)
Theorem C88_declared : forall persistent t1 t2 t3 s0 s1 s n i j a b, b_run shards shard persistent t1 = Some s0 -> declared s0 n ->
  run_from step s0 t2 = Some s1 -> length (b_pubs s0) <= i -> published s1 i a -> run_from step s1 t3 = Some s -> length (b_pubs s1) <= j -> published s j b ->
  before a b (queue_of s n) /\ times_enqueued s n a = 1 /\ times_enqueued s n b = 1.
Proof.
  intros p t1 t2 t3 s0 s1 s n i j a b R D R2 LI PA R3 LJ PB.
  assert (RA : b_run shards shard p (t1 ++ t2) = Some s1) by (apply run_from_app; exists s0; split; [exact R|exact R2]).
  assert (R23 : run_from step s0 (t2 ++ t3) = Some s) by (apply run_from_app; exists s1; now split).
  assert (PA' : published s i a) by exact (published_run shards shard t3 s1 s i a R3 PA).
  assert (LE : length (b_pubs s0) <= length (b_pubs s1)) by exact (pubs_run t2 s0 s1 R2).
  pose proof (C25_exactly_once shards shard shard_ok p t1 _ s0 s n i a R D R23 LI PA') as TA.
  assert (LJ' : length (b_pubs s0) <= j) by lia.
  pose proof (C25_exactly_once shards shard shard_ok p t1 _ s0 s n j b R D R23 LJ' PB) as TB.
  split; [|now split]. apply (C88_in_order p (t1 ++ t2) t3 s1 s n i j a b RA PA R3 LJ PB); apply (count_occ_In Nat.eq_dec); unfold times_enqueued in *; unfold queue_of; lia.
Qed.

(** * C89 *)
(** What the queue keeps for consumer [n] besides the messages: the numbers of messages seen. *)
Definition seen_of (s : bq) (n : nat) : list nat := flat_map bc_seen (filter (fun c => Nat.eqb (bc_name c) n) (b_cons s)).
Lemma persistent_run : forall p tr s, b_run shards shard p tr = Some s -> b_persistent s = p.
Proof using.
  intros p tr s R. eapply (run_from_inv _ _ step (fun x => b_persistent x = p)); [| |exact R]; [|reflexivity]. intros x e y EQ H. now rewrite (persistent_step _ _ _ _ _ H).
Qed.
Lemma seen_enq : forall tr s n, b_run shards shard true tr = Some s -> seen_of s n = queue_of s n.
Proof using.
  intros tr s n R. pose proof (bi_seen _ (binv_run _ _ _ _ _ R) (persistent_run _ _ _ R)) as SE. unfold seen_of, queue_of.
  induction (b_cons s) as [|c l IH]; [reflexivity|]. cbn. destruct (Nat.eqb (bc_name c) n); cbn; [rewrite SE by (now left); f_equal|]; apply IH; intros d I; apply SE; now right.
Qed.
Lemma in_queue_of : forall s n x, In x (queue_of s n) <-> enq_of s n x.
Proof using.
  intros s n x. unfold queue_of, enq_of. rewrite in_flat_map. split.
  - intros (c & I & X). apply filter_In in I. destruct I as [I N]. apply Nat.eqb_eq in N. now exists c.
  - intros (c & I & N & X). exists c. split; [|exact X]. apply filter_In. split; [exact I|now apply Nat.eqb_eq].
Qed.
(** A number that was noted for a consumer stays for ever, whether or not the message was taken and whether or not the consumer is still there. *)
Theorem C89_for_ever : forall t1 t2 s0 s n id, b_run shards shard true t1 = Some s0 -> run_from step s0 t2 = Some s ->
  times_enqueued s0 n id = 1 -> In id (seen_of s n).
Proof using.
  intros t1 t2 s0 s n id R R2 T. assert (R' : b_run shards shard true (t1 ++ t2) = Some s) by (apply run_from_app; exists s0; split; [exact R|exact R2]).
  rewrite (seen_enq _ _ n R'). apply in_queue_of. apply (enq_times s0 n id (binv_run _ _ _ _ _ R)) in T.
  eapply (run_from_inv _ _ step (fun x => enq_of x n id)); [|exact T|exact R2]. intros x e y EQ H. exact (enq_step _ _ _ _ _ _ _ H EQ).
Qed.
Lemma live_inner : forall tr s s', run_from step s tr = Some s' -> forallb inner tr = true -> Forall decl_returned (b_decls s) -> b_live s' = b_live s /\ b_decls s' = b_decls s.
Proof using.
  induction tr as [|e tr IH]; intros s s' R IN DR; [injection R as <-; now split|]. cbn in R, IN. apply andb_true_iff in IN. destruct IN as [I1 I2].
  destruct (step s e) as [x|] eqn:E; [|discriminate].
  assert (K : b_live x = b_live s /\ b_decls x = b_decls s).
  { destruct e as [|i|i n|n|j|n]; cbn in I1, E; try discriminate; try (cases E; now split).
    destruct (nth_error (b_decls s) j) as [d|] eqn:D; [|discriminate]. rewrite Forall_forall in DR. destruct (DR d (nth_error_In _ _ D)) as (n & f & ->). discriminate. }
  destruct K as [K1 K2]. destruct (IH x s' R I2) as [A B]; [now rewrite K2|]. split; congruence.
Qed.
(** Whoever is still there, more publications make the queue keep more for every consumer that was ever declared. *)
Theorem C89_grows : forall t1 s0 n, b_run shards shard true t1 = Some s0 -> declared s0 n -> all_returned s0 ->
  forall k, exists t2 s, run_from step s0 t2 = Some s /\ all_returned s /\ b_live s = b_live s0 /\ b_decls s = b_decls s0 /\ length (b_pubs s) = length (b_pubs s0) + k /\
    k <= length (seen_of s n).
Proof.
  intros t1 s0 n R0 D AR. induction k as [|k IH].
  - exists [], s0. split; [reflexivity|]. repeat (split; [assumption || reflexivity || lia|]). lia.
  - destruct IH as (t2 & s & R & AS & EL & ED & EP & LK).
    assert (RS : b_run shards shard true (t1 ++ t2) = Some s) by (apply run_from_app; exists s0; split; [exact R0|exact R]).
    set (s1 := mkB (b_persistent s) (b_cons s) (b_hist s) (b_next s) (b_pubs s ++ [BStart]) (b_decls s) (b_live s)).
    assert (R1 : b_run shards shard true ((t1 ++ t2) ++ [EvBPublish]) = Some s1) by (apply run_from_app; exists s; split; [exact RS|reflexivity]).
    destruct (C82_finish shards shard true _ s1 R1) as (t3 & s3 & IN & _ & R3 & AR3 & _).
    assert (RF : run_from step s (EvBPublish :: t3) = Some s3) by exact R3.
    destruct (live_inner t3 s1 s3 R3 IN) as [L3 D3]; [exact (proj2 AS)|]. cbn in L3, D3.
    exists (t2 ++ EvBPublish :: t3), s3. split; [apply run_from_app; exists s; now split|]. split; [exact AR3|]. split; [congruence|]. split; [congruence|].
    assert (EP3 : length (b_pubs s3) = length (b_pubs s1)).
    { clear - R3 IN. revert R3 IN. generalize s1. induction t3 as [|e t IH]; intros x R IN; [injection R as <-; reflexivity|]. cbn in R, IN. apply andb_true_iff in IN. destruct IN as [I1 I2].
      destruct (step x e) as [y|] eqn:E; [|discriminate]. rewrite (IH y R I2). destruct e as [|i|i m|m|j|m]; cbn in I1, E; try discriminate; cases E; cbn; now rewrite ?upd_length. }
    cbn in EP3. rewrite app_length in EP3. cbn in EP3. split; [lia|].
    destruct (nth_error (b_pubs s3) (length (b_pubs s))) as [p|] eqn:P; [|apply nth_error_None in P; lia].
    destruct AR3 as [AP _]. rewrite Forall_forall in AP. destruct (AP p (nth_error_In _ _ P)) as (id & ->).
    assert (DS : declared s n) by (destruct D as (f & D); exists f; now rewrite ED).
    pose proof (C25_exactly_once shards shard shard_ok true (t1 ++ t2) _ s s3 n _ id RS DS RF (Nat.le_refl _) P) as TE.
    assert (R03 : b_run shards shard true ((t1 ++ t2) ++ EvBPublish :: t3) = Some s3) by (apply run_from_app; exists s; split; [exact RS|exact RF]).
    pose proof (binv_run _ _ _ _ _ R03) as B3. pose proof (binv_run _ _ _ _ _ RS) as BS.
    assert (NS : id >= b_next s).
    { pose proof (small_run _ _ _ RS) as SM. clear - R3 P SM. 
      assert (G : forall t x y, run_from step x t = Some y -> b_next s <= b_next x /\ (forall q j, nth_error (b_pubs x) (length (b_pubs s)) = Some q -> pid q = Some j -> b_next s <= j) ->
                  b_next s <= b_next y /\ (forall q j, nth_error (b_pubs y) (length (b_pubs s)) = Some q -> pid q = Some j -> b_next s <= j)).
      { intros t x y Rxy H. eapply (run_from_inv _ _ step (fun z => b_next s <= b_next z /\ (forall q j, nth_error (b_pubs z) (length (b_pubs s)) = Some q -> pid q = Some j -> b_next s <= j))); [|exact H|exact Rxy].
        clear. intros x e y [H1 H2] E. destruct e as [|i|i m|m|j|m]; cbn in E.
        - injection E as <-. cbn. split; [exact H1|]. intros q j Q. apply nth_app_new in Q. destruct Q as [[_ ->]|Q]; [discriminate|eauto].
        - destruct (nth_error (b_pubs x) i) as [p|] eqn:P; [|discriminate].
          assert (U : forall p', pid p' = pid p \/ pid p' = Some (b_next x) -> forall q j, nth_error (upd i p' (b_pubs x)) (length (b_pubs s)) = Some q -> pid q = Some j -> b_next s <= j).
          { intros p' ID q j Q PQ. apply upd_nth in Q. destruct Q as [[-> ->]|[_ Q]]; [|eauto]. destruct ID as [ID|ID]; rewrite ID in PQ; [eauto|injection PQ as <-; exact H1]. }
          destruct p as [|id k acc|id|id k vis|id]; cbn in E; cases E; (split; [cbn; lia|]); cbn; apply U; cbn; repeat match goal with |- context [if ?b then _ else _] => destruct b end; tauto.
        - destruct (nth_error (b_pubs x) i) as [[| | |id [|j] vis|]|] eqn:P; try discriminate. cases E. cbn. split; [exact H1|]. intros q z Q PQ. apply upd_nth in Q.
          destruct Q as [[-> ->]|[_ Q]]; [|eauto]. exact (H2 _ z P PQ).
        - injection E as <-. now split.
        - destruct (nth_error (b_decls x) j) as [d|]; [|discriminate]. destruct d; cbn in E; cases E; now split.
        - cases E. now split. }
      destruct (G t3 s1 s3 R3) as [_ G2]; [|exact (G2 _ _ P eq_refl)]. cbn. split; [lia|]. intros q j Q. rewrite nth_error_app2 in Q by lia. rewrite Nat.sub_diag in Q. injection Q as <-. discriminate. }
    rewrite (seen_enq _ _ n R03). rewrite (seen_enq _ _ n RS) in LK.
    assert (ND : NoDup (id :: queue_of s n)).
    { constructor.
      - intros I. apply in_queue_of in I. destruct I as (c & I & _ & X). pose proof (sm_enq _ (small_run _ _ _ RS) c id I X). lia.
      - destruct (queue_of s n) as [|x l] eqn:Q; [constructor|]. rewrite <- Q. destruct (queue_of_one s n x BS) as (c & I & _ & ->); [rewrite Q; now left|]. apply (bi_enq _ BS c I). }
    assert (INC : incl (id :: queue_of s n) (queue_of s3 n)).
    { intros x [<- | I].
      - apply in_queue_of. now apply (enq_times s3 n id B3).
      - apply in_queue_of. apply in_queue_of in I. eapply (run_from_inv _ _ step (fun y => enq_of y n x)); [|exact I|exact RF]. intros y e z EQ H. exact (enq_step _ _ _ _ _ _ _ H EQ). }
    pose proof (NoDup_incl_length ND INC) as LL. cbn in LL. lia.
Qed.
End Order.

(** * C90 *)
(** Full statement, also for publications that overlap: any two consumers that get both messages get them in the same order. *)
Definition same_order (shards : nat) (shard : nat -> nat) : Prop := forall persistent tr s n1 n2 a b, b_run shards shard persistent tr = Some s ->
  before a b (queue_of s n1) -> In a (queue_of s n2) -> In b (queue_of s n2) -> before a b (queue_of s n2).
(** Two publications at once: the second overtakes the first between two consumers. *)
Definition overtaken : list b_event :=
  [EvBDeclare 0; EvBDeclStep 0; EvBDeclStep 0; EvBDeclStep 0; EvBDeclare 1; EvBDeclStep 1; EvBDeclStep 1; EvBDeclStep 1; EvBPublish; EvBPublish;
   EvBPubStep 0; EvBPubStep 0; EvBPubStep 0; EvBPubStep 0; EvBPubStep 0; EvBVisit 0 0;
   EvBPubStep 1; EvBPubStep 1; EvBPubStep 1; EvBPubStep 1; EvBPubStep 1; EvBVisit 1 0; EvBPubStep 1; EvBVisit 1 1; EvBPubStep 1;
   EvBPubStep 0; EvBVisit 0 1; EvBPubStep 0].
Theorem C90_refuted : exists s a b, b_run 2 ex_sh true overtaken = Some s /\ published s 0 a /\ published s 1 b /\
  queue_of s 0 = [a; b] /\ queue_of s 1 = [b; a] /\ ~ same_order 2 ex_sh.
Proof.
  exists (b_after 2 ex_sh true overtaken), 0, 1. split; [vm_compute; reflexivity|]. repeat (split; [vm_compute; reflexivity|]). intros F.
  specialize (F true overtaken (b_after 2 ex_sh true overtaken) 0 1 0 1). vm_compute queue_of in F.
  destruct F as (l1 & l2 & l3 & EQ); [vm_compute; reflexivity|exists [], [], []; reflexivity|right; now left|now left|].
  destruct l1 as [|x [|y l1]]; cbn in EQ; [discriminate| |destruct l1; discriminate]. injection EQ as _ EQ. destruct l2; discriminate.
Qed.

(** It holds for publications one after the other. *)
Theorem C90_partial : forall shards shard persistent t1 t2 s0 s n1 n2 i j a b, b_run shards shard persistent t1 = Some s0 -> published s0 i a ->
  run_from (b_step shards shard) s0 t2 = Some s -> length (b_pubs s0) <= j -> published s j b ->
  (forall n, In n [n1; n2] -> In a (queue_of s n) /\ In b (queue_of s n)) ->
  (before a b (queue_of s n1) <-> before a b (queue_of s n2)) /\ (before b a (queue_of s n1) <-> before b a (queue_of s n2)).
Proof.
  intros shards shard p t1 t2 s0 s n1 n2 i j a b R P R2 L Q IN.
  assert (BF : forall n, In n [n1; n2] -> before a b (queue_of s n)) by (intros n I; destruct (IN n I); eapply C88_in_order; eassumption).
  assert (NB : forall n, In n [n1; n2] -> ~ before b a (queue_of s n)).
  { intros n I (l1 & l2 & l3 & EQ). pose proof (later_run _ _ _ _ _ _ _ _ (later_start _ _ _ _ _ _ _ R P) R2) as LA.
    assert (BI : binv s) by (apply (binv_run shards shard p (t1 ++ t2)); apply run_from_app; exists s0; split; [exact R|exact R2]).
    destruct (queue_of_one s n a BI (proj1 (IN n I))) as (c & IC & _ & E). rewrite E in EQ.
    apply (la_enq _ _ _ _ LA c IC l1 b (l2 ++ a :: l3) EQ (la_pid _ _ _ _ LA _ _ _ Q L eq_refl)). apply in_or_app. right. now left. }
  assert (I1 : In n1 [n1; n2]) by (now left). assert (I2 : In n2 [n1; n2]) by (right; now left).
  pose proof (BF n1 I1). pose proof (BF n2 I2). pose proof (NB n1 I1). pose proof (NB n2 I2). tauto.
Qed.

(** Full statement of C89: once all handles are dropped and all calls have returned, a bounded amount is kept for a consumer. *)
Definition frugal (shards : nat) (shard : nat -> nat) : Prop := exists k, forall tr s n, b_run shards shard true tr = Some s -> all_returned s -> b_live s = [] ->
  length (seen_of s n) <= k.
Theorem C89_refuted : exists shards shard, (forall n, shard n < shards) /\ ~ frugal shards shard.
Proof.
  exists 2, ex_sh. assert (OK : forall n, ex_sh n < 2) by (intros n; apply Nat.mod_upper_bound; discriminate). split; [exact OK|]. intros (k & F).
  set (t1 := [EvBDeclare 0; EvBDeclStep 0; EvBDeclStep 0; EvBDeclStep 0; EvBDrop 0]).
  destruct (C89_grows 2 ex_sh OK t1 (b_after 2 ex_sh true t1) 0) with (k := S k) as (t2 & s & R & AR & EL & _ & _ & LE).
  - vm_compute. reflexivity.
  - exists true. vm_compute. now left.
  - split; [constructor|]. constructor; [exists 0, true; reflexivity|constructor].
  - assert (RS : b_run 2 ex_sh true (t1 ++ t2) = Some s) by (apply run_from_app; exists (b_after 2 ex_sh true t1); split; [vm_compute; reflexivity|exact R]).
    pose proof (F _ s 0 RS AR EL). lia.
Qed.

(** * Examples *)
(** Consumer 1 is declared and gets two messages one after the other, while consumer 2 is declared in between. *)
Definition in_turn : list b_event * list b_event * list b_event :=
  ([EvBDeclare 1; EvBDeclStep 0; EvBDeclStep 0; EvBDeclStep 0],
   [EvBPublish; EvBPubStep 0; EvBPubStep 0; EvBPubStep 0; EvBPubStep 0; EvBPubStep 0; EvBDeclare 0; EvBPubStep 0; EvBVisit 0 1; EvBPubStep 0],
   [EvBPublish; EvBDeclStep 1; EvBPubStep 1; EvBDeclStep 1; EvBDeclStep 1; EvBPubStep 1; EvBPubStep 1; EvBPubStep 1; EvBPubStep 1; EvBVisit 1 0; EvBPubStep 1; EvBVisit 1 1; EvBPubStep 1]).
Example C88_ex : let '(t1, t2, t3) := in_turn in let s0 := b_after 2 ex_sh true t1 in let s1 := b_after 2 ex_sh true (t1 ++ t2) in let s := b_after 2 ex_sh true (t1 ++ t2 ++ t3) in
  b_run 2 ex_sh true (t1 ++ t2 ++ t3) = Some s /\ declared s0 1 /\ published s1 0 0 /\ length (b_pubs s1) <= 1 /\ published s 1 1 /\ queue_of s 1 = [0; 1] /\ queue_of s 0 = [1].
Proof. cbn [in_turn]. split; [vm_compute; reflexivity|]. split; [exists true; vm_compute; now left|]. vm_compute. repeat split; lia. Qed.
(** Two messages wait in the history for the first consumer, who gets them in order. *)
Definition waiting : list b_event :=
  [EvBPublish; EvBPubStep 0; EvBPubStep 0; EvBPubStep 0; EvBPubStep 0; EvBPubStep 0; EvBPubStep 0; EvBPubStep 0; EvBPubStep 0;
   EvBPublish; EvBPubStep 1; EvBPubStep 1; EvBPubStep 1; EvBPubStep 1; EvBPubStep 1; EvBPubStep 1; EvBPubStep 1; EvBPubStep 1;
   EvBDeclare 1; EvBDeclStep 0; EvBDeclStep 0; EvBDeclStep 0; EvBDeclStep 0; EvBDeclStep 0; EvBDeclStep 0].
Example C88_ex_history : exists s, b_run 2 ex_sh true waiting = Some s /\ published s 0 0 /\ published s 1 1 /\ queue_of s 1 = [0; 1] /\ seen_of s 1 = [0; 1].
Proof. exists (b_after 2 ex_sh true waiting). vm_compute. repeat split. Qed.

Print Assumptions C88_in_order.
Print Assumptions C88_declared.
Print Assumptions C90_refuted.
Print Assumptions C90_partial.
Print Assumptions C89_for_ever.
Print Assumptions C89_grows.
Print Assumptions C89_refuted.
