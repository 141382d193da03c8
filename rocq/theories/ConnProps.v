(** C28 and C41: declaring and deleting in-memory queues, and releasing leased channels. *)
From Coq Require Import List Arith Bool Lia.
From Verif Require Import Base BaseFacts QueueModel BroadcastModel ConnModel ConnSpec.
Import ListNotations.

Section Props.
Context {Opts Q QE : Type}.
Variable q_new : Opts -> Q.
Variable q_do : Q -> QE -> option Q.
Notation cn := (conn Opts Q QE).
Notation act := (cact Opts QE).
Implicit Types s : cn.

Lemma lookup_remove_same : forall n m, lookup n (remove n m) = None.
Proof.
  intros n m. unfold remove. induction m as [|[k h] m IH]; [reflexivity|]. cbn. destruct (Nat.eqb k n) eqn:K; cbn; [exact IH|]. now rewrite K.
Qed.
Lemma lookup_remove_other : forall n k m, n <> k -> lookup n (remove k m) = lookup n m.
Proof.
  intros n k m N0. unfold remove. induction m as [|[j h] m IH]; [reflexivity|]. cbn. destruct (Nat.eqb_spec j k) as [->|NE]; cbn.
  - destruct (Nat.eqb_spec k n); [congruence|exact IH].
  - now rewrite IH.
Qed.

(** The state that a history should lead to. *)
Fixpoint cur (n : nat) (l : list act) (acc : option nat) : option nat :=
  match l with
  | [] => acc
  | HDecl m _ h :: r => cur n r (if Nat.eqb m n then Some h else acc)
  | HDel m :: r => cur n r (if Nat.eqb m n then None else acc)
  | HUse _ _ :: r => cur n r acc
  end.
Lemma cur_app : forall n l1 l2 acc, cur n (l1 ++ l2) acc = cur n l2 (cur n l1 acc).
Proof. intros n l1. induction l1 as [|[m o h|m|h e] l1 IH]; intros l2 acc; cbn; auto. Qed.
Lemma uses_app : forall h (l1 l2 : list act), uses h (l1 ++ l2) = uses h l1 ++ uses h l2.
Proof. intros h l1. induction l1 as [|[m o k|m|k e] l1 IH]; intros l2; cbn; auto. destruct (Nat.eqb k h); cbn; now rewrite IH. Qed.

(** The creating declaration of every handle: first mention of the handle. *)
Definition created (l : list act) (h : nat) (n : nat) (o : Opts) : Prop :=
  exists l1 l2, l = l1 ++ HDecl n o h :: l2 /\ (forall a, In a l1 -> ~ mentions h a) /\ cur n l1 None = None.

Record cinv (s : cn) : Prop := mkCI {
  ci_map : forall n, lookup n (c_map s) = cur n (c_log s) None;
  ci_heap : forall h q, nth_error (c_heap s) h = Some q -> exists n o, created (c_log s) h n o /\ run_from q_do (q_new o) (uses h (c_log s)) = Some q;
  ci_fresh : forall h a, In a (c_log s) -> mentions h a -> h < length (c_heap s);
  ci_names : forall n o h, In (HDecl n o h) (c_log s) -> exists o', created (c_log s) h n o'
}.

Lemma created_app : forall l x h n o, created l h n o -> created (l ++ x) h n o.
Proof. intros l x h n o (l1 & l2 & -> & F & C). exists l1, (l2 ++ x). now rewrite <- app_assoc. Qed.

Lemma cur_in : forall n l h acc, cur n l acc = Some h -> acc = Some h \/ exists o, In (HDecl n o h) l.
Proof.
  intros n l. induction l as [|[m o k|m|k e] l IH]; intros h acc H; cbn in H; auto.
  - destruct (IH h _ H) as [Q0|(o' & I0)]; [|right; exists o'; now right].
    destruct (Nat.eqb_spec m n); [|auto]. injection Q0 as ->. subst. right. exists o. now left.
  - destruct (IH h _ H) as [Q0|(o' & I0)]; [|right; exists o'; now right]. destruct (Nat.eqb m n); [discriminate|auto].
  - destruct (IH h _ H) as [Q0|(o' & I0)]; [auto|right; exists o'; now right].
Qed.

Lemma uses_none : forall h l, (forall a, In a l -> ~ mentions h a) -> uses h (l : list act) = [].
Proof.
  intros h l. induction l as [|a l IH]; intros F; [reflexivity|].
  destruct a as [m o k|m|k e]; cbn; try (apply IH; intros b I; apply F; now right).
  destruct (Nat.eqb_spec k h); [exfalso; eapply F; [now left|exact e0]|]. apply IH. intros b I. apply F. now right.
Qed.

Lemma cinv_init : cinv c_init.
Proof.
  constructor; cbn; auto; try contradiction. intros h q H. destruct h; discriminate.
Qed.

Lemma cinv_declare : forall s n o, cinv s -> cinv (fst (declare q_new s n o)).
Proof.
  intros s n o [M H F Nm]. unfold declare. destruct (lookup n (c_map s)) as [h|] eqn:L; cbn [fst].
  - constructor; cbn [c_map c_heap c_log].
    + intros m. rewrite cur_app, <- M. cbn. destruct (Nat.eqb_spec n m); [now subst|reflexivity].
    + intros k q K. destruct (H k q K) as (m & o' & C & R). exists m, o'. split; [now apply created_app|]. rewrite uses_app. cbn. now rewrite app_nil_r.
    + intros k a I Me. apply in_app_or in I. destruct I as [I|[<-|[]]]; [eauto|]. cbn in Me. subst k.
      rewrite M in L. apply cur_in in L. destruct L as [|(o' & I)]; [discriminate|]. eapply F; [exact I|reflexivity].
    + intros m o' k I. apply in_app_or in I. destruct I as [I|[Q0|[]]].
      * destruct (Nm m o' k I) as (o2 & C). exists o2. now apply created_app.
      * injection Q0 as -> <- <-. rewrite M in L. apply cur_in in L. destruct L as [|(o2 & I)]; [discriminate|].
        destruct (Nm m o2 h I) as (o3 & C). exists o3. now apply created_app.
  - assert (NM : forall a, In a (c_log s) -> ~ mentions (length (c_heap s)) a) by (intros a I Me; specialize (F _ a I Me); lia).
    assert (CR : created (c_log s ++ [HDecl n o (length (c_heap s))]) (length (c_heap s)) n o).
    { exists (c_log s), []. split; [reflexivity|]. split; [exact NM|]. now rewrite <- M. }
    constructor; cbn [c_map c_heap c_log].
    + intros m. rewrite cur_app, <- M. cbn. destruct (Nat.eqb_spec n m); reflexivity.
    + intros k q K. destruct (Nat.lt_ge_cases k (length (c_heap s))) as [LT|GE].
      * rewrite nth_error_app1 in K by exact LT. destruct (H k q K) as (m & o' & C & R). exists m, o'. split; [now apply created_app|].
        rewrite uses_app. cbn. now rewrite app_nil_r.
      * rewrite nth_error_app2 in K by exact GE. destruct (k - length (c_heap s)) as [|j] eqn:KJ; [|destruct j; discriminate].
        cbn in K. injection K as <-. assert (k = length (c_heap s)) as -> by lia. exists n, o. split; [exact CR|].
        rewrite uses_app, uses_none by exact NM. reflexivity.
    + intros k a I Me. rewrite app_length. cbn. apply in_app_or in I. destruct I as [I|[<-|[]]]; [specialize (F k a I Me); lia|]. cbn in Me. lia.
    + intros m o' k I. apply in_app_or in I. destruct I as [I|[Q0|[]]].
      * destruct (Nm m o' k I) as (o2 & C). exists o2. now apply created_app.
      * injection Q0 as -> <- <-. exists o. exact CR.
Qed.

Lemma cinv_delete : forall s n, cinv s -> cinv (delete s n).
Proof.
  intros s n [M H F Nm]. unfold delete. constructor; cbn [c_map c_heap c_log].
  - intros m. rewrite cur_app, <- M. cbn. destruct (Nat.eqb_spec n m); [subst; apply lookup_remove_same|]. apply lookup_remove_other. auto.
  - intros k q K. destruct (H k q K) as (m & o' & C & R). exists m, o'. split; [now apply created_app|]. rewrite uses_app. cbn. now rewrite app_nil_r.
  - intros k a I Me. apply in_app_or in I. destruct I as [I|[<-|[]]]; [eauto|contradiction].
  - intros m o' k I. apply in_app_or in I. destruct I as [I|[Q0|[]]]; [|discriminate].
    destruct (Nm m o' k I) as (o2 & C). exists o2. now apply created_app.
Qed.

Lemma cinv_use : forall s h e s', cinv s -> use q_do s h e = Some s' -> cinv s'.
Proof.
  intros s h e s' [M H F Nm] U. unfold use in U. destruct (nth_error (c_heap s) h) as [q|] eqn:K; [|discriminate].
  destruct (q_do q e) as [q'|] eqn:D; [|discriminate]. injection U as <-.
  assert (HL : h < length (c_heap s)) by (apply nth_error_Some; congruence).
  constructor; cbn [c_map c_heap c_log].
  - intros m. now rewrite cur_app, <- M.
  - intros k r KR. rewrite uses_app. cbn. destruct (Nat.eq_dec k h) as [->|NE].
    + rewrite upd_nth_same in KR by exact HL. injection KR as <-. destruct (H h q K) as (m & o' & C & R). exists m, o'. split; [now apply created_app|].
      rewrite Nat.eqb_refl. apply run_from_app. exists q. split; [exact R|]. cbn. now rewrite D.
    + rewrite upd_nth_other in KR by auto. destruct (H k r KR) as (m & o' & C & R). exists m, o'. split; [now apply created_app|].
      destruct (Nat.eqb_spec h k); [congruence|]. now rewrite app_nil_r.
  - intros k a I Me. rewrite upd_length. apply in_app_or in I. destruct I as [I|[<-|[]]]; [eauto|]. cbn in Me. now subst.
  - intros m o' k I. apply in_app_or in I. destruct I as [I|[Q0|[]]]; [|discriminate].
    destruct (Nm m o' k I) as (o2 & C). exists o2. now apply created_app.
Qed.

Lemma cinv_run : forall tr s, run_from (c_step q_new q_do) c_init tr = Some s -> cinv s.
Proof.
  intros tr s H. apply (run_from_inv _ _ (c_step q_new q_do) cinv) with (tr := tr) (s := c_init); [|exact cinv_init|exact H].
  clear. intros s e s' I H. destruct e as [n o|n|h e]; cbn in H.
  - injection H as <-. now apply cinv_declare.
  - injection H as <-. now apply cinv_delete.
  - eapply cinv_use; eauto.
Qed.
(** Every declaration returns the current queue of the name, or else one never seen before. *)
Definition consistent (l : list act) : Prop :=
  forall l1 n o h l2, l = l1 ++ HDecl n o h :: l2 ->
    match cur n l1 None with Some k => h = k | None => forall a, In a l1 -> ~ mentions h a end.

Lemma snoc_split : forall (T : Type) (l l1 : list T) x y l2, l ++ [x] = l1 ++ y :: l2 -> (l2 = [] /\ l1 = l /\ y = x) \/ exists l3, l2 = l3 ++ [x] /\ l = l1 ++ y :: l3.
Proof.
  intros T l l1 x y l2 H. destruct l2 as [|z l2] using rev_ind.
  - left. apply app_inj_tail in H. destruct H as [-> ->]. auto.
  - right. exists l2. rewrite app_comm_cons, app_assoc in H. apply app_inj_tail in H. destruct H as [-> ->]. auto.
Qed.
Lemma consistent_snoc : forall l x, consistent l -> (forall n o h, x = HDecl n o h -> match cur n l None with Some k => h = k | None => forall a, In a l -> ~ mentions h a end) ->
  consistent (l ++ [x]).
Proof.
  intros l x C X l1 n o h l2 H. apply snoc_split in H. destruct H as [(-> & -> & <-)|(l3 & -> & ->)]; [eapply X; reflexivity|eapply C; reflexivity].
Qed.
Lemma consistent_run : forall tr s, run_from (c_step q_new q_do) c_init tr = Some s -> consistent (c_log s).
Proof.
  intros tr s H. cut (cinv s /\ consistent (c_log s)); [tauto|].
  apply (run_from_inv _ _ (c_step q_new q_do) (fun s => cinv s /\ consistent (c_log s))) with (tr := tr) (s := c_init); [|split; [exact cinv_init|]|exact H].
  - clear. intros s e s' [Iv C] H. split.
    + destruct e as [n o|n|h e]; cbn in H; [injection H as <-; now apply cinv_declare|injection H as <-; now apply cinv_delete|eapply cinv_use; eauto].
    + destruct Iv as [M _ F _]. destruct e as [n o|n|h e]; cbn in H.
      * injection H as <-. unfold declare. destruct (lookup n (c_map s)) as [h|] eqn:L; cbn; apply consistent_snoc; auto; intros m o' k Q0; injection Q0 as <- _ <-; rewrite <- M, L.
        -- reflexivity.
        -- intros a I Me. specialize (F _ a I Me). lia.
      * injection H as <-. cbn. apply consistent_snoc; auto. discriminate.
      * unfold use in H. destruct (nth_error _ h) as [q|]; [|discriminate]. destruct (q_do q e); [|discriminate]. injection H as <-. cbn. apply consistent_snoc; auto. discriminate.
  - intros l1 n o h l2 Q0. destruct l1; discriminate.
Qed.

Lemma cur_keep : forall n l k, (forall a, In a l -> deletes n a = false) -> (forall o h, In (HDecl n o h) l -> h = k) -> cur n l (Some k) = Some k.
Proof.
  intros n l. induction l as [|a l IH]; intros k D C; [reflexivity|].
  assert (IH' : cur n l (Some k) = Some k) by (apply IH; [intros b I; apply D; now right|intros o h I; apply (C o); now right]).
  destruct a as [m o h|m|h e]; cbn.
  - destruct (Nat.eqb_spec m n); [|exact IH']. subst. rewrite (C o h (or_introl eq_refl)). exact IH'.
  - specialize (D _ (or_introl eq_refl)). cbn in D. rewrite D. exact IH'.
  - exact IH'.
Qed.
Lemma cur_stays : forall l0 n l k l2, consistent (l0 ++ l ++ l2) -> cur n l0 None = Some k -> (forall a, In a l -> deletes n a = false) ->
  cur n (l0 ++ l) None = Some k.
Proof.
  intros l0 n l. induction l as [|a l IH] using rev_ind; intros k l2 C K D; [now rewrite app_nil_r|].
  assert (IH' : cur n (l0 ++ l) None = Some k).
  { apply (IH k ([a] ++ l2)); auto. - now rewrite app_assoc in C |- *; rewrite <- app_assoc in C |- *; rewrite <- app_assoc in C. - intros b I. apply D. apply in_or_app. now left. }
  rewrite app_assoc, cur_app, IH'. destruct a as [m o h|m|h e]; cbn; [|specialize (D (HDel m) ltac:(apply in_or_app; right; now left)); cbn in D; now rewrite D|reflexivity].
  destruct (Nat.eqb_spec m n); [|reflexivity]. subst. specialize (C (l0 ++ l) n o h l2). rewrite IH' in C. f_equal. apply C.
  rewrite <- !app_assoc. reflexivity.
Qed.

(** C28: until it is deleted, every declaration of a name returns the same queue. *)
Theorem C28_declare_idempotent : forall tr s pre mid post n o1 o2 h1 h2, run_from (c_step q_new q_do) c_init tr = Some s ->
  c_log s = pre ++ HDecl n o1 h1 :: mid ++ HDecl n o2 h2 :: post -> (forall a, In a mid -> deletes n a = false) -> h1 = h2.
Proof.
  intros tr s pre mid post n o1 o2 h1 h2 H L D. pose proof (consistent_run tr s H) as C. rewrite L in C.
  assert (K : cur n (pre ++ [HDecl n o1 h1]) None = Some h1) by (rewrite cur_app; cbn; now rewrite Nat.eqb_refl).
  pose proof (cur_stays (pre ++ [HDecl n o1 h1]) n mid h1 (HDecl n o2 h2 :: post)) as S. rewrite <- app_assoc in S. specialize (S C K D).
  specialize (C ((pre ++ [HDecl n o1 h1]) ++ mid) n o2 h2 post). rewrite S in C. symmetry. apply C. rewrite <- !app_assoc. reflexivity.
Qed.

Lemma cur_none : forall n l, (forall a, In a l -> declares n a = false) -> cur n (l : list act) None = None.
Proof.
  intros n l. induction l as [|a l IH]; intros D; [reflexivity|].
  assert (IH' : cur n l None = None) by (apply IH; intros b I; apply D; now right). specialize (D a (or_introl eq_refl)).
  destruct a as [m o h|m|h e]; cbn in *; [now rewrite D| |exact IH']. now destruct (Nat.eqb m n).
Qed.
Lemma split_unique : forall (l1 : list act) n o h l2 l1' n' o' l2',
  l1 ++ HDecl n o h :: l2 = l1' ++ HDecl n' o' h :: l2' -> (forall a, In a l1 -> ~ mentions h a) -> (forall a, In a l1' -> ~ mentions h a) ->
  l1 = l1' /\ n = n' /\ o = o' /\ l2 = l2'.
Proof.
  induction l1 as [|a l1 IH]; intros n o h l2 l1' n' o' l2' Q0 F F'.
  - destruct l1' as [|b l1']; cbn in Q0; [injection Q0 as -> -> ->; auto|]. injection Q0 as <- _. exfalso. apply (F' (HDecl n o h)); [now left|reflexivity].
  - destruct l1' as [|b l1']; cbn in Q0; injection Q0 as -> Q0.
    + exfalso. apply (F (HDecl n' o' h)); [now left|reflexivity].
    + destruct (IH n o h l2 l1' n' o' l2' Q0) as (-> & -> & -> & ->); auto; intros c I; [apply F|apply F']; now right.
Qed.

(** The first declaration after a deletion, or the first ever, makes a new queue: it was never seen before, it has the options given
    now, and nothing but the steps made on it since is in it. *)
Theorem C28_fresh_after_delete : forall tr s pre mid post n o h, run_from (c_step q_new q_do) c_init tr = Some s ->
  (c_log s = pre ++ HDel n :: mid ++ HDecl n o h :: post \/ pre = [] /\ c_log s = mid ++ HDecl n o h :: post) ->
  (forall a, In a mid -> declares n a = false) ->
  (forall a, In a (pre ++ mid) -> ~ mentions h a) /\
  exists q, nth_error (c_heap s) h = Some q /\ run_from q_do (q_new o) (uses h post) = Some q.
Proof.
  intros tr s pre mid post n o h H L D. pose proof (consistent_run tr s H) as C. destruct (cinv_run tr s H) as [M HP F Nm].
  assert (LL : exists l1, c_log s = l1 ++ HDecl n o h :: post /\ cur n l1 None = None /\ (forall a, In a (pre ++ mid) -> In a l1)).
  { destruct L as [L|[-> L]].
    - exists (pre ++ HDel n :: mid). split; [now rewrite L, <- app_assoc|]. split.
      + rewrite cur_app. cbn. rewrite Nat.eqb_refl. now apply cur_none.
      + intros a I. apply in_app_or in I. apply in_or_app. cbn. tauto.
    - exists mid. split; [exact L|]. split; [now apply cur_none|auto]. }
  destruct LL as (l1 & L1 & CN & IN). specialize (C l1 n o h post L1). rewrite CN in C.
  split; [intros a I; apply C, IN, I|].
  assert (HL : h < length (c_heap s)) by (eapply F; [rewrite L1; apply in_or_app; right; now left|reflexivity]).
  destruct (nth_error (c_heap s) h) as [q|] eqn:K; [|apply nth_error_None in K; lia]. exists q. split; [reflexivity|].
  destruct (HP h q K) as (n' & o' & (l1' & l2' & L' & F' & _) & R). rewrite L1 in L'.
  destruct (split_unique l1 n o h post l1' n' o' l2' L' C F') as (_ & _ & <- & _).
  rewrite L1, uses_app, (uses_none h l1 C) in R. exact R.
Qed.

(** Other names are unaffected: no queue is ever returned for two names, and what is in a queue depends only on the steps made on it. *)
Theorem C28_names_apart : forall tr s n1 o1 n2 o2 h, run_from (c_step q_new q_do) c_init tr = Some s ->
  In (HDecl n1 o1 h) (c_log s) -> In (HDecl n2 o2 h) (c_log s) -> n1 = n2.
Proof.
  intros tr s n1 o1 n2 o2 h H I1 I2. destruct (cinv_run tr s H) as [_ _ _ Nm].
  destruct (Nm _ _ _ I1) as (o1' & l1 & l2 & L & F & _). destruct (Nm _ _ _ I2) as (o2' & l1' & l2' & L' & F' & _).
  rewrite L in L'. now destruct (split_unique _ _ _ _ _ _ _ _ _ L' F F') as (_ & -> & _).
Qed.
Theorem C28_contents : forall tr s h q, run_from (c_step q_new q_do) c_init tr = Some s -> nth_error (c_heap s) h = Some q ->
  exists n o, In (HDecl n o h) (c_log s) /\ run_from q_do (q_new o) (uses h (c_log s)) = Some q.
Proof.
  intros tr s h q H K. destruct (cinv_run tr s H) as [_ HP _ _]. destruct (HP h q K) as (n & o & (l1 & l2 & L & _) & R). exists n, o.
  split; [rewrite L; apply in_or_app; right; now left|exact R].
Qed.
End Props.
