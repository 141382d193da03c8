(** Invariants of the durability model. *)
From Coq Require Import List Arith Lia Bool.
From Verif Require Import Base BaseFacts DurModel DurSpec.
Import ListNotations.
Open Scope nat_scope.

Lemma eqb_neq' : forall a b, Nat.eqb a b = false -> a <> b. Proof. intros a b. apply Nat.eqb_neq. Qed.
Ltac eqs := repeat match goal with
  | H : Nat.eqb ?a ?b = true |- _ => apply Nat.eqb_eq in H; subst
  | H : Nat.eqb ?a ?b = false |- _ => apply Nat.eqb_neq in H
  end.

(** ** Queues by name *)
Lemma find_q_some : forall n l q, find_q n l = Some q -> In q l /\ q_name q = n.
Proof. intros n l q H. apply find_some in H. destruct H as [I E]. apply Nat.eqb_eq in E. now split. Qed.
Lemma find_q_in : forall l q, NoDup (map q_name l) -> In q l -> find_q (q_name q) l = Some q.
Proof.
  induction l as [|x l IH]; intros q ND I; [destruct I|]. inversion ND as [|? ? N1 N2]; subst. cbn. destruct (Nat.eqb (q_name x) (q_name q)) eqn:E.
  - destruct I as [-> | I]; [reflexivity|]. apply Nat.eqb_eq in E. destruct N1. rewrite E. now apply in_map.
  - destruct I as [-> | I]; [rewrite Nat.eqb_refl in E; discriminate|]. now apply IH.
Qed.
Lemma find_q_map : forall f, (forall q, q_name (f q) = q_name q) -> forall l n, find_q n (map f l) = option_map f (find_q n l).
Proof.
  intros f H l n. induction l as [|x l IH]; [reflexivity|]. cbn. rewrite H. destruct (Nat.eqb (q_name x) n); [reflexivity|exact IH].
Qed.
Lemma find_q_cons : forall n x l, find_q n (x :: l) = if Nat.eqb (q_name x) n then Some x else find_q n l. Proof. reflexivity. Qed.
Lemma find_q_without : forall l m n, find_q n (filter (fun q => negb (Nat.eqb (q_name q) m)) l) = if Nat.eqb m n then None else find_q n l.
Proof.
  intros l m n. induction l as [|x l IH]; cbn [filter]; [now destruct (Nat.eqb m n)|].
  destruct (Nat.eqb (q_name x) m) eqn:E; cbn [negb]; rewrite !find_q_cons, IH; [|destruct (Nat.eqb (q_name x) n) eqn:E2; [|reflexivity]].
  - apply Nat.eqb_eq in E. rewrite E. now destruct (Nat.eqb m n).
  - destruct (Nat.eqb m n) eqn:E3; [|reflexivity]. eqs. congruence.
Qed.
Lemma find_q_filter : forall P l n, NoDup (map q_name l) -> find_q n (filter P l) = match find_q n l with Some q => if P q then Some q else None | None => None end.
Proof.
  intros P l n. induction l as [|x l IH]; intros ND; [reflexivity|]. inversion ND as [|? ? N1 N2]; subst. specialize (IH N2). cbn [filter].
  destruct (P x) eqn:E; rewrite !find_q_cons; destruct (Nat.eqb (q_name x) n) eqn:E2; try rewrite E; try reflexivity; try exact IH.
  rewrite IH. destruct (find_q n l) as [q|] eqn:F; [|reflexivity]. apply find_q_some in F. destruct F as [I F]. apply Nat.eqb_eq in E2. destruct N1. rewrite E2, <- F. now apply in_map.
Qed.
Lemma nodup_filter : forall P l, NoDup (map q_name l) -> NoDup (map q_name (filter P l)).
Proof.
  intros P l. induction l as [|x l IH]; intros ND; [exact ND|]. inversion ND as [|? ? N1 N2]; subst. cbn. destruct (P x); [|now apply IH].
  cbn. constructor; [|now apply IH]. intros I. apply N1. apply in_map_iff in I. destruct I as (q & E & I). apply filter_In in I. rewrite <- E. apply in_map. apply I.
Qed.
Lemma find_q_none : forall n l, find_q n l = None -> ~ In n (map q_name l).
Proof. intros n l H I. apply in_map_iff in I. destruct I as (q & E & I). pose proof (find_none _ _ H _ I) as F. cbn in F. apply Nat.eqb_neq in F. now apply F. Qed.
Lemma has_In : forall n l, has n l = true <-> In n l.
Proof.
  intros n l. unfold has. rewrite existsb_exists. split; [intros (x & I & E); apply Nat.eqb_eq in E; now subst|]. intros I. exists n. split; [exact I|apply Nat.eqb_refl].
Qed.
Lemma without_In : forall n m l, In n (without m l) -> n <> m /\ In n l.
Proof. intros n m l I. apply filter_In in I. destruct I as [I E]. split; [|exact I]. intros ->. rewrite Nat.eqb_refl in E. discriminate. Qed.

(** ** What is in a queue according to the history *)
Definition lasting (p : nat * dmode) : bool := match snd p with Persistent => true | Ephemeral => false end.
Fixpoint inside (n : nat) (l : list dact) : list (nat * dmode) :=
  match l with
  | [] => []
  | LMade n' d :: l => if Nat.eqb n' n then [] else inside n l
  | LIn n' id m :: l => if Nat.eqb n' n then inside n l ++ [(id, m)] else inside n l
  | LOut n' id :: l => if Nat.eqb n' n then filter (fun p => negb (Nat.eqb (fst p) id)) (inside n l) else inside n l
  | LDel n' :: l | LExp n' :: l => if Nat.eqb n' n then [] else inside n l
  | LClose _ :: l => inside n l
  | LRestart :: l => match stands n l with Some Durable => filter lasting (inside n l) | _ => [] end
  end.
Definition flagged (p : nat * dmode) : nat * bool := (fst p, message_properties (snd p)).
Definition args_for (d : qdur) : bargs := mkA (declare_durable d) (declare_expires d).

(** Each entry fits the history before it. *)
Definition fits (a : dact) (l : list dact) : Prop :=
  match a with
  | LMade n _ => stands n l = None
  | LIn n id _ => stands n l <> None /\ forall n' m', ~ In (LIn n' id m') l
  | LExp n => stands n l = Some NonDurable
  | LOut n id => In id (map fst (inside n l))
  | LDel n => stands n l <> None
  | _ => True
  end.
Fixpoint wf (l : list dact) : Prop := match l with [] => True | a :: l => fits a l /\ wf l end.

Record dinv (s : dst) : Prop := {
  di_names : NoDup (map q_name (d_qs s));
  di_queue : forall n, match find_q n (d_qs s) with
                       | Some q => exists d, stands n (d_log s) = Some d /\ q_args q = args_for d /\ q_msgs q = map flagged (inside n (d_log s))
                       | None => stands n (d_log s) = None
                       end;
  di_bind : forall n, In n (d_bind s) -> find_ex n (d_ex s) <> None /\ find_q n (d_qs s) <> None;
  di_next : forall n id m, In (LIn n id m) (d_log s) -> id < d_next s;
  di_wf : wf (d_log s)
}.

Lemma dinv_init : dinv d_init.
Proof. constructor; cbn; try constructor; intros; try tauto. Qed.

(** Only the connections and the calls differ. *)
Lemma dinv_core : forall s s', d_ex s' = d_ex s -> d_qs s' = d_qs s -> d_bind s' = d_bind s -> d_next s' = d_next s -> d_log s' = d_log s -> dinv s -> dinv s'.
Proof. intros s s' E1 E2 E3 E4 E5 D. destruct D. constructor; rewrite ?E1, ?E2, ?E3, ?E4, ?E5; assumption. Qed.
Lemma dinv_hang_up : forall s c, dinv s -> dinv (hang_up s c [LClose c]).
Proof.
  intros s c D. destruct D as [D1 D2 D3 D4 D5]. constructor; cbn; try assumption; [|tauto]. intros n id m [E|I]; [discriminate|]. now apply (D4 n id m).
Qed.
Lemma dinv_drop : forall s n a, dinv s -> (a = LDel n \/ a = LExp n) -> fits a (d_log s) -> dinv (drop_queue s n a).
Proof.
  intros s n a [D1 D2 D3 D4 D5] EA F. constructor; cbn [d_qs d_log d_bind d_ex d_next drop_queue].
  - now apply nodup_filter.
  - intros n'. rewrite find_q_without. specialize (D2 n'). destruct EA as [-> | ->]; cbn; destruct (Nat.eqb n n'); try reflexivity; exact D2.
  - intros n' I. apply without_In in I. destruct I as [NE I]. destruct (D3 n' I) as [A B]. split; [exact A|]. rewrite find_q_without.
    destruct (Nat.eqb n n') eqn:E; [eqs; congruence|exact B].
  - intros n' id m [E|I]; [destruct EA; subst; discriminate|]. now apply (D4 n' id m).
  - now split.
Qed.
Lemma fresh : forall s n m, dinv s -> ~ In (LIn n (d_next s) m) (d_log s).
Proof. intros s n m D I. apply (di_next _ D) in I. lia. Qed.
Lemma put_name : forall n id m q, q_name (put n id m q) = q_name q.
Proof. intros. unfold put. now destruct (Nat.eqb (q_name q) n). Qed.
Lemma settle_name : forall n id q, q_name (settle n id q) = q_name q.
Proof. intros. unfold settle. now destruct (Nat.eqb (q_name q) n). Qed.
Lemma names_map : forall f, (forall q, q_name (f q) = q_name q) -> forall l, map q_name (map f l) = map q_name l.
Proof. intros f H l. rewrite map_map. apply map_ext. exact H. Qed.
Lemma dinv_accept : forall s n m b, dinv s -> (b = true -> find_q n (d_qs s) <> None) -> dinv (accept s n m b).
Proof.
  intros s n m b D HB. destruct b; cbn.
  - destruct (find_q n (d_qs s)) as [q0|] eqn:F; [|now specialize (HB eq_refl)].
    pose proof (di_queue _ D n) as Q. rewrite F in Q. destruct Q as (d & Q1 & Q2 & Q3).
    constructor; cbn [d_qs d_log d_bind d_ex d_next].
    + rewrite names_map by apply put_name. apply D.
    + intros n'. rewrite find_q_map by apply put_name. pose proof (di_queue _ D n') as Q'. cbn [stands inside].
      destruct (find_q n' (d_qs s)) as [q|] eqn:F'; cbn; [|exact Q']. destruct Q' as (d' & R1 & R2 & R3). exists d'. split; [exact R1|].
      destruct (find_q_some _ _ _ F') as [_ EN]. unfold put. rewrite EN, (Nat.eqb_sym n n'). destruct (Nat.eqb n' n); cbn; [|now split]. split; [exact R2|].
      now rewrite R3, map_app.
    + intros n' I. rewrite find_q_map by apply put_name. destruct (di_bind _ D n' I) as [A B]. split; [exact A|]. destruct (find_q n' (d_qs s)); [discriminate|congruence].
    + intros n' id m' [E|I]; [injection E as <- <- <-; lia|]. apply (di_next _ D) in I. lia.
    + split; [|apply D]. cbn. split; [congruence|]. intros n' m'. now apply fresh.
  - destruct D as [D1 D2 D3 D4 D5]. constructor; cbn; try assumption. intros n' id m' I. apply D4 in I. lia.
Qed.
Lemma some_true : forall (A : Type) (o : option A), some o = true -> o <> None.
Proof. intros A [a|]; cbn; congruence. Qed.

Lemma dinv_op : forall s c o, dinv s -> dinv (do_op s c o).
Proof.
  intros s c o D. destruct o as [n o|n o|n|n o|n|n]; cbn [do_op].
  - destruct (find_ex n (d_ex s)) as [a|] eqn:F; [destruct (bargs_eqb _ _); [exact D|now apply dinv_hang_up]|].
    destruct D as [D1 D2 D3 D4 D5]. constructor; cbn; try assumption. intros n' I. destruct (D3 n' I) as [A B]. split; [|exact B].
    unfold find_ex. cbn. destruct (Nat.eqb n n'); [discriminate|exact A].
  - destruct (find_q n (d_qs s)) as [q|] eqn:F; [destruct (bargs_eqb _ _); [exact D|now apply dinv_hang_up]|].
    pose proof (di_queue _ D n) as Q. rewrite F in Q. destruct D as [D1 D2 D3 D4 D5]. constructor; cbn [d_qs d_log d_bind d_ex d_next].
    + cbn. constructor; [now apply find_q_none|exact D1].
    + intros n'. cbn. destruct (Nat.eqb n n') eqn:E; [|apply D2]. exists (o_dur o). cbn. repeat split.
    + intros n' I. destruct (D3 n' I) as [A B]. split; [exact A|]. cbn. destruct (Nat.eqb n n'); [discriminate|exact B].
    + intros n' id m [E|I]; [discriminate|now apply (D4 n' id m)].
    + now split.
  - destruct (some (find_ex n (d_ex s)) && some (find_q n (d_qs s)))%bool eqn:E; [|now apply dinv_hang_up].
    apply andb_true_iff in E. destruct E as [E1 E2]. apply some_true in E1. apply some_true in E2.
    destruct D as [D1 D2 D3 D4 D5]. constructor; cbn; try assumption. intros n' I. destruct (has n (d_bind s)); [now apply D3|]. destruct I as [<- | I]; [now split|now apply D3].
  - destruct (o_syn o).
    + apply dinv_accept; [exact D|]. apply some_true.
    + destruct (some (find_ex n (d_ex s))); [|now apply dinv_hang_up]. apply dinv_accept; [exact D|]. intros H. apply has_In in H. now apply (di_bind _ D).
  - destruct (some (find_q n (d_qs s))) eqn:E; [|exact D]. apply dinv_drop; [exact D|now left|]. cbn. pose proof (di_queue _ D n) as Q.
    destruct (find_q n (d_qs s)) as [q|]; [|discriminate]. destruct Q as (d & Q & _). congruence.
  - destruct D as [D1 D2 D3 D4 D5]. constructor; cbn; try assumption. intros n' I. apply without_In in I. destruct I as [NE I]. destruct (D3 n' I) as [A B]. split; [|exact B].
    unfold find_ex in *. intros H. apply A. destruct (find (fun p => Nat.eqb (fst p) n') (d_ex s)) as [p|] eqn:F; [|reflexivity].
    pose proof (find_some _ _ F) as [F1 F2]. apply Nat.eqb_eq in F2.
    destruct (find (fun p => Nat.eqb (fst p) n') (filter (fun p => negb (Nat.eqb (fst p) n)) (d_ex s))) as [p'|] eqn:F3; [discriminate H|].
    exfalso. pose proof (find_none _ _ F3 p) as F4. cbn in F4. rewrite F2, Nat.eqb_refl in F4. enough (true = false) by discriminate. apply F4. apply filter_In. split; [exact F1|]. cbn.
    apply negb_true_iff. apply Nat.eqb_neq. congruence.
Qed.

Lemma args_durable : forall d, a_durable (args_for d) = match d with Durable => true | NonDurable => false end.
Proof. now intros []. Qed.
Lemma flagged_filter : forall l, filter snd (map flagged l) = map flagged (filter lasting l).
Proof. induction l as [|[i m] l IH]; [reflexivity|]. cbn. destruct m; cbn; now rewrite IH. Qed.
Lemma find_ex_filter : forall P l n a, find_ex n l = Some a -> P (n, a) = true -> find_ex n (filter P l) <> None.
Proof.
  intros P l n a. unfold find_ex. induction l as [|[n' a'] l IH]; cbn; [discriminate|]. destruct (Nat.eqb n' n) eqn:E.
  - cbn. intros H HP. injection H as ->. eqs. rewrite HP. cbn. rewrite Nat.eqb_refl. discriminate.
  - intros H HP. destruct (P (n', a')); cbn; [rewrite E|]; now apply IH.
Qed.
Lemma keep_name : forall q, q_name (keep_msgs q) = q_name q. Proof. reflexivity. Qed.
Lemma dinv_restart : forall s, dinv s -> dinv (restart s).
Proof.
  intros s [D1 D2 D3 D4 D5]. constructor; cbn [d_qs d_log d_bind d_ex d_next restart].
  - rewrite names_map by apply keep_name. now apply nodup_filter.
  - intros n. rewrite find_q_map by apply keep_name. rewrite find_q_filter by exact D1. specialize (D2 n). cbn [stands inside].
    destruct (find_q n (d_qs s)) as [q|]; [|now rewrite D2]. destruct D2 as (d & S1 & S2 & S3). rewrite S1, S2, args_durable. destruct d; [reflexivity|]. cbn.
    exists Durable. split; [reflexivity|]. split; [exact S2|]. now rewrite S3, flagged_filter.
  - intros n I. apply filter_In in I. destruct I as [_ H]. rewrite find_q_map by apply keep_name. rewrite find_q_filter by exact D1.
    destruct (find_ex n (d_ex s)) as [a|] eqn:E; [|discriminate]. destruct (find_q n (d_qs s)) as [q|]; [|discriminate]. apply andb_true_iff in H. destruct H as [H1 H2]. split.
    + eapply find_ex_filter; [exact E|exact H1].
    + rewrite H2. discriminate.
  - intros n id m [E|I]; [discriminate|now apply (D4 n id m)].
  - now split.
Qed.
Lemma flagged_out : forall id l, filter (fun p => negb (Nat.eqb (fst p) id)) (map flagged l) = map flagged (filter (fun p => negb (Nat.eqb (fst p) id)) l).
Proof. intros id. induction l as [|[i m] l IH]; [reflexivity|]. cbn. destruct (Nat.eqb i id); cbn; now rewrite IH. Qed.
Lemma fst_flagged : forall l, map fst (map flagged l) = map fst l.
Proof. intros l. rewrite map_map. reflexivity. Qed.

Lemma dinv_step : forall s e s', dinv s -> d_step s e = Some s' -> dinv s'.
Proof.
  intros s e s' D H. assert (K : forall c h ops s', call s c h ops = Some s' -> dinv s').
  { intros c h ops s1 C. unfold call in C. destruct (has c (d_up s)); [|discriminate]. injection C as <-. now apply (dinv_core s). }
  destruct e as [c|c n o|c n o|c n|i|n id|n|c|]; cbn [d_step] in H.
  - destruct (_ || _)%bool; [discriminate|]. injection H as <-. now apply (dinv_core s).
  - now apply K in H.
  - destruct (existsb _ _); [|discriminate]. now apply K in H.
  - now apply K in H.
  - destruct (nth_error (d_calls s) i) as [[c h [|o ops] []]|]; try discriminate. injection H as <-. now apply (dinv_core (do_op s c o)); [..|apply dinv_op].
  - destruct (find_q n (d_qs s)) as [q|] eqn:F; [|discriminate]. destruct (existsb _ (q_msgs q)) eqn:X; [|discriminate]. injection H as <-.
    pose proof (di_queue _ D n) as Q. rewrite F in Q. destruct Q as (d & Q1 & Q2 & Q3). destruct D as [D1 D2 D3 D4 D5].
    constructor; cbn [d_qs d_log d_bind d_ex d_next].
    + now rewrite names_map by apply settle_name.
    + intros n'. rewrite find_q_map by apply settle_name. specialize (D2 n'). cbn [stands inside].
      destruct (find_q n' (d_qs s)) as [q'|] eqn:F'; cbn; [|exact D2]. destruct D2 as (d' & R1 & R2 & R3). exists d'. split; [exact R1|].
      destruct (find_q_some _ _ _ F') as [_ EN]. unfold settle. rewrite EN, (Nat.eqb_sym n n'). destruct (Nat.eqb n' n); cbn; [|now split]. split; [exact R2|].
      now rewrite R3, flagged_out.
    + intros n' I. rewrite find_q_map by apply settle_name. destruct (D3 n' I) as [A B]. split; [exact A|]. destruct (find_q n' (d_qs s)); [discriminate|congruence].
    + intros n' id' m' [E|I]; [discriminate|now apply (D4 n' id' m')].
    + split; [|exact D5]. cbn. rewrite <- fst_flagged, <- Q3. apply existsb_exists in X. destruct X as (p & I & E). apply Nat.eqb_eq in E. subst. now apply in_map.
  - destruct (find_q n (d_qs s)) as [q|] eqn:F; [|discriminate]. destruct (a_expires (q_args q)) eqn:X; [|discriminate]. injection H as <-.
    apply dinv_drop; [exact D|now right|]. cbn. pose proof (di_queue _ D n) as Q. rewrite F in Q. destruct Q as ([] & Q1 & Q2 & Q3); [exact Q1|]. rewrite Q2 in X. discriminate.
  - destruct (has c (d_up s)); [|discriminate]. injection H as <-. now apply (dinv_core s).
  - injection H as <-. now apply dinv_restart.
Qed.
Lemma dinv_run : forall evs s, run_from d_step d_init evs = Some s -> dinv s.
Proof. intros evs s R. exact (run_from_inv _ _ d_step dinv (fun a e b I H => dinv_step a e b I H) evs d_init s dinv_init R). Qed.

(** ** Histories *)
Lemma wf_app : forall l1 l2, wf (l1 ++ l2) -> wf l2.
Proof. induction l1 as [|a l1 IH]; intros l2 W; [exact W|]. apply IH, W. Qed.
Lemma inside_in : forall n id m l, wf l -> In (id, m) (inside n l) -> exists l1 l2 d, l = l1 ++ LIn n id m :: l2 /\ stands n l2 = Some d /\ stands n l = Some d /\ kept n id m d l1.
Proof.
  intros n id m l. induction l as [|a l IH]; [intros _ []|]. intros [F W] I.
  assert (G : In (id, m) (inside n l) -> stands n (a :: l) = stands n l -> a <> LOut n id -> a <> LDel n -> a <> LExp n -> (a <> LRestart \/ stands n l = Some Durable /\ m = Persistent) ->
    exists l1 l2 d, a :: l = l1 ++ LIn n id m :: l2 /\ stands n l2 = Some d /\ stands n (a :: l) = Some d /\ kept n id m d l1).
  { intros I' E N1 N2 N3 N4. destruct (IH W I') as (l1 & l2 & d & E1 & E2 & E3 & K1 & K2 & K3 & K4). exists (a :: l1), l2, d. rewrite E.
    split; [now rewrite E1|]. split; [exact E2|]. split; [exact E3|]. unfold kept.
    split; [intros [X|X]; tauto|]. split; [intros [X|X]; tauto|]. split; [intros [X|X]; tauto|]. intros [X|X]; [|now apply K4].
    destruct N4 as [N4|[N4 N5]]; [congruence|]. split; [exact N5|congruence]. }
  destruct a as [n' d|n' id' m'|n' id'|n'|n'|c|]; cbn in I.
  - destruct (Nat.eqb n' n) eqn:E; [destruct I|]. apply G; try discriminate; [exact I| |now left]. cbn. now rewrite E.
  - destruct (Nat.eqb n' n) eqn:E; [|apply G; try discriminate; [exact I|reflexivity|now left]]. eqs. apply in_app_or in I. destruct I as [I|[I|[]]].
    + apply G; try discriminate; [exact I|reflexivity|now left].
    + injection I as -> ->. destruct F as [F _]. destruct (stands n l) as [d|] eqn:S; [|congruence]. exists [], l, d. cbn. rewrite S. unfold kept. cbn. tauto.
  - destruct (Nat.eqb n' n) eqn:E; [|apply G; try discriminate; [exact I|reflexivity|intros X; injection X as -> ->; now rewrite Nat.eqb_refl in E|now left]].
    apply filter_In in I. destruct I as [I X]. apply G; try discriminate; [exact I|reflexivity|intros Y; injection Y as -> ->; cbn in X; now rewrite Nat.eqb_refl in X|now left].
  - destruct (Nat.eqb n' n) eqn:E; [destruct I|]. apply G; try discriminate; [exact I|cbn; now rewrite E|intros X; injection X as ->; now rewrite Nat.eqb_refl in E|now left].
  - destruct (Nat.eqb n' n) eqn:E; [destruct I|]. apply G; try discriminate; [exact I|cbn; now rewrite E|intros X; injection X as ->; now rewrite Nat.eqb_refl in E|now left].
  - apply G; try discriminate; [exact I|reflexivity|now left].
  - destruct (stands n l) as [[]|] eqn:S; try destruct I. apply filter_In in I. destruct I as [I X]. apply G; try discriminate; [exact I|cbn; now rewrite S|].
    right. split; [reflexivity|]. destruct m; [reflexivity|discriminate].
Qed.
Lemma in_inside : forall n id m d l1 l2, wf (l1 ++ LIn n id m :: l2) -> stands n l2 = Some d -> kept n id m d l1 ->
  In (id, m) (inside n (l1 ++ LIn n id m :: l2)) /\ stands n (l1 ++ LIn n id m :: l2) = Some d.
Proof.
  intros n id m d l1 l2. induction l1 as [|a l1 IH]; intros W SN K.
  - cbn. rewrite Nat.eqb_refl. split; [|exact SN]. apply in_or_app. right. now left.
  - destruct W as [F W]. destruct K as (K1 & K2 & K3 & K4). destruct (IH W SN) as [I1 I2].
    { unfold kept. split; [intros X; apply K1; now right|]. split; [intros X; apply K2; now right|]. split; [intros X; apply K3; now right|]. intros X. apply K4. now right. }
    cbn [app]. set (r := l1 ++ LIn n id m :: l2) in *. destruct a as [n' d'|n' id' m'|n' id'|n'|n'|c|]; cbn in F |- *.
    + destruct (Nat.eqb n' n) eqn:E; [|now split]. eqs. congruence.
    + destruct (Nat.eqb n' n); (split; [|exact I2]); [apply in_or_app; now left|exact I1].
    + destruct (Nat.eqb n' n) eqn:E; [|now split]. eqs. split; [|exact I2]. apply filter_In. split; [exact I1|]. cbn. apply negb_true_iff, Nat.eqb_neq. intros ->. apply K1. now left.
    + destruct (Nat.eqb n' n) eqn:E; [|now split]. eqs. destruct K2. now left.
    + destruct (Nat.eqb n' n) eqn:E; [|now split]. eqs. destruct K3. now left.
    + now split.
    + destruct (K4 (or_introl eq_refl)) as [-> ->]. rewrite I2. split; [|reflexivity]. apply filter_In. now split.
Qed.
Lemma in_queue_inside : forall s n id, dinv s -> (in_queue s n id <-> exists m, In (id, m) (inside n (d_log s))).
Proof.
  intros s n id D. pose proof (di_queue _ D n) as Q. split.
  - intros (q & I & <- & M). rewrite (find_q_in _ _ (di_names _ D) I) in Q. destruct Q as (d & Q1 & Q2 & Q3). rewrite Q3, fst_flagged in M.
    apply in_map_iff in M. destruct M as ([i m] & <- & M). now exists m.
  - intros (m & M). destruct (find_q n (d_qs s)) as [q|] eqn:F.
    + destruct Q as (d & Q1 & Q2 & Q3). apply find_q_some in F. destruct F as [F1 F2]. exists q. split; [exact F1|]. split; [exact F2|]. rewrite Q3, fst_flagged. apply (in_map fst _ _ M).
    + apply inside_in in M; [|apply D]. destruct M as (l1 & l2 & d & _ & _ & E & _). congruence.
Qed.
