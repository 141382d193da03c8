(** C82: calls on an in-memory broadcast queue always return, although they hold locks while they wait for others. *)
From Coq Require Import List Arith Bool Lia.
From Verif Require Import Base BaseFacts BroadcastModel BroadcastSpec BroadcastProofs.
Import ListNotations.
Open Scope nat_scope.

(** * Spec *)
(** Steps of calls under way, as opposed to new calls and dropped handles. *)
Definition inner (e : b_event) : bool := match e with EvBPubStep _ | EvBVisit _ _ | EvBDeclStep _ => true | _ => false end.
Definition pub_returned (p : bpub) : Prop := exists id, p = BDone id.
Definition decl_returned (d : bdecl) : Prop := exists n f, d = DDone n f.
Definition all_returned (s : bq) : Prop := Forall pub_returned (b_pubs s) /\ Forall decl_returned (b_decls s).
(** The lock of a shard may prefer writers: a reader then waits for the writers that are already waiting. [courteous s e]: [e] does not
    overtake a declaration that waits for the lock. *)
Definition courteous (shards : nat) (shard : nat -> nat) (s : bq) (e : b_event) : Prop :=
  match e with
  | EvBPubStep i =>
      match nth_error (b_pubs s) i with
      | Some (BScan _ k _) | Some (BIter _ k _) => k < shards -> forall n, In (DStart n) (b_decls s) -> shard n <> k
      | _ => True
      end
  | _ => True
  end.
(** How many steps [p] publications and [d] declarations can take together on a map of [shards] shards. *)
Definition step_bound (shards p d : nat) : nat := p * (2 * shards + 5 + d) + 4 * d.

Section Live.
Variable shards : nat.
Variable shard : nat -> nat.
Hypothesis shard_ok : forall n, shard n < shards.
Notation step := (b_step shards shard).

Ltac bcases H :=
  unfold pub_step_b, decl_step_b, set_bpub, set_bdecl in H; cbv zeta in H;
  repeat match type of H with
         | match ?x with _ => _ end = Some _ => destruct x eqn:?; try discriminate H
         | (if ?x then _ else _) = Some _ => destruct x eqn:?; try discriminate H
         end;
  try discriminate H; try (injection H as <-).

(** * Invariant *)
Definition pub_fine (s : bq) (p : bpub) : Prop :=
  match p with
  | BScan _ k _ => k <= shards
  | BIter _ k vis => k <= shards /\ NoDup vis /\ incl vis (names (b_cons s))
  | _ => True
  end.
Lemma pub_fine_step : forall s e s' p, step s e = Some s' -> pub_fine s p -> pub_fine s' p.
Proof.
  intros s e s' p H F. destruct p; auto. destruct F as (K & ND & I). split; [exact K|]. split; [exact ND|].
  intros n X. eapply names_step; eauto.
Qed.
Lemma fine_run : forall p tr s, b_run shards shard p tr = Some s -> Forall (pub_fine s) (b_pubs s).
Proof.
  intros p tr s H. eapply (run_from_inv _ _ step (fun s => Forall (pub_fine s) (b_pubs s))); [| |exact H]; [|constructor].
  clear. intros s e s' F H. rewrite Forall_forall in *.
  assert (OLD : forall q, In q (b_pubs s) -> pub_fine s' q) by (intros q I; eapply pub_fine_step; eauto).
  intros q I. pose proof H as H0. destruct e as [| i | i n | n | j | n]; cbn in H.
  - injection H as <-. cbn in I. rewrite in_app_iff in I. destruct I as [I|[<-|[]]]; [now apply OLD|exact Logic.I].
  - destruct (nth_error (b_pubs s) i) as [r|] eqn:P; [|discriminate]. pose proof (F r (nth_error_In _ _ P)) as FR.
    destruct r; bcases H; cbn [b_pubs] in I; apply nth_In_upd in I; (destruct I as [-> | I]; [|now apply OLD]);
      repeat match goal with |- pub_fine _ (if ?b then _ else _) => destruct b end; cbn [pub_fine b_cons]; try exact Logic.I; try lia;
      repeat match goal with H : Nat.ltb _ _ = true |- _ => apply Nat.ltb_lt in H end; cbn [pub_fine] in FR; try lia.
    all: try (split; [lia|split; [constructor|intros ? []]]).
    all: destruct FR as (F1 & F2 & F3); split; [lia|auto].
  - destruct (nth_error (b_pubs s) i) as [[| | |id [|j] vis|]|] eqn:P; try discriminate. pose proof (F _ (nth_error_In _ _ P)) as (F1 & F2 & F3).
    destruct (Nat.eqb (shard n) j && mem n (names (b_cons s)) && negb (mem n vis)) eqn:C; [|discriminate].
    injection H as <-. apply andb_true_iff in C. destruct C as [C C3]. apply andb_true_iff in C. destruct C as [C1 C2].
    apply mem_In in C2. apply negb_true_iff, mem_not in C3.
    cbn [b_pubs] in I. apply nth_In_upd in I. destruct I as [-> | I]; [|now apply OLD]. cbn [pub_fine b_cons]. rewrite deliver_to_names.
    split; [exact F1|]. split; [now constructor|]. intros m [<-|M]; auto.
  - injection H as <-. now apply OLD.
  - destruct (nth_error (b_decls s) j) as [d|] eqn:D; [|discriminate]. apply OLD. destruct d; bcases H; exact I.
  - bcases H. now apply OLD.
Qed.

Definition decl_name (d : bdecl) : nat := match d with DStart n | DLocked n | DDrain n _ | DIns n _ | DDone n _ => n end.
Lemma names_le : forall p tr s, b_run shards shard p tr = Some s -> length (names (b_cons s)) <= length (b_decls s).
Proof.
  intros p tr s H. pose proof (bi_names _ (binv_run _ _ _ _ _ H)) as ND. rewrite <- (map_length decl_name (b_decls s)).
  apply NoDup_incl_length; [exact ND|]. intros n I. apply in_map_iff. exists (DDone n true). split; [reflexivity|].
  eapply names_from_run; eauto.
Qed.

(** * What is left to do *)
Definition pub_cost (d : nat) (p : bpub) : nat :=
  match p with
  | BStart => 2 * shards + 5 + d
  | BScan _ k _ => (S shards - k) + 2 + S shards + d
  | BHist _ => 2 + S shards + d
  | BIter _ k vis => (S shards - k) + (d - length vis)
  | BDone _ => 0
  end.
Definition decl_cost (x : bdecl) : nat := match x with DStart _ => 4 | DLocked _ => 3 | DDrain _ _ => 2 | DIns _ _ => 1 | DDone _ _ => 0 end.
Definition left (s : bq) : nat :=
  list_sum (map (pub_cost (length (b_decls s))) (b_pubs s)) + list_sum (map decl_cost (b_decls s)) + length (b_hist s).

Lemma sum_upd : forall (A : Type) (f : A -> nat) l i x y, nth_error l i = Some x ->
  list_sum (map f (upd i y l)) + f x = list_sum (map f l) + f y.
Proof.
  unfold list_sum. induction l as [|z l IH]; intros [|i] x y H; cbn [nth_error upd map fold_right] in *; try discriminate; [injection H as ->; lia|].
  specialize (IH i x y H). lia.
Qed.
Lemma sum_more : forall d l, list_sum (map (pub_cost (S d)) l) <= list_sum (map (pub_cost d) l) + length l.
Proof.
  induction l as [|x l IH]; unfold list_sum in *; cbn [map fold_right length]; [lia|].
  assert (pub_cost (S d) x <= pub_cost d x + 1) by (destruct x; cbn [pub_cost]; lia). lia.
Qed.

Lemma left_step : forall s e s', Forall (pub_fine s) (b_pubs s) -> length (names (b_cons s)) <= length (b_decls s) ->
  step s e = Some s' -> inner e = true -> left s' < left s /\ length (b_pubs s') = length (b_pubs s) /\ length (b_decls s') = length (b_decls s).
Proof.
  intros s e s' F L H IN. rewrite Forall_forall in F. destruct e as [| i | i n | n | j | n]; try discriminate; cbn in H.
  - destruct (nth_error (b_pubs s) i) as [r|] eqn:P; [|discriminate]. pose proof (F r (nth_error_In _ _ P)) as FR.
    destruct r; bcases H; unfold left; cbn [b_pubs b_decls b_hist]; rewrite ?upd_length, ?app_length; (split; [|auto]);
      repeat match goal with |- context [upd i (if ?b then _ else _) _] => destruct b end;
      match goal with |- context [upd i ?y _] => pose proof (sum_upd _ (pub_cost (length (b_decls s))) _ _ _ y P) as U end;
      cbn [pub_cost length pub_fine] in *;
      repeat match goal with
             | H : Nat.ltb _ _ = true |- _ => apply Nat.ltb_lt in H
             | H : Nat.ltb _ _ = false |- _ => apply Nat.ltb_ge in H
             end; try lia.
  - destruct (nth_error (b_pubs s) i) as [[| | |id [|j] vis|]|] eqn:P; try discriminate. pose proof (F _ (nth_error_In _ _ P)) as (F1 & F2 & F3).
    destruct (Nat.eqb (shard n) j && mem n (names (b_cons s)) && negb (mem n vis)) eqn:C; [|discriminate].
    injection H as <-. apply andb_true_iff in C. destruct C as [C C3]. apply andb_true_iff in C. destruct C as [C1 C2].
    apply mem_In in C2. apply negb_true_iff, mem_not in C3.
    assert (V : length (n :: vis) <= length (names (b_cons s))).
    { apply NoDup_incl_length; [now constructor|]. intros m [<-|M]; auto. }
    unfold left; cbn [b_pubs b_decls b_hist]; rewrite ?upd_length. split; [|auto].
    pose proof (sum_upd _ (pub_cost (length (b_decls s))) _ _ _ (BIter id (S j) (n :: vis)) P) as U. cbn [pub_cost length] in *. lia.
  - destruct (nth_error (b_decls s) j) as [d|] eqn:D; [|discriminate].
    destruct d; bcases H; unfold left; cbn [b_pubs b_decls b_hist]; rewrite ?upd_length; (split; [|auto]);
      match goal with |- context [upd j ?y _] => pose proof (sum_upd _ decl_cost _ _ _ y D) as U end; cbn [decl_cost] in U;
      repeat match goal with H : b_hist s = _ |- _ => rewrite H end; cbn [length]; try lia.
Qed.

(** ** C82 *)
(** All calls together take a bounded number of steps, in every execution: no call spins or waits in a loop. *)
Lemma total : forall p tr s, b_run shards shard p tr = Some s ->
  length (filter inner tr) + left s <= step_bound shards (length (b_pubs s)) (length (b_decls s)).
Proof.
  intros p tr. induction tr as [|e tr IH] using rev_ind; intros s H.
  - cbn in H. injection H as <-. cbn. lia.
  - unfold b_run in H. apply run_from_app in H. destruct H as (m & H1 & H2). cbn in H2. destruct (step m e) as [s1|] eqn:E; [|discriminate].
    injection H2 as <-. specialize (IH m H1). rewrite filter_app, app_length. cbn [filter].
    destruct (inner e) eqn:IN.
    + destruct (left_step m e s1) as (L1 & L2 & L3); auto; [eapply fine_run; eauto|eapply names_le; eauto|]. cbn [length]. rewrite L2, L3. lia.
    + cbn [length]. destruct e as [| i | i n | n | j | n]; try discriminate; cbn in E.
      * injection E as <-. unfold left, step_bound in *. cbn [b_pubs b_decls b_hist]. rewrite map_app, list_sum_app, app_length. cbn [map list_sum fold_right pub_cost length]. lia.
      * injection E as <-. unfold left, step_bound in *. cbn [b_pubs b_decls b_hist]. rewrite map_app, list_sum_app, app_length. cbn [map list_sum fold_right decl_cost length].
        rewrite Nat.add_1_r. pose proof (sum_more (length (b_decls m)) (b_pubs m)). lia.
      * bcases E. unfold left in *. cbn [b_pubs b_decls b_hist] in *. lia.
Qed.
Theorem C82_bounded : forall persistent tr s, b_run shards shard persistent tr = Some s ->
  length (filter inner tr) <= step_bound shards (length (b_pubs s)) (length (b_decls s)).
Proof using. intros p tr s H. pose proof (total p tr s H). lia. Qed.

(** While a call has not returned, some call can take a step, and one that does not overtake a waiting writer: no deadlock, with locks
    that prefer readers and with locks that prefer writers. *)
Lemma max_iter : forall l : list bpub, (forall p, In p l -> forall id k vis, p = BIter id k vis -> k = 0) \/
  exists i id j vis, nth_error l i = Some (BIter id (S j) vis) /\ forall id' k' vis', In (BIter id' k' vis') l -> k' <= S j.
Proof.
  induction l as [|p l IH]; [left; intros p []|].
  destruct IH as [IH|(i & id & j & vis & N & M)].
  - destruct p as [| | |id [|j] vis|]; try (left; intros q [<-|I] id0 k0 vis0 E; [inversion E; auto|eapply IH; eauto]; fail).
    right. exists 0, id, j, vis. split; [reflexivity|]. intros id' k' vis' [E|I]; [inversion E; lia|]. pose proof (IH _ I _ _ _ eq_refl). lia.
  - destruct p as [| | |id1 k1 vis1|];
      try (right; exists (S i), id, j, vis; split; [exact N|]; intros id' k' vis' [E|I]; [discriminate|eauto]; fail).
    destruct (le_gt_dec k1 (S j)) as [LE|GT].
    + right; exists (S i), id, j, vis; split; [exact N|]; intros id' k' vis' [E|I]; [inversion E; subst; auto|eauto].
    + destruct k1 as [|j1]; [lia|]. right. exists 0, id1, j1, vis1. split; [reflexivity|]. intros id' k' vis' [E|I]; [inversion E; subst; auto|].
      specialize (M _ _ _ I). lia.
Qed.

Lemma unvisited : forall vis l, forallb (fun c => mem (bc_name c) vis) l = false -> exists c, In c l /\ mem (bc_name c) vis = false.
Proof.
  induction l as [|c l IH]; cbn; [discriminate|]. intros H. apply andb_false_iff in H. destruct H as [H|H]; [eauto|]. destruct (IH H) as (x & I & E). eauto.
Qed.

Theorem C82_progress : forall persistent tr s, b_run shards shard persistent tr = Some s -> ~ all_returned s ->
  exists e s', inner e = true /\ courteous shards shard s e /\ step s e = Some s'.
Proof.
  intros p tr s R NR. pose proof (fine_run _ _ _ R) as F. rewrite Forall_forall in F.
  (* a declaration that holds its lock *)
  destruct (existsb (fun d => match locked d with Some _ => true | None => false end) (b_decls s)) eqn:LK.
  { apply existsb_exists in LK. destruct LK as (d & I & E). apply In_nth_error in I. destruct I as (j & I).
    exists (EvBDeclStep j). cbn. rewrite I. destruct d; try discriminate; cbn [decl_step_b]; eauto.
    - destruct (b_persistent s && negb match b_hist s with [] => true | _ :: _ => false end); eauto.
    - destruct (b_hist s); eauto. }
  assert (WL : forall k, write_locked shard s k = false).
  { intros k. unfold write_locked. destruct (existsb (decl_locks shard k) (b_decls s)) eqn:E; [|reflexivity]. exfalso.
    apply existsb_exists in E. destruct E as (d & I & E). assert (X : existsb (fun d => match locked d with Some _ => true | None => false end) (b_decls s) = true).
    { apply existsb_exists. exists d. split; [exact I|]. destruct d; try discriminate; reflexivity. } congruence. }
  (* a publication that needs no lock *)
  destruct (existsb (fun q => match q with BStart | BHist _ => true | _ => false end) (b_pubs s)) eqn:FR.
  { apply existsb_exists in FR. destruct FR as (q & I & E). apply In_nth_error in I. destruct I as (i & I).
    exists (EvBPubStep i). cbn. rewrite I. destruct q; try discriminate; cbn [pub_step_b]; eauto. }
  destruct (max_iter (b_pubs s)) as [NI|(i & id & j & vis & N & M)].
  - (* no read lock is held *)
    assert (RL : forall k, read_locked s k = false).
    { intros k. unfold read_locked. destruct (existsb (pub_reads k) (b_pubs s)) eqn:E; [|reflexivity]. exfalso.
      apply existsb_exists in E. destruct E as (q & I & E). destruct q as [| | |id [|j] vis|]; try discriminate. specialize (NI _ I _ _ _ eq_refl). discriminate. }
    destruct (existsb (fun d => match d with DStart _ => true | _ => false end) (b_decls s)) eqn:DS.
    { apply existsb_exists in DS. destruct DS as (d & I & E). apply In_nth_error in I. destruct I as (j & I).
      exists (EvBDeclStep j). cbn. rewrite I. destruct d; try discriminate. cbn [decl_step_b]. rewrite WL, RL. cbn.
      destruct (mem n (names (b_cons s))); eauto. }
    assert (NS : forall n, ~ In (DStart n) (b_decls s)).
    { intros n I. assert (X : existsb (fun d => match d with DStart _ => true | _ => false end) (b_decls s) = true) by (apply existsb_exists; eauto). congruence. }
    assert (DD : Forall decl_returned (b_decls s)).
    { apply Forall_forall. intros d I. destruct d as [n|n|n g|n g|n f]; [destruct (NS n I)| | | |exists n, f; reflexivity]; exfalso;
        (eassert (X : existsb (fun d => match locked d with Some _ => true | None => false end) (b_decls s) = true) by (apply existsb_exists; eexists; split; [exact I|reflexivity])); congruence. }
    destruct (existsb (fun q => match q with BScan _ _ _ | BIter _ _ _ => true | _ => false end) (b_pubs s)) eqn:SC.
    + apply existsb_exists in SC. destruct SC as (q & I & E). pose proof (F q I) as FQ. pose proof I as I'. apply In_nth_error in I. destruct I as (i & I).
      exists (EvBPubStep i). cbn. rewrite I. destruct q as [|id k acc| |id k vis|]; try discriminate; cbn [pub_step_b].
      * rewrite WL. destruct (Nat.ltb k shards); eexists; (split; [reflexivity|]); (split; [|reflexivity]); intros _ n X; destruct (NS n X).
      * rewrite (NI _ I' _ _ _ eq_refl), WL. destruct (Nat.ltb 0 shards); eexists; (split; [reflexivity|]); (split; [|reflexivity]); intros _ n X; destruct (NS n X).
    + exfalso. apply NR. split; [|exact DD]. apply Forall_forall. intros q I. destruct q; try (now eexists); exfalso.
      * eassert (X : existsb (fun q => match q with BStart | BHist _ => true | _ => false end) (b_pubs s) = true) by (apply existsb_exists; eexists; split; [exact I|reflexivity]). congruence.
      * eassert (X : existsb (fun q => match q with BScan _ _ _ | BIter _ _ _ => true | _ => false end) (b_pubs s) = true) by (apply existsb_exists; eexists; split; [exact I|reflexivity]). congruence.
      * eassert (X : existsb (fun q => match q with BStart | BHist _ => true | _ => false end) (b_pubs s) = true) by (apply existsb_exists; eexists; split; [exact I|reflexivity]). congruence.
      * eassert (X : existsb (fun q => match q with BScan _ _ _ | BIter _ _ _ => true | _ => false end) (b_pubs s) = true) by (apply existsb_exists; eexists; split; [exact I|reflexivity]). congruence.
  - (* the reader that got furthest *)
    destruct (forallb (fun c => mem (bc_name c) vis) (in_shard shard j (b_cons s))) eqn:AV.
    + destruct (Nat.ltb (S j) shards) eqn:LT.
      * destruct (existsb (fun d => match d with DStart n => Nat.eqb (shard n) (S j) | _ => false end) (b_decls s)) eqn:DS.
        -- apply existsb_exists in DS. destruct DS as (d & I & E). apply In_nth_error in I. destruct I as (j' & I).
           exists (EvBDeclStep j'). cbn. rewrite I. destruct d; try discriminate. cbn [decl_step_b]. rewrite WL. apply Nat.eqb_eq in E. rewrite E.
           assert (RL : read_locked s (S j) = false).
           { unfold read_locked. destruct (existsb (pub_reads (S j)) (b_pubs s)) eqn:X; [|reflexivity]. exfalso.
             apply existsb_exists in X. destruct X as (q & IQ & X). destruct q as [| | |id' [|j''] vis'|]; try discriminate. cbn in X. apply Nat.eqb_eq in X. subst j''.
             specialize (M _ _ _ IQ). lia. }
           rewrite RL. cbn. destruct (mem n (names (b_cons s))); eauto.
        -- exists (EvBPubStep i). unfold courteous, b_step, pub_step_b. rewrite N. cbv zeta. rewrite AV, LT, WL. eexists. split; [reflexivity|]. split; [|reflexivity].
           intros _ n I E. assert (X : existsb (fun d => match d with DStart n => Nat.eqb (shard n) (S j) | _ => false end) (b_decls s) = true).
           { apply existsb_exists. exists (DStart n). split; [exact I|]. now apply Nat.eqb_eq. } congruence.
      * exists (EvBPubStep i). unfold courteous, b_step, pub_step_b. rewrite N. cbv zeta. rewrite AV, LT. eexists. split; [reflexivity|]. split; [|reflexivity].
        intros X. apply Nat.ltb_ge in LT. lia.
    + destruct (unvisited _ _ AV) as (c & I & V). unfold in_shard in I. apply filter_In in I. destruct I as [I E].
      exists (EvBVisit i (bc_name c)). cbn. rewrite N, E, V. rewrite (proj2 (mem_In (bc_name c) (names (b_cons s)))) by (now apply in_map). cbn. eauto.
Qed.

(** So every execution in which nobody starts new calls ends, and it ends with all calls returned, whatever is scheduled. *)
Fixpoint polite (s : bq) (tr : list b_event) : Prop :=
  match tr with [] => True | e :: r => courteous shards shard s e /\ match step s e with Some s' => polite s' r | None => False end end.
Theorem C82_finish : forall persistent tr s, b_run shards shard persistent tr = Some s ->
  exists tr' s', forallb inner tr' = true /\ polite s tr' /\ run_from step s tr' = Some s' /\ all_returned s' /\
    length tr' <= step_bound shards (length (b_pubs s)) (length (b_decls s)).
Proof.
  intros p tr s R.
  assert (G : forall n tr s, left s <= n -> b_run shards shard p tr = Some s ->
            exists tr' s', forallb inner tr' = true /\ polite s tr' /\ run_from step s tr' = Some s' /\ all_returned s' /\ length tr' <= left s).
  { clear tr s R. induction n as [|n IH]; intros tr s L R.
    - destruct (Forall_dec pub_returned) with (l := b_pubs s) as [P|P].
      { intros [| | | |id]; try (right; intros [x X]; discriminate). left. now exists id. }
      + destruct (Forall_dec decl_returned) with (l := b_decls s) as [D|D].
        { intros [| | | |n f]; try (right; intros (x & y & X); discriminate). left. now exists n, f. }
        * exists [], s. cbn. repeat split; auto. lia.
        * exfalso. destruct (C82_progress p tr s R) as (e & s' & IN & _ & E); [intros [_ X]; contradiction|].
          destruct (left_step s e s'); auto; [eapply fine_run; eauto|eapply names_le; eauto|lia].
      + exfalso. destruct (C82_progress p tr s R) as (e & s' & IN & _ & E); [intros [X _]; contradiction|].
        destruct (left_step s e s'); auto; [eapply fine_run; eauto|eapply names_le; eauto|lia].
    - assert (DEC : all_returned s \/ ~ all_returned s).
      { destruct (Forall_dec pub_returned) with (l := b_pubs s) as [P|P].
        { intros [| | | |id]; try (right; intros [x X]; discriminate). left. now exists id. }
        - destruct (Forall_dec decl_returned) with (l := b_decls s) as [D|D].
          { intros [| | | |m f]; try (right; intros (x & y & X); discriminate). left. now exists m, f. }
          + now left; split.
          + right. intros [_ X]. contradiction.
        - right. intros [X _]. contradiction. }
      destruct DEC as [A|A]; [exists [], s; cbn; repeat split; try apply A; lia|].
      destruct (C82_progress p tr s R A) as (e & s1 & IN & C & E).
      destruct (left_step s e s1) as (L1 & _); auto; [eapply fine_run; eauto|eapply names_le; eauto|].
      destruct (IH (tr ++ [e]) s1) as (tr' & s' & X1 & X2 & X3 & X4 & X5); [lia| |].
      + unfold b_run. apply run_from_app. exists s. split; [exact R|]. cbn. now rewrite E.
      + exists (e :: tr'), s'. cbn. rewrite IN, E. repeat split; auto; try apply X4. lia. }
  destruct (G (left s) tr s (le_n _) R) as (tr' & s' & X1 & X2 & X3 & X4 & X5). exists tr', s'. repeat split; auto; try apply X4.
  pose proof (total p tr s R). lia.
Qed.
End Live.

(** ** Examples *)
(** Two shards, consumers 0 and 1 in different ones. A publication holds the read lock of shard 0 and waits for shard 1, which
    a declaration of 3 has locked; a declaration of 2 waits for shard 0. *)
Definition par (n : nat) : nat := Nat.modulo n 2.
Definition ex_busy : list b_event :=
  [EvBDeclare 0; EvBDeclStep 0; EvBDeclStep 0; EvBDeclStep 0;
   EvBPublish; EvBPubStep 0; EvBPubStep 0; EvBPubStep 0; EvBPubStep 0; EvBPubStep 0; EvBVisit 0 0;
   EvBDeclare 3; EvBDeclStep 1; EvBDeclare 2].
Example C82_ex_busy : exists s, b_run 2 par true ex_busy = Some s /\ ~ all_returned s /\
  b_pubs s = [BIter 0 1 [0]] /\ b_decls s = [DDone 0 true; DLocked 3; DStart 2] /\
  (* the publication and the declaration of 2 have to wait *)
  b_step 2 par s (EvBPubStep 0) = None /\ b_step 2 par s (EvBDeclStep 2) = None.
Proof.
  eexists. split; [vm_compute; reflexivity|]. split; [|vm_compute; auto]. intros [H _]. inversion H as [|x l [id X] _]. discriminate.
Qed.
(** One way in which they all return. *)
Example C82_ex_return : exists s s', b_run 2 par true ex_busy = Some s /\
  run_from (b_step 2 par) s [EvBDeclStep 1; EvBDeclStep 1; EvBPubStep 0; EvBVisit 0 3; EvBPubStep 0; EvBDeclStep 2; EvBDeclStep 2; EvBDeclStep 2] = Some s' /\
  all_returned s' /\ map (times_enqueued s' 0) [0] = [1] /\ map (times_enqueued s' 3) [0] = [1].
Proof.
  eexists. eexists. split; [vm_compute; reflexivity|]. split; [vm_compute; reflexivity|]. split; [|vm_compute; auto].
  split; repeat constructor; eexists; try eexists; reflexivity.
Qed.
(** The number of steps so far and the bound. *)
Example C82_ex_count : length (filter inner ex_busy) = 10 /\ step_bound 2 1 3 = 24.
Proof. split; reflexivity. Qed.

Print Assumptions C82_bounded.
Print Assumptions C82_progress.
Print Assumptions C82_finish.
