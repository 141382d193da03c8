(** C50 and C52: identifiers. *)
From Coq Require Import List Arith NArith Ascii String Bool Lia.
From Verif Require Import Base BaseFacts KeyModel.
Import ListNotations.
Local Open Scope nat_scope.

(** [0-9A-Za-z] *)
Definition alphanumeric (c : ascii) : Prop :=
  let n := nat_of_ascii c in (48 <= n <= 57) \/ (65 <= n <= 90) \/ (97 <= n <= 122).
Fixpoint all_chars (P : ascii -> Prop) (s : string) : Prop :=
  match s with EmptyString => True | String c r => P c /\ all_chars P r end.

(** Its place in the character set. *)
Definition digit (c : ascii) : N :=
  let n := N_of_ascii c in (if n <? 65 then n - 48 + 52 else if n <? 97 then n - 65 else n - 97 + 26)%N.
Fixpoint number (s : string) : N := match s with EmptyString => 0%N | String c r => (digit c + 62 * number r)%N end.

Lemma accept_digit : forall u c, accept u = Some c -> alphanumeric c /\ digit c = N.shiftr u 26 /\ (digit c < 62)%N.
Proof.
  intros u c H. unfold accept in H. destruct (N.ltb_spec (N.shiftr u 26) 62) as [L|L]; [|discriminate].
  remember (N.shiftr u 26) as v eqn:V. clear V.
  assert (exists k, k < 62 /\ v = N.of_nat k) as (k & K & ->) by (exists (N.to_nat v); lia).
  rewrite Nat2N.id in H.
  do 62 (destruct k as [|k]; [cbn in H; injection H as <-; split; [unfold alphanumeric; cbn; lia|split; [reflexivity|reflexivity]]|]).
  lia.
Qed.

Lemma sample_shape : forall n d k r, sample n d = Some (k, r) -> String.length k = n /\ all_chars alphanumeric k /\ (number k < 62 ^ N.of_nat n)%N.
Proof.
  induction n as [|n IH]; intros d k r H.
  - cbn in H. injection H as <- <-. cbn. repeat split; lia.
  - induction d as [|u d IHd]; [discriminate|]. cbn in H. destruct (accept u) as [c|] eqn:AC.
    + destruct (sample n d) as [[k' r']|] eqn:SA; [|discriminate]. injection H as <- <-.
      destruct (IH d k' r' SA) as (L & AL & NU). destruct (accept_digit u c AC) as (A1 & _ & A2).
      cbn [String.length all_chars number]. split; [now rewrite L|]. split; [auto|].
      replace (N.of_nat (S n)) with (N.succ (N.of_nat n)) by lia. rewrite N.pow_succ_r by lia. nia.
    + exact (IHd H).
Qed.

(** C50: an identifier is five characters from [0-9A-Za-z], so none of the well-known names. *)
Theorem C50_identifier_shape : forall draws k rest, get_random_routing_key draws = Some (k, rest) ->
  String.length k = 5 /\ all_chars alphanumeric k.
Proof. intros d k r H. apply sample_shape in H. unfold key_length in H. tauto. Qed.

Theorem C50_no_collision : forall draws k rest, get_random_routing_key draws = Some (k, rest) ->
  k <> task_bus_key None /\ k <> command_ipc_routing_key /\ k <> command_ipc_abort_all_key.
Proof. intros d k r H. apply C50_identifier_shape in H. destruct H as [L _]. repeat split; intros ->; discriminate L. Qed.

(** Any number of draws that are all rejected first. *)
Example C50_example : get_random_routing_key [4294967295; 0; 1744830464; 3489660928; 67108864; 4160749568; 134217728; 7]%N = Some ("Aa0BC"%string, [7%N]).
Proof. vm_compute. reflexivity. Qed.

(** A task bus key set in the configuration is not protected: nothing checks it. *)
Theorem C50_configured_key_can_be_hit : exists configured draws k rest,
  get_random_routing_key draws = Some (k, rest) /\ k = task_bus_key (Some configured).
Proof. exists "AAAAA"%string, [0; 0; 0; 0; 0]%N, "AAAAA"%string, []. split; reflexivity. Qed.
(** It cannot be hit if it has another length or a character outside the set, e.g. a dash. *)
Theorem C50_configured_key_safe : forall configured draws k rest,
  String.length configured <> 5 \/ ~ all_chars alphanumeric configured ->
  get_random_routing_key draws = Some (k, rest) -> k <> task_bus_key (Some configured).
Proof. intros cf d k r C H ->. apply C50_identifier_shape in H. cbn in H. tauto. Qed.

(** C52: identifiers are documented as unique (channel/queue.rs:208). Nothing makes them so. *)
Theorem C52_unique_refuted : exists draws k rest, issue_many 2 draws = Some ([k; k], rest).
Proof. exists [0; 0; 0; 0; 0; 0; 0; 0; 0; 0]%N, "AAAAA"%string, []. reflexivity. Qed.

(** Two identifiers are equal exactly when the accepted draws have the same top six bits. *)
Fixpoint tops (draws : list N) : list N :=
  match draws with
  | [] => []
  | u :: d => let v := N.shiftr u 26 in if (v <? 62)%N then v :: tops d else tops d
  end.
Lemma digit_inj : forall c1 c2, alphanumeric c1 -> alphanumeric c2 -> digit c1 = digit c2 -> c1 = c2.
Proof.
  intros c1 c2 A1 A2 D. rewrite <- (ascii_N_embedding c1), <- (ascii_N_embedding c2). f_equal.
  unfold alphanumeric, nat_of_ascii in *. unfold digit in D.
  destruct (N.ltb_spec (N_of_ascii c1) 65), (N.ltb_spec (N_of_ascii c2) 65), (N.ltb_spec (N_of_ascii c1) 97), (N.ltb_spec (N_of_ascii c2) 97); lia.
Qed.
Lemma number_inj : forall k1 k2, String.length k1 = String.length k2 -> all_chars alphanumeric k1 -> all_chars alphanumeric k2 ->
  number k1 = number k2 -> k1 = k2.
Proof.
  assert (D62 : forall c, alphanumeric c -> (digit c < 62)%N).
  { intros c A. unfold alphanumeric, nat_of_ascii in A. unfold digit.
    destruct (N.ltb_spec (N_of_ascii c) 65), (N.ltb_spec (N_of_ascii c) 97); lia. }
  induction k1 as [|c1 k1 IH]; intros [|c2 k2] L A1 A2 Q; try discriminate; [reflexivity|].
  cbn [number all_chars String.length] in L, A1, A2, Q. destruct A1 as [A1 R1], A2 as [A2 R2]. pose proof (D62 c1 A1). pose proof (D62 c2 A2).
  f_equal; [apply digit_inj; auto; lia|apply IH; auto; lia].
Qed.
Lemma sample_tops : forall n d k r, sample n d = Some (k, r) -> exists t, tops d = (t ++ tops r)%list /\ List.length t = n /\
  number k = fold_right (fun v a => v + 62 * a)%N 0%N t.
Proof.
  induction n as [|n IH]; intros d k r H.
  - cbn in H. injection H as <- <-. exists []. auto.
  - induction d as [|u d IHd]; [discriminate|]. cbn in H. destruct (accept u) as [c|] eqn:AC.
    + destruct (sample n d) as [[k' r']|] eqn:SA; [|discriminate]. injection H as <- <-.
      destruct (IH d k' r' SA) as (t & T1 & T2 & T3). destruct (accept_digit u c AC) as (_ & A1 & A2).
      exists (digit c :: t). cbn [tops]. rewrite <- A1. destruct (N.ltb_spec (digit c) 62); [|lia].
      rewrite T1. cbn. rewrite T2, T3. auto.
    + destruct (IHd H) as (t & T1 & T2). exists t. split; [|exact T2]. cbn [tops]. rewrite <- T1.
      unfold accept in AC. destruct (N.ltb_spec (N.shiftr u 26) 62) as [L|L]; [|reflexivity].
      exfalso. assert (exists j, j < 62 /\ N.shiftr u 26 = N.of_nat j) as (j & J & Q) by (exists (N.to_nat (N.shiftr u 26)); lia).
      rewrite Q, Nat2N.id in AC. clear - AC J. do 62 (destruct j as [|j]; [discriminate AC|]). lia.
Qed.
Theorem C52_equal_iff_partial : forall d1 k1 r1 d2 k2 r2, get_random_routing_key d1 = Some (k1, r1) -> get_random_routing_key d2 = Some (k2, r2) ->
  (k1 = k2 <-> firstn 5 (tops d1) = firstn 5 (tops d2)).
Proof.
  intros d1 k1 r1 d2 k2 r2 H1 H2. pose proof (sample_shape _ _ _ _ H1) as (L1 & A1 & _). pose proof (sample_shape _ _ _ _ H2) as (L2 & A2 & _).
  destruct (sample_tops _ _ _ _ H1) as (t1 & T1 & N1 & Q1). destruct (sample_tops _ _ _ _ H2) as (t2 & T2 & N2 & Q2).
  unfold key_length in *.
  assert (F1 : firstn 5 (tops d1) = t1) by (rewrite T1, <- N1, firstn_app, firstn_all, Nat.sub_diag; cbn; apply app_nil_r).
  assert (F2 : firstn 5 (tops d2) = t2) by (rewrite T2, <- N2, firstn_app, firstn_all, Nat.sub_diag; cbn; apply app_nil_r).
  rewrite F1, F2. split; intros Q.
  - subst k2. assert (B : forall d, Forall (fun v => v < 62)%N (tops d)).
    { induction d as [|u d IH]; cbn [tops]; [constructor|]. destruct (N.ltb_spec (N.shiftr u 26) 62); [now constructor|exact IH]. }
    pose proof (B d1) as B1. pose proof (B d2) as B2. rewrite T1 in B1. rewrite T2 in B2. apply Forall_app in B1, B2. destruct B1 as [B1 _], B2 as [B2 _].
    rewrite Q1 in Q2. clear - N1 N2 Q2 B1 B2. revert t2 N2 B2 Q2 B1. rewrite <- N1. clear N1. induction t1 as [|v1 t1 IH]; intros [|v2 t2] N2 B2 Q2 B1; try discriminate; [reflexivity|].
    cbn [fold_right List.length] in Q2, N2. inversion B1; inversion B2; subst. f_equal; [lia|]. apply IH; auto; lia.
  - subst t2. apply number_inj; auto; congruence.
Qed.

(** There are 62^5 = 916132832 identifiers, so more than that many issued identifiers cannot all differ. *)
Lemma bounded_nodup : forall (l : list N) m, NoDup l -> (forall x, In x l -> (x < m)%N) -> (N.of_nat (List.length l) <= m)%N.
Proof.
  intros l m ND B. destruct (N.eq_dec m 0) as [->|M].
  - destruct l as [|x l]; [cbn; lia|]. specialize (B x (or_introl eq_refl)). lia.
  - assert (L : List.length l <= List.length (irange 0 (m - 1))).
    { apply NoDup_incl_length; [exact ND|]. intros x I. apply irange_in. specialize (B x I). lia. }
    rewrite irange_length in L. lia.
Qed.
Lemma issue_many_shape : forall n d ks r, issue_many n d = Some (ks, r) -> List.length ks = n /\
  forall k, In k ks -> String.length k = 5 /\ all_chars alphanumeric k /\ (number k < 62 ^ 5)%N.
Proof.
  induction n as [|n IH]; intros d ks r H; cbn [issue_many] in H.
  - injection H as <- <-. split; [reflexivity|]. contradiction.
  - destruct (get_random_routing_key d) as [[k d']|] eqn:G; [|discriminate]. destruct (issue_many n d') as [[ks' r']|] eqn:IM; [|discriminate].
    injection H as <- <-. destruct (IH d' ks' r' IM) as [L S]. split; [cbn; congruence|]. intros q [<-|I]; [|auto].
    apply sample_shape in G. exact G.
Qed.
Theorem C52_pigeonhole : forall n draws ks rest, issue_many n draws = Some (ks, rest) -> (62 ^ 5 < N.of_nat n)%N -> ~ NoDup ks.
Proof.
  intros n d ks r H L ND. destruct (issue_many_shape n d ks r H) as [LE SH].
  assert (ND' : NoDup (map number ks)).
  { clear - ND SH. induction ks as [|k ks IH]; cbn; constructor.
    - intros I. apply in_map_iff in I. destruct I as (k' & Q & I'). inversion ND as [|? ? NI _]; subst. apply NI.
      destruct (SH k (or_introl eq_refl)) as (S1 & S2 & _). destruct (SH k' (or_intror I')) as (S3 & S4 & _).
      rewrite (number_inj k k'); auto; congruence.
    - inversion ND; subst. apply IH; auto. intros q I. apply SH. now right. }
  pose proof (bounded_nodup (map number ks) (62 ^ 5) ND') as Q. rewrite map_length, LE in Q.
  assert (N.of_nat n <= 62 ^ 5)%N; [|lia]. apply Q. intros v I. apply in_map_iff in I. destruct I as (k & <- & I). now apply SH.
Qed.

Example C52_example : issue_many 3 [0; 0; 0; 0; 0; 67108864; 67108864; 67108864; 67108864; 67108864; 0; 0; 0; 0; 0]%N
  = Some (["AAAAA"; "BBBBB"; "AAAAA"]%string, []).
Proof. vm_compute. reflexivity. Qed.

Print Assumptions C50_identifier_shape.
Print Assumptions C50_no_collision.
Print Assumptions C50_configured_key_can_be_hit.
Print Assumptions C50_configured_key_safe.
Print Assumptions C52_unique_refuted.
Print Assumptions C52_equal_iff_partial.
Print Assumptions C52_pigeonhole.
