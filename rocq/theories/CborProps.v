(** C46: CBOR does not round-trip every value; it does for types without a null inside an option. *)
From Coq Require Import List NArith ZArith Lia Bool Ascii String.
From Verif Require Import Utf8 Schema PostcardModel PostcardProps CborModel.
Import ListNotations.
Open Scope string_scope.
Open Scope list_scope.
Open Scope N_scope.
Notation length := List.length.

(** * Spec: the types for which it works *)
(** Types with a value that is written as null. *)
Definition has_null (t : ty) : bool := match t with TUnit | TOpt _ => true | _ => false end.

Definition name_ok (n : list N) : Prop := forallb is_scalar n = true /\ N.of_nat (length (utf8_enc n)) <= 4096.
Fixpoint vnames (vs : vars) : list (list N) :=
  match vs with VNil => [] | VUnit n r => n :: vnames r | VPay n _ r => n :: vnames r end.

(** No option of a type that has a null; f64 is the only float; field and variant names are at most 4096 bytes long, variant names
    are distinct (Rust requires that). *)
Fixpoint csafe_ (f32 : bool) (t : ty) : Prop :=
  match t with
  | TFloat W64 => True
  | TFloat W32 => f32 = true
  | TFloat _ => False
  | TOpt t => has_null t = false /\ csafe_ f32 t
  | TSeq t => csafe_ f32 t
  | TMap k v => csafe_ f32 k /\ csafe_ f32 v
  | TTup ts => csafes_ f32 false ts /\ ntys ts < 2 ^ 64
  | TStruct ts => csafes_ f32 true ts /\ ntys ts < 2 ^ 64
  | TEnum vs => NoDup (vnames vs) /\ csafev_ f32 vs
  | _ => True
  end
with csafes_ (f32 : bool) (named : bool) (ts : tys) : Prop :=
  match ts with FNil => True | FCons n t r => (named = true -> name_ok n) /\ csafe_ f32 t /\ csafes_ f32 named r end
with csafev_ (f32 : bool) (vs : vars) : Prop :=
  match vs with VNil => True | VUnit n r => name_ok n /\ csafev_ f32 r | VPay n t r => name_ok n /\ csafe_ f32 t /\ csafev_ f32 r end.
(** Without f32. *)
Definition csafe : ty -> Prop := csafe_ false.

(** Every f32 in a value satisfies [good]. *)
Fixpoint f32s (good : N -> Prop) (t : ty) : den t -> Prop :=
  match t with
  | TFloat W32 => good
  | TOpt t => fun o => match o with Some v => f32s good t v | None => True end
  | TSeq t => Forall (f32s good t)
  | TMap k v => Forall (fun p => f32s good k (fst p) /\ f32s good v (snd p))
  | TTup ts | TStruct ts => f32ss good ts
  | TEnum vs => f32sv good vs
  | _ => fun _ => True
  end
with f32ss (good : N -> Prop) (ts : tys) : dens ts -> Prop :=
  match ts with FNil => fun _ => True | FCons _ t r => fun p => f32s good t (fst p) /\ f32ss good r (snd p) end
with f32sv (good : N -> Prop) (vs : vars) : denv vs -> Prop :=
  match vs with
  | VNil => fun _ => True
  | VUnit _ r => fun x => match x with inl _ => True | inr y => f32sv good r y end
  | VPay _ t r => fun x => match x with inl v => f32s good t v | inr y => f32sv good r y end
  end.
Lemma without_f32 : forall good,
  (forall t, csafe_ false t -> csafe_ true t /\ forall v, f32s good t v) /\
  (forall ts named, csafes_ false named ts -> csafes_ true named ts /\ forall v, f32ss good ts v) /\
  (forall vs, csafev_ false vs -> csafev_ true vs /\ forall v, f32sv good vs v).
Proof.
  intros good. apply schema_ind; cbn [csafe_ csafes_ csafev_ f32s f32ss f32sv]; auto.
  - intros w S. destruct w; try discriminate S; try contradiction; auto.
  - intros t IH [NU S]. destruct (IH S). split; [auto|]. intros [v|]; auto.
  - intros t IH S. destruct (IH S). split; [auto|]. intros l. apply Forall_forall. auto.
  - intros k IHk v IHv [S1 S2]. destruct (IHk S1), (IHv S2). split; [auto|]. intros l. apply Forall_forall. auto.
  - intros ts IH [S L]. destruct (IH _ S). auto.
  - intros ts IH [S L]. destruct (IH _ S). auto.
  - intros vs IH [ND S]. destruct (IH S). auto.
  - intros nm t IHt ts IHs named (NO & S1 & S2). destruct (IHt S1), (IHs _ S2). auto.
  - intros nm vs IH [NO S]. destruct (IH S). split; [auto|]. intros [u|v]; auto.
  - intros nm t IHt vs IH (NO & S1 & S2). destruct (IHt S1), (IH S2). split; [auto|]. intros [u|v]; auto.
Qed.

(** How deeply arrays, maps and enums are nested. *)
Fixpoint depth (t : ty) : nat :=
  match t with
  | TOpt t => depth t
  | TSeq t => S (depth t)
  | TMap k v => S (Nat.max (depth k) (depth v))
  | TTup ts | TStruct ts => S (depths ts)
  | TEnum vs => S (depthv vs)
  | _ => O
  end
with depths (ts : tys) : nat := match ts with FNil => O | FCons _ t r => Nat.max (depth t) (depths r) end
with depthv (vs : vars) : nat := match vs with VNil => O | VUnit _ r => depthv r | VPay _ t r => Nat.max (depth t) (depthv r) end.

(** * Heads *)
Definition minor (n : N) : N := if n <? 24 then n else if n <? 2 ^ 8 then 24 else if n <? 2 ^ 16 then 25 else if n <? 2 ^ 32 then 26 else 27.

Lemma be_length : forall k n, length (be_enc k n) = k.
Proof. intros. unfold be_enc. now rewrite rev_length, le_length. Qed.
Lemma be_round : forall k n, n < 256 ^ N.of_nat k -> be_dec (be_enc k n) = n.
Proof. intros. unfold be_dec, be_enc. rewrite rev_involutive. now apply le_round. Qed.

Lemma head_byte : forall mj m k n r, mj < 8 -> 24 <= m < 28 -> N.of_nat k = 2 ^ (m - 24) -> n < 256 ^ N.of_nat k ->
  dec_head ((mj * 32 + m :: be_enc k n) ++ r) = Some (mj, m, n, r).
Proof.
  intros mj m k n r M B K NB. unfold dec_head. cbn [app].
  replace ((mj * 32 + m) mod 32) with m by lia. replace ((mj * 32 + m) / 32) with mj by lia.
  rewrite (proj2 (N.ltb_ge m 24)) by lia. rewrite (proj2 (N.ltb_lt m 28)) by lia.
  rewrite <- K, take_eq by (now rewrite be_length). now rewrite be_round.
Qed.

Lemma dec_head_head : forall mj n r, mj < 8 -> n < 2 ^ 64 -> dec_head (head mj n ++ r) = Some (mj, minor n, n, r).
Proof.
  intros mj n r M NB. unfold head, minor.
  destruct (N.ltb_spec n 24); [|destruct (N.ltb_spec n (2 ^ 8)); [|destruct (N.ltb_spec n (2 ^ 16)); [|destruct (N.ltb_spec n (2 ^ 32))]]];
    try (apply head_byte; [exact M|lia|reflexivity|assumption]).
  unfold dec_head. cbn [app]. replace ((mj * 32 + n) mod 32) with n by lia. replace ((mj * 32 + n) / 32) with mj by lia.
  rewrite (proj2 (N.ltb_lt n 24)) by lia. reflexivity.
Qed.

Lemma expect_head : forall mj n r, mj < 8 -> n < 2 ^ 64 -> expect mj (head mj n ++ r) = Some (n, r).
Proof. intros mj n r M NB. unfold expect. rewrite dec_head_head by assumption. now rewrite N.eqb_refl. Qed.
Lemma expect_other : forall mj mj' n r, mj < 8 -> mj <> mj' -> n < 2 ^ 64 -> expect mj' (head mj n ++ r) = None.
Proof. intros mj mj' n r M D NB. unfold expect. rewrite dec_head_head by assumption. now rewrite (proj2 (N.eqb_neq mj mj')). Qed.

(** * Integers *)
Lemma le_dec_app : forall a b, le_dec (a ++ b) = le_dec a + 256 ^ N.of_nat (length a) * le_dec b.
Proof.
  induction a as [|x a IH]; intros b; cbn [app le_dec length]; [rewrite N.pow_0_r; lia|].
  rewrite IH, Nat2N.inj_succ, N.pow_succ_r'. lia.
Qed.
Lemma strip0_dec : forall l, be_dec (strip0 l) = be_dec l.
Proof.
  induction l as [|x l IH]; [reflexivity|]. cbn [strip0]. destruct (N.eqb_spec x 0) as [->|]; [|reflexivity].
  rewrite IH. unfold be_dec. cbn [rev]. rewrite le_dec_app. cbn. lia.
Qed.
Lemma strip0_length : forall l, (length (strip0 l) <= length l)%nat.
Proof. induction l as [|x l IH]; cbn; [lia|]. destruct (x =? 0); cbn; lia. Qed.
Lemma strip0_twice : forall l, strip0 (strip0 l) = strip0 l.
Proof. induction l as [|x l IH]; [reflexivity|]. cbn. destruct (x =? 0) eqn:E; [exact IH|]. cbn. now rewrite E. Qed.

Lemma integer_round : forall neg raw r, raw < 2 ^ 128 -> dec_integer (enc_integer neg raw ++ r) = Some (neg, raw, r).
Proof.
  intros neg raw r B. unfold enc_integer, dec_integer. destruct (N.ltb_spec raw (2 ^ 64)).
  - rewrite dec_head_head by (destruct neg; auto; lia). destruct neg; reflexivity.
  - set (b := strip0 (be_enc 16 raw)).
    assert (LB : (length b <= 16)%nat) by (unfold b; etransitivity; [apply strip0_length|]; now rewrite be_length).
    assert (DB : be_dec (strip0 b) = raw) by (unfold b; rewrite strip0_twice, strip0_dec; apply be_round; exact B).
    assert (SB : strip0 b = b) by apply strip0_twice.
    assert (HD : dec_head (((if neg then 0xC3 else 0xC2) :: head 2 (N.of_nat (length b)) ++ b) ++ r) =
                 Some (6, (if neg then 3 else 2), (if neg then 3 else 2), (head 2 (N.of_nat (length b)) ++ b) ++ r)) by (destruct neg; reflexivity).
    rewrite HD. change (6 =? 0) with false. change (6 =? 1) with false. cbv iota.
    assert (C : ((6 =? 6) && (((if neg then 3 else 2) =? 2) || ((if neg then 3 else 2) =? 3)))%bool = true) by (destruct neg; reflexivity).
    rewrite C. rewrite <- app_assoc, expect_head by lia. rewrite take_app. rewrite DB, SB.
    rewrite (proj2 (N.ltb_ge 16 (N.of_nat (length b)))) by lia. destruct neg; reflexivity.
Qed.

Lemma bits_128 : forall w, 2 ^ bits w <= 2 ^ 128.
Proof. destruct w; cbn; lia. Qed.

Lemma cuint_round : forall w n r, n < 2 ^ bits w -> cdec_uint w (cenc_uint n ++ r) = Some (n, r).
Proof.
  intros w n r H. unfold cdec_uint, cenc_uint. pose proof (bits_128 w). rewrite integer_round by lia.
  now rewrite (proj2 (N.ltb_lt n (2 ^ bits w))).
Qed.
Lemma cint_round : forall w z r, (- 2 ^ (Z.of_N (bits w) - 1) <= z < 2 ^ (Z.of_N (bits w) - 1))%Z -> cdec_int w (cenc_int z ++ r) = Some (z, r).
Proof.
  intros w z r H. unfold cdec_int, cenc_int.
  assert (E : (2 ^ (Z.of_N (bits w) - 1))%Z = Z.of_N (2 ^ (bits w - 1))) by (destruct w; reflexivity). rewrite E in H.
  assert (B : 2 ^ (bits w - 1) <= 2 ^ 128) by (destruct w; cbn; lia).
  destruct (Z.ltb_spec z 0).
  - rewrite integer_round by lia. rewrite (proj2 (N.ltb_lt _ _)) by lia. f_equal. f_equal. lia.
  - rewrite integer_round by lia. rewrite (proj2 (N.ltb_lt _ _)) by lia. f_equal. f_equal. lia.
Qed.

(** * Text *)
Lemma text_round : forall s r, forallb is_scalar s = true -> N.of_nat (length (utf8_enc s)) < 2 ^ 64 -> dec_text (enc_text s ++ r) = Some (s, r).
Proof.
  intros s r H L. unfold dec_text, enc_text. rewrite <- app_assoc, expect_head by (auto; lia). rewrite take_app. now rewrite utf8_round.
Qed.
Lemma name_round : forall s r, name_ok s -> dec_name (enc_text s ++ r) = Some (s, r).
Proof.
  intros s r [H L]. unfold dec_name. rewrite text_round by (auto; lia).
  unfold enc_text. rewrite <- app_assoc, expect_head by lia. now rewrite (proj2 (N.ltb_ge _ _)).
Qed.

Lemma str_eqb_refl : forall s, str_eqb s s = true.
Proof. intros s. unfold str_eqb. destruct (list_eq_dec N.eq_dec s s); congruence. Qed.
Lemma str_eqb_neq : forall s t, s <> t -> str_eqb s t = false.
Proof. intros s t D. unfold str_eqb. destruct (list_eq_dec N.eq_dec s t); congruence. Qed.

(** * Round trip *)
Section Round.
Variables widen16 widen32 narrow16 narrow32 : N -> N.
Notation cenc := (cenc widen16 widen32 narrow16 narrow32).
Notation cencs := (cencs widen16 widen32 narrow16 narrow32).
Notation cencv := (cencv widen16 widen32 narrow16 narrow32).
Notation cdec := (cdec widen16 widen32 narrow32).
Notation cdecs := (cdecs widen16 widen32 narrow32).
Notation cdecv := (cdecv widen16 widen32 narrow32).

Lemma f64_head : forall x r, x < 2 ^ 64 -> exists mn n, dec_head (enc_f64 widen16 widen32 narrow16 narrow32 x ++ r) = Some (7, mn, n, r) /\
  25 <= mn /\ (mn = 25 /\ widen16 n = x \/ mn = 26 /\ widen32 n = x \/ mn = 27 /\ n = x).
Proof.
  intros x r B. unfold enc_f64.
  assert (M16 : narrow16 x mod 2 ^ 16 < 2 ^ 16) by (apply N.mod_lt; lia).
  assert (M32 : narrow32 x mod 2 ^ 32 < 2 ^ 32) by (apply N.mod_lt; lia).
  destruct (N.eqb_spec (widen16 (narrow16 x mod 2 ^ 16)) x); [|destruct (N.eqb_spec (widen32 (narrow32 x mod 2 ^ 32)) x)].
  - exists 25, (narrow16 x mod 2 ^ 16). split; [apply (head_byte 7 25 2); [lia|lia|reflexivity|exact M16]|]. split; [lia|auto].
  - exists 26, (narrow32 x mod 2 ^ 32). split; [apply (head_byte 7 26 4); [lia|lia|reflexivity|exact M32]|]. split; [lia|auto].
  - exists 27, x. split; [apply (head_byte 7 27 8); [lia|lia|reflexivity|exact B]|]. split; [lia|auto].
Qed.

(** What a value of a type without null starts with is not a null. *)
(** An f32 survives if converting it to f64 and back gives the same bits. *)
Definition good32 (v : N) : Prop := narrow32 (widen32 v) = v /\ widen32 v < 2 ^ 64.

Lemma not_null : forall t v r, csafe_ true t -> has_null t = false -> ok t v -> f32s good32 t v ->
  match dec_simple (cenc t v ++ r) with Some (n, _) => is_null n = false | None => True end.
Proof.
  assert (HD : forall mj n r, mj < 7 -> n < 2 ^ 64 -> match dec_simple (head mj n ++ r) with Some (n, _) => is_null n = false | None => True end).
  { intros mj n r M B. unfold dec_simple. rewrite dec_head_head by lia. rewrite (proj2 (N.eqb_neq mj 7)) by lia. exact I. }
  assert (INT : forall neg raw r, match dec_simple (enc_integer neg raw ++ r) with Some (n, _) => is_null n = false | None => True end).
  { intros neg raw r. unfold enc_integer. destruct (N.ltb_spec raw (2 ^ 64)); [apply HD; destruct neg; auto; lia|].
    destruct neg; exact I. }
  assert (TXT : forall s r, N.of_nat (length (utf8_enc s)) < 2 ^ 64 ->
                  match dec_simple (enc_text s ++ r) with Some (n, _) => is_null n = false | None => True end).
  { intros s r L. unfold enc_text. rewrite <- app_assoc. apply HD; lia. }
  intros t v r S NU O G. destruct t; try discriminate.
  - destruct v; reflexivity.
  - apply INT.
  - cbn [CborModel.cenc]. unfold cenc_int. destruct (v <? 0)%Z; apply INT.
  - assert (F : forall x, x < 2 ^ 64 -> match dec_simple (enc_f64 widen16 widen32 narrow16 narrow32 x ++ r) with Some (n, _) => is_null n = false | None => True end).
    { intros x B. destruct (f64_head x r B) as (mn & n & E & M & _). unfold dec_simple. rewrite E. rewrite (proj2 (N.ltb_ge mn 25)) by lia. rewrite andb_false_r. exact I. }
    destruct w; try destruct S; cbn [CborModel.cenc]; apply F; [apply (proj2 G)|exact O].
  - apply TXT. cbn. rewrite app_nil_r. pose proof (enc_char_length v). lia.
  - apply TXT. apply O.
  - cbn [CborModel.cenc]. rewrite <- app_assoc. apply HD; [lia|]. apply O.
  - cbn [CborModel.cenc]. rewrite <- app_assoc. apply HD; [lia|]. apply O.
  - cbn [CborModel.cenc]. rewrite <- app_assoc. apply HD; [lia|]. apply O.
  - cbn [CborModel.cenc]. rewrite <- app_assoc. apply HD; [lia|]. apply S.
  - cbn [CborModel.cenc]. rewrite <- app_assoc. apply HD; [lia|]. apply S.
  - cbn [csafe_] in S. destruct S as [_ S]. clear NU O G. change (den (TEnum vs)) with (denv vs) in v.
    change (cenc (TEnum vs) v) with (cencv vs v). induction vs as [|n vs IH|n t vs IH]; [destruct v| |].
    + destruct S as [SN S]. destruct v as [u|v]; [|apply (IH v S)]. apply TXT. destruct SN. lia.
    + destruct S as [SN [St S]]. destruct v as [u|v]; [|apply (IH v S)]. exact I.
Qed.

Lemma cround_all :
  (forall t, csafe_ true t -> forall v r d, ok t v -> f32s good32 t v -> (depth t <= d)%nat -> cdec t d (cenc t v ++ r) = Some (v, r)) /\
  (forall ts, forall named, csafes_ true named ts -> forall v r d, oks ts v -> f32ss good32 ts v -> (depths ts <= d)%nat ->
     cdecs named ts d (cencs named ts v ++ r) = Some (v, r)) /\
  (forall vs, csafev_ true vs -> NoDup (vnames vs) -> forall v r d, okv vs v -> f32sv good32 vs v -> (depthv vs <= d)%nat ->
     exists n pay b, cencv vs v = (if pay : bool then head 5 1 else []) ++ enc_text n ++ b /\ In n (vnames vs) /\ name_ok n /\
       cdecv vs d n (b ++ r) = Some (v, r)).
Proof.
  apply schema_ind; cbn [csafe_ csafes_ csafev_ depth depths depthv f32s f32ss f32sv].
  - intros _ [] r d _ _ _; reflexivity.
  - intros w _ v r d H _ _. now apply cuint_round.
  - intros w _ v r d H _ _. now apply cint_round.
  - assert (F : forall x r, x < 2 ^ 64 -> dec_f64 widen16 widen32 (enc_f64 widen16 widen32 narrow16 narrow32 x ++ r) = Some (x, r)).
    { intros x r B. unfold dec_f64. destruct (f64_head x r B) as (mn & n & E & _ & [[-> W]|[[-> W]|[-> W]]]); rewrite E; cbn; now rewrite W. }
    intros w S v r d H G _. destruct w; try destruct S; cbn [CborModel.cdec CborModel.cenc]; [destruct G as [G1 G2]; rewrite F by exact G2; now rewrite G1|apply F; exact H].
  - intros _ c r d H _ _. cbn [CborModel.cdec CborModel.cenc]. pose proof (enc_char_length c).
    assert (L : length (utf8_enc [c]) = length (enc_char c)) by (cbn; now rewrite app_nil_r).
    assert (F : forallb is_scalar [c] = true) by (cbn; cbn in H; now rewrite H).
    rewrite text_round by (auto; rewrite L; lia). unfold enc_text. rewrite <- app_assoc, expect_head by (rewrite ?L; lia).
    rewrite (proj2 (N.ltb_ge 4 _)) by (rewrite L; lia). reflexivity.
  - intros _ s r d [H1 H2] _ _. cbn [CborModel.cdec CborModel.cenc]. now apply text_round.
  - intros _ b r d [_ H2] _ _. cbn [CborModel.cdec CborModel.cenc]. rewrite <- app_assoc, expect_head by (auto; lia). apply take_app.
  - intros _ [] r d _ _ _. reflexivity.
  - intros t IH [NU S] [v|] r d H G D; cbn [CborModel.cdec CborModel.cenc]; [|reflexivity].
    pose proof (not_null t v r S NU H G) as NN. destruct (dec_simple (cenc t v ++ r)) as [[n r0]|]; [rewrite NN|]; now rewrite IH.
  - intros t IH S l r d [H1 H2] G D. destruct d as [|d]; [lia|]. cbn [CborModel.cdec CborModel.cenc]. rewrite <- app_assoc, expect_head by (auto; lia).
    rewrite Nat2N.id. apply rep_round. clear H2. revert G. induction H1; intros G; inversion G; subst; constructor; auto. intros r0. apply IH; auto; lia.
  - intros k IHk v IHv [W1 W2] l r d [H1 H2] G D. destruct d as [|d]; [lia|]. cbn [CborModel.cdec CborModel.cenc]. rewrite <- app_assoc, expect_head by (auto; lia).
    rewrite Nat2N.id. apply (rep_round _ (fun p => cenc k (fst p) ++ cenc v (snd p))). clear H2. revert G.
    induction H1 as [|[x y] l [X Y] _ IH]; intros G; inversion G as [|? ? [G1 G2] G3]; subst; constructor; auto.
    intros r0. cbn [fst snd] in *. rewrite <- app_assoc, IHk by (auto; lia). now rewrite IHv by (auto; lia).
  - intros ts IH [S L] v r d H G D. destruct d as [|d]; [lia|]. cbn [CborModel.cdec CborModel.cenc]. rewrite <- app_assoc, expect_head by (auto; lia).
    rewrite N.eqb_refl. apply IH; auto; lia.
  - intros ts IH [S L] v r d H G D. destruct d as [|d]; [lia|]. cbn [CborModel.cdec CborModel.cenc]. rewrite <- app_assoc, expect_head by (auto; lia).
    rewrite N.eqb_refl. apply IH; auto; lia.
  - intros vs IH [ND S] v r d H G D. destruct d as [|d]; [lia|]. change (cenc (TEnum vs) v) with (cencv vs v). cbn [CborModel.cdec].
    destruct (IH S ND v r d H G ltac:(lia)) as (n & pay & b & E & _ & NO & DV). rewrite E. destruct pay.
    + rewrite <- app_assoc, expect_head by lia. rewrite <- app_assoc, name_round by exact NO. exact DV.
    + cbn [app]. assert (L : N.of_nat (length (utf8_enc n)) < 2 ^ 64) by (destruct NO; lia).
      assert (X5 : expect 5 ((enc_text n ++ b) ++ r) = None) by (unfold enc_text; rewrite <- !app_assoc; apply expect_other; lia).
      assert (X3 : exists y, expect 3 ((enc_text n ++ b) ++ r) = Some y) by (unfold enc_text; rewrite <- !app_assoc, expect_head by lia; eauto).
      destruct X3 as [y X3]. rewrite X5, X3. rewrite <- app_assoc, name_round by exact NO. exact DV.
  - intros named _ [] r d _ _ _. reflexivity.
  - intros nm t IHt ts IHs named (NO & W1 & W2) [v vs] r d [H1 H2] [G1 G2] D. cbn [CborModel.cdecs CborModel.cencs fst snd] in *.
    destruct named.
    + rewrite <- !app_assoc, name_round by auto. rewrite str_eqb_refl. rewrite IHt by (auto; lia). now rewrite IHs by (auto; lia).
    + cbn [app]. rewrite <- app_assoc. rewrite IHt by (auto; lia). now rewrite IHs by (auto; lia).
  - intros _ _ [].
  - intros nm vs IH [NO S] ND [[]|v] r d H G D; cbn [vnames] in *; inversion ND as [|x y NI ND' EQ]; subst.
    + exists nm, false, []. cbn. rewrite str_eqb_refl, app_nil_r. auto.
    + destruct (IH S ND' v r d H G D) as (n & pay & b & E & IN & NO' & DV). exists n, pay, b. cbn [CborModel.cencv CborModel.cdecv].
      split; [exact E|]. split; [now right|]. split; [exact NO'|]. rewrite str_eqb_neq by (intros ->; contradiction). now rewrite DV.
  - intros nm t IHt vs IH (NO & St & S) ND [x|v] r d H G D; cbn [vnames] in *; inversion ND as [|x' y NI ND' EQ]; subst.
    + exists nm, true, (cenc t x). cbn [CborModel.cencv CborModel.cdecv]. rewrite str_eqb_refl, IHt by (auto; lia). repeat split; auto; try apply NO. now left.
    + destruct (IH S ND' v r d H G ltac:(lia)) as (n & pay & b & E & IN & NO' & DV). exists n, pay, b. cbn [CborModel.cencv CborModel.cdecv].
      split; [exact E|]. split; [now right|]. split; [exact NO'|]. rewrite str_eqb_neq by (intros ->; contradiction). now rewrite DV.
Qed.

(** ** C46 *)
(** What holds: types without an option of something nullable and at most 256 levels deep. Missing: the other types, for which
    the property is false, see below. For f32 the conversions matter, see CborFloat. *)
Lemma round_trip : forall t v, csafe_ true t -> (depth t <= 256)%nat -> ok t v -> f32s good32 t v ->
  cbor_from_bytes widen16 widen32 narrow32 t (cbor_to_bytes widen16 widen32 narrow16 narrow32 t v) = Some v.
Proof.
  intros t v S D O G. unfold cbor_from_bytes, cbor_to_bytes. rewrite <- (app_nil_r (cenc t v)).
  now rewrite (proj1 cround_all t S v [] 256%nat O G D).
Qed.
Theorem C46_round_trip_partial : forall t v, csafe t -> (depth t <= 256)%nat -> ok t v ->
  cbor_from_bytes widen16 widen32 narrow32 t (cbor_to_bytes widen16 widen32 narrow16 narrow32 t v) = Some v.
Proof.
  intros t v S D O. destruct (proj1 (without_f32 good32) t S) as [S' G]. apply round_trip; auto.
Qed.

(** [Some(None)] comes back as [None], for every inner type; so does [Some(())]. *)
Theorem C46_nested_option_refuted : forall t,
  cbor_from_bytes widen16 widen32 narrow32 (TOpt (TOpt t)) (cbor_to_bytes widen16 widen32 narrow16 narrow32 (TOpt (TOpt t)) (Some None)) = Some None.
Proof. reflexivity. Qed.
Theorem C46_option_unit_refuted :
  cbor_from_bytes widen16 widen32 narrow32 (TOpt TUnit) (cbor_to_bytes widen16 widen32 narrow16 narrow32 (TOpt TUnit) (Some tt)) = Some None.
Proof. reflexivity. Qed.
Theorem C46_refuted : exists t v, wf t /\ ok t v /\
  cbor_from_bytes widen16 widen32 narrow32 t (cbor_to_bytes widen16 widen32 narrow16 narrow32 t v) <> Some v.
Proof. exists (TOpt (TOpt TBool)), (Some None). split; [exact I|]. split; [exact I|]. discriminate. Qed.

(** A value nested 257 levels deep is written but cannot be read back. *)
Fixpoint nest (n : nat) : ty := match n with O => TUnit | S m => TTup (FCons [] (nest m) FNil) end.
Fixpoint nest_val (n : nat) : den (nest n) := match n return den (nest n) with O => tt | S m => (nest_val m, tt) end.
Theorem C46_too_deep_refuted :
  ok (nest 257) (nest_val 257) /\ csafe (nest 257) /\
  cbor_from_bytes widen16 widen32 narrow32 (nest 257) (cbor_to_bytes widen16 widen32 narrow16 narrow32 (nest 257) (nest_val 257)) = None.
Proof.
  split; [|split].
  - assert (G : forall n, ok (nest n) (nest_val n)) by (induction n; cbn; auto). apply G.
  - assert (G : forall n, csafe (nest n)).
    { induction n as [|n IH]; [exact I|]. change (csafe_ false (nest (S n))). cbn [nest csafe_ csafes_]. split; [|reflexivity]. split; [discriminate|]. split; [exact IH|exact I]. }
    apply G.
  - vm_compute. reflexivity.
Qed.
End Round.

(** ** Paladin's own message types round-trip in both formats *)
Definition nm (s : string) : list N := map N_of_ascii (list_ascii_of_string s).
(** paladin-core/src/serializer/mod.rs, 58-62 *)
Definition serializer_ty : ty := TEnum (VUnit (nm "Postcard") (VUnit (nm "Cbor") VNil)).
(** paladin-core/src/task/mod.rs, 63-80 *)
Definition any_task_ty : ty :=
  TStruct (FCons (nm "routing_key") TStr (FCons (nm "metadata") TBytes (FCons (nm "op") TBytes
          (FCons (nm "operation_id") (TUint W8) (FCons (nm "input") TBytes (FCons (nm "serializer") serializer_ty FNil)))))).
(** 83-91 and 113-117 *)
Definition any_task_output_ty : ty :=
  TStruct (FCons (nm "metadata") TBytes (FCons (nm "output") TBytes (FCons (nm "serializer") serializer_ty FNil))).
Definition any_task_result_ty : ty := TEnum (VPay (nm "Ok") any_task_output_ty (VPay (nm "Err") TStr VNil)).
(** paladin-core/src/runtime/mod.rs, CommandIpc, 421-424 *)
Definition command_ty : ty := TEnum (VPay (nm "Abort") (TStruct (FCons (nm "routing_key") TStr FNil)) VNil).

Definition message_types : list ty := [any_task_ty; any_task_result_ty; command_ty].

Lemma name_okb : forall n, (forallb is_scalar n && (N.of_nat (length (utf8_enc n)) <=? 4096))%bool = true -> name_ok n.
Proof. intros n H. apply andb_true_iff in H. destruct H as [H1 H2]. split; [exact H1|now apply N.leb_le]. Qed.
Lemma nodupb : forall l : list (list N), (fix go l := match l with [] => true | x :: r => negb (existsb (str_eqb x) r) && go r end)%bool l = true -> NoDup l.
Proof.
  induction l as [|x l IH]; intros H; constructor; apply andb_true_iff in H; destruct H as [H1 H2]; [|auto].
  intros I. apply negb_true_iff in H1. rewrite (proj2 (existsb_exists (str_eqb x) l)) in H1; [discriminate|]. exists x. split; [exact I|apply str_eqb_refl].
Qed.
Ltac csafe_tac :=
  unfold csafe; cbn [csafe_ csafes_ csafev_ vnames ntys has_null];
  repeat match goal with
         | |- _ /\ _ => split
         | |- True => exact I
         | |- _ = true -> _ => intros _
         | |- _ = _ -> _ => discriminate
         | |- name_ok _ => apply name_okb; vm_compute; reflexivity
         | |- NoDup _ => apply nodupb; vm_compute; reflexivity
         | |- _ < _ => vm_compute; reflexivity
         | |- _ = false => reflexivity
         end.
Lemma message_types_safe : forall t, In t message_types -> wf t /\ csafe t /\ (depth t <= 256)%nat.
Proof.
  intros t [<-|[<-|[<-|[]]]]; (split; [cbn; lia|]); split; try (cbn; lia).
  - unfold any_task_ty, serializer_ty. csafe_tac.
  - unfold any_task_result_ty, any_task_output_ty, serializer_ty. csafe_tac.
  - unfold command_ty. csafe_tac.
Qed.

Theorem C46_messages_partial : forall w16 w32 n16 n32 t v, In t message_types -> ok t v ->
  cbor_from_bytes w16 w32 n32 t (cbor_to_bytes w16 w32 n16 n32 t v) = Some v /\
  postcard_from_bytes t (postcard_to_bytes t v) = Some v.
Proof.
  intros w16 w32 n16 n32 t v I O. destruct (message_types_safe t I) as (W & S & D). split; [now apply C46_round_trip_partial|now apply C45_round_trip].
Qed.

(** ** Examples *)
Definition cex_ty : ty := TStruct (FCons [97] (TOpt (TUint W128)) (FCons [98] (TSeq (TInt W16)) (FCons [99] (TEnum (VUnit [85] (VPay [80] TStr VNil))) FNil))).
Definition cex_val : den cex_ty := (Some (2 ^ 64 + 1), ([-3; 300]%Z, (inr (inl [0x20AC]), tt))).
Example C46_ex_safe : csafe cex_ty /\ (depth cex_ty <= 256)%nat /\ ok cex_ty cex_val.
Proof.
  split; [|split].
  - unfold cex_ty. csafe_tac.
  - cbn. lia.
  - cbn. unfold str_ok, len_ok. cbn. repeat split; try lia. repeat constructor; lia.
Qed.
Example C46_ex_bytes : let id := fun n : N => n in cbor_to_bytes id id id id cex_ty cex_val =
  [0xA3; 0x61; 97; 0xC2; 0x49; 1; 0; 0; 0; 0; 0; 0; 0; 1; 0x61; 98; 0x82; 0x22; 0x19; 1; 44; 0x61; 99; 0xA1; 0x61; 80; 0x63; 226; 130; 172].
Proof. vm_compute. reflexivity. Qed.

Print Assumptions C46_round_trip_partial.
Print Assumptions C46_nested_option_refuted.
Print Assumptions C46_refuted.
Print Assumptions C46_too_deep_refuted.
Print Assumptions C46_messages_partial.
