(** C46 for types with f32. *)
From Coq Require Import List NArith ZArith Lia Bool.
From Verif Require Import Base Utf8 Schema CborModel CborProps FloatModel.
Import ListNotations.
Local Open Scope N_scope.

(** *** Fields of a bit pattern *)
Lemma fields : forall b c s e m, e < 2 ^ c -> m < 2 ^ b -> let x := s * 2 ^ (b + c) + (e * 2 ^ b + m) in
  x / 2 ^ (b + c) = s /\ (x / 2 ^ b) mod 2 ^ c = e /\ x mod 2 ^ b = m.
Proof.
  intros b c s e m HE HM x. assert (B : 2 ^ b <> 0) by (apply N.pow_nonzero; lia). assert (C : 2 ^ c <> 0) by (apply N.pow_nonzero; lia).
  assert (X : x = (s * 2 ^ c + e) * 2 ^ b + m) by (unfold x; rewrite N.pow_add_r; lia).
  assert (D : x / 2 ^ b = s * 2 ^ c + e) by (rewrite X, N.div_add_l by exact B; rewrite (N.div_small m) by exact HM; lia).
  split; [|split].
  - rewrite N.pow_add_r, <- N.div_div by assumption. rewrite D, N.div_add_l by exact C. rewrite (N.div_small e) by exact HE. lia.
  - rewrite D, N.add_comm, N.mod_add by exact C. now apply N.mod_small.
  - rewrite X, N.add_comm, N.mod_add by exact B. now apply N.mod_small.
Qed.
Lemma split32 : forall v, exists s e m, e < 2 ^ 8 /\ m < 2 ^ 23 /\ v = s * 2 ^ (23 + 8) + (e * 2 ^ 23 + m).
Proof.
  intros v. exists (v / 2 ^ 31), (v / 2 ^ 23 mod 2 ^ 8), (v mod 2 ^ 23). split; [now apply N.mod_lt|]. split; [now apply N.mod_lt|].
  change (2 ^ 31) with (2 ^ 23 * 2 ^ 8). rewrite <- N.div_div by discriminate. rewrite N.pow_add_r.
  pose proof (N.div_mod v (2 ^ 23) ltac:(discriminate)) as A. pose proof (N.div_mod (v / 2 ^ 23) (2 ^ 8) ltac:(discriminate)) as B. lia.
Qed.
Lemma rne_exact : forall a k, rne (a * 2 ^ k) k = a.
Proof.
  intros a k. assert (K : 2 ^ k <> 0) by (apply N.pow_nonzero; lia). unfold rne. rewrite N.div_mul, N.mod_mul by exact K. rewrite N.mul_0_r.
  destruct (N.ltb_spec (2 ^ k) 0); [lia|]. destruct (N.eqb_spec 0 (2 ^ k)); [congruence|]. reflexivity.
Qed.

(** *** Converting to f64 is exact: the magnitudes are equal, in units of 2^-1074 *)
Definition finite32 (v : N) : Prop := v / 2 ^ 23 mod 2 ^ 8 <> 255.
Definition is_nan32 (v : N) : Prop := v / 2 ^ 23 mod 2 ^ 8 = 255 /\ v mod 2 ^ 23 <> 0.
Definition magnitude64 (x : N) : N :=
  let e := x / 2 ^ 52 mod 2 ^ 11 in let m := x mod 2 ^ 52 in if e =? 0 then m else (2 ^ 52 + m) * 2 ^ (e - 1).
Definition magnitude32 (v : N) : N :=
  let e := v / 2 ^ 23 mod 2 ^ 8 in let m := v mod 2 ^ 23 in (if e =? 0 then m else (2 ^ 23 + m) * 2 ^ (e - 1)) * 2 ^ 925.

(** The three fields of what [widen32] returns. *)
Definition wide_e (e m : N) : N := if e =? 255 then 2047 else if e =? 0 then if m =? 0 then 0 else N.log2 m + 874 else e + 896.
Definition wide_m (e m : N) : N :=
  if e =? 255 then (if m =? 0 then 0 else quiet (2 ^ 22) m) * 2 ^ 29
  else if e =? 0 then if m =? 0 then 0 else (m - 2 ^ N.log2 m) * 2 ^ (52 - N.log2 m) else m * 2 ^ 29.
Lemma log_small : forall m, m < 2 ^ 23 -> m <> 0 -> N.log2 m <= 22.
Proof. intros m M Z. assert (N.log2 m < 23) by (apply N.log2_lt_pow2; lia). lia. Qed.
Lemma quiet_small : forall m, m < 2 ^ 23 -> 2 ^ 22 <= quiet (2 ^ 22) m < 2 ^ 23.
Proof. intros m M. unfold quiet. change (2 ^ 23) with (2 ^ 22 + 2 ^ 22) in *. destruct (N.ltb_spec m (2 ^ 22)); lia. Qed.
Lemma lead : forall m, m <> 0 -> 2 ^ N.log2 m <= m < 2 * 2 ^ N.log2 m.
Proof. intros m Z. destruct (N.log2_spec m ltac:(lia)) as [A B]. rewrite N.pow_succ_r in B by lia. lia. Qed.
Lemma wide_bounds : forall e m, e < 2 ^ 8 -> m < 2 ^ 23 -> wide_e e m < 2 ^ 11 /\ wide_m e m < 2 ^ 52.
Proof.
  intros e m HE HM. change (2 ^ 8) with 256 in HE. unfold wide_e, wide_m. change (2 ^ 11) with 2048. change (2 ^ 52) with (2 ^ 23 * 2 ^ 29).
  assert (P : forall a, a < 2 ^ 23 -> a * 2 ^ 29 < 2 ^ 23 * 2 ^ 29) by (intros a A; apply N.mul_lt_mono_pos_r; [reflexivity|exact A]).
  destruct (N.eqb_spec e 255); [split; [lia|]; destruct (m =? 0); [reflexivity|]; apply P; apply quiet_small; exact HM|].
  destruct (N.eqb_spec e 0); [|split; [lia|auto]]. destruct (N.eqb_spec m 0); [split; [lia|reflexivity]|]. pose proof (log_small m HM n0) as L. split; [lia|].
  destruct (lead m n0) as [A B]. change (2 ^ 23 * 2 ^ 29) with (2 ^ 52). replace 52 with (N.log2 m + (52 - N.log2 m)) at 2 by lia. rewrite N.pow_add_r.
  apply N.mul_lt_mono_pos_r; [apply N.neq_0_lt_0, N.pow_nonzero; lia|lia].
Qed.
Lemma widen_fields : forall s e m, e < 2 ^ 8 -> m < 2 ^ 23 -> widen32 (s * 2 ^ (23 + 8) + (e * 2 ^ 23 + m)) = s * 2 ^ (52 + 11) + (wide_e e m * 2 ^ 52 + wide_m e m).
Proof.
  intros s e m HE HM. destruct (fields 23 8 s e m HE HM) as (F1 & F2 & F3). unfold widen32. change (2 ^ 31) with (2 ^ (23 + 8)). rewrite F1, F2, F3. unfold wide_e, wide_m.
  change (2 ^ (52 + 11)) with (2 ^ 63). destruct (e =? 255); [reflexivity|]. destruct (e =? 0); [destruct (m =? 0)|]; reflexivity.
Qed.
Theorem C46_widening_exact : forall v, finite32 v -> magnitude64 (widen32 v) = magnitude32 v /\ widen32 v / 2 ^ 63 = v / 2 ^ 31.
Proof.
  intros v F. destruct (split32 v) as (s & e & m & HE & HM & ->). destruct (fields 23 8 s e m HE HM) as (F1 & F2 & F3). unfold finite32 in F. rewrite F2 in F.
  rewrite widen_fields by assumption. destruct (wide_bounds e m HE HM) as [BE BM]. destruct (fields 52 11 s _ _ BE BM) as (G1 & G2 & G3).
  change (2 ^ 63) with (2 ^ (52 + 11)). change (2 ^ 31) with (2 ^ (23 + 8)). rewrite F1, G1. split; [|reflexivity].
  unfold magnitude64, magnitude32. rewrite F2, F3, G2, G3. unfold wide_e, wide_m. clear F1 F2 F3 G1 G2 G3 BE BM. destruct (N.eqb_spec e 255); [contradiction|]. destruct (N.eqb_spec e 0).
  - destruct (N.eqb_spec m 0) as [->|Z]; [reflexivity|]. destruct (N.eqb_spec (N.log2 m + 874) 0); [lia|]. pose proof (log_small m HM Z) as L. destruct (lead m Z) as [A B].
    replace (2 ^ 52) with (2 ^ N.log2 m * 2 ^ (52 - N.log2 m)) by (rewrite <- N.pow_add_r; f_equal; lia).
    rewrite <- N.mul_add_distr_r, <- N.mul_assoc, <- N.pow_add_r. f_equal; [lia|f_equal; lia].
  - destruct (N.eqb_spec (e + 896) 0); [lia|]. change (2 ^ 52) with (2 ^ 23 * 2 ^ 29). rewrite <- N.mul_add_distr_r, <- !N.mul_assoc, <- !N.pow_add_r. f_equal. f_equal. lia.
Qed.

(** *** There and back *)
Lemma back : forall s e m, e < 2 ^ 8 -> m < 2 ^ 23 ->
  narrow32 (widen32 (s * 2 ^ (23 + 8) + (e * 2 ^ 23 + m))) = s * 2 ^ (23 + 8) + (e * 2 ^ 23 + (if (e =? 255) && negb (m =? 0) then quiet (2 ^ 22) m else m)).
Proof.
  intros s e m HE HM. rewrite widen_fields by assumption. destruct (wide_bounds e m HE HM) as [BE BM]. destruct (fields 52 11 s _ _ BE BM) as (G1 & G2 & G3).
  unfold narrow32. change (2 ^ 63) with (2 ^ (52 + 11)). rewrite G1, G2, G3. change (2 ^ 31) with (2 ^ (23 + 8)). f_equal. clear G1 G2 G3 BE BM.
  change (2 ^ 8) with 256 in HE. unfold wide_e, wide_m. destruct (N.eqb_spec e 255) as [->|E1].
  - cbn [N.eqb Pos.eqb andb]. destruct (N.eqb_spec m 0) as [->|Z]; [reflexivity|]. cbn [negb]. destruct (quiet_small m HM) as [A B]. rewrite N.div_mul by discriminate.
    destruct (N.eqb_spec (quiet (2 ^ 22) m * 2 ^ 29) 0) as [Q|_].
    { exfalso. apply N.eq_mul_0 in Q. destruct Q as [Q|Q]; [|discriminate Q]. rewrite Q in A. apply A. reflexivity. }
    f_equal. unfold quiet at 1. destruct (N.ltb_spec (quiet (2 ^ 22) m) (2 ^ 22)); [lia|reflexivity].
  - cbn [andb]. destruct (N.eqb_spec e 0) as [->|E0].
    + destruct (N.eqb_spec m 0) as [->|Z]; [reflexivity|]. pose proof (log_small m HM Z) as L. destruct (lead m Z) as [A B].
      destruct (N.eqb_spec (N.log2 m + 874) 2047); [lia|]. destruct (N.eqb_spec (N.log2 m + 874) 0); [lia|]. destruct (N.leb_spec (N.log2 m + 874) 896); [|lia].
      replace (29 + (897 - (N.log2 m + 874))) with (52 - N.log2 m) by lia.
      replace (2 ^ 52) with (2 ^ N.log2 m * 2 ^ (52 - N.log2 m)) by (rewrite <- N.pow_add_r; f_equal; lia).
      rewrite <- N.mul_add_distr_r. replace (2 ^ N.log2 m + (m - 2 ^ N.log2 m)) with m by lia. rewrite rne_exact. reflexivity.
    + destruct (N.eqb_spec (e + 896) 2047); [lia|]. destruct (N.eqb_spec (e + 896) 0); [lia|]. destruct (N.leb_spec (e + 896) 896); [lia|]. destruct (N.leb_spec 1151 (e + 896)); [lia|].
      replace (e + 896 - 896) with e by lia. change (2 ^ 52) with (2 ^ 23 * 2 ^ 29). rewrite N.mul_assoc, <- N.mul_add_distr_r. apply rne_exact.
Qed.
Lemma widen_lt : forall v, v < 2 ^ 32 -> widen32 v < 2 ^ 64.
Proof.
  intros v B. destruct (split32 v) as (s & e & m & HE & HM & ->). rewrite widen_fields by assumption. destruct (wide_bounds e m HE HM) as [BE BM].
  assert (S : s < 2). { apply N.nle_gt. intros S. revert B. apply N.nlt_ge. change (2 ^ 32) with (2 * 2 ^ (23 + 8)). transitivity (s * 2 ^ (23 + 8)); [apply N.mul_le_mono_r; exact S|lia]. }
  change (2 ^ (52 + 11)) with (2 ^ 11 * 2 ^ 52). change (2 ^ 64) with (2 * (2 ^ 11 * 2 ^ 52)).
  assert (wide_e e m * 2 ^ 52 + wide_m e m < 2 ^ 11 * 2 ^ 52). { apply N.lt_le_trans with ((wide_e e m + 1) * 2 ^ 52); [lia|]. apply N.mul_le_mono_r. lia. }
  assert (s * (2 ^ 11 * 2 ^ 52) <= 1 * (2 ^ 11 * 2 ^ 52)) by (apply N.mul_le_mono_r; lia). lia.
Qed.
Lemma good_if_not_nan : forall v, v < 2 ^ 32 -> ~ is_nan32 v -> good32 widen32 narrow32 v.
Proof.
  intros v B NN. split; [|now apply widen_lt]. destruct (split32 v) as (s & e & m & HE & HM & ->). rewrite back by assumption.
  destruct (N.eqb_spec e 255) as [E|]; [|reflexivity]. destruct (N.eqb_spec m 0) as [Z|Z]; [reflexivity|]. exfalso. apply NN. destruct (fields 23 8 s e m HE HM) as (F1 & F2 & F3).
  unfold is_nan32. rewrite F2, F3. auto.
Qed.

(** Every f32 in the value is a number. *)
Definition no_nan (t : ty) (v : den t) : Prop := f32s (fun x => ~ is_nan32 x) t v.
Lemma numbers : (forall t v, ok t v -> no_nan t v -> f32s (good32 widen32 narrow32) t v) /\
  (forall ts v, oks ts v -> f32ss (fun x => ~ is_nan32 x) ts v -> f32ss (good32 widen32 narrow32) ts v) /\
  (forall vs v, okv vs v -> f32sv (fun x => ~ is_nan32 x) vs v -> f32sv (good32 widen32 narrow32) vs v).
Proof.
  unfold no_nan. apply schema_ind; cbn [ok oks okv f32s f32ss f32sv]; auto.
  - intros w v B NN. destruct w; auto. apply good_if_not_nan; assumption.
  - intros t IH [v|]; auto.
  - intros t IH l [O _] G. apply Forall_forall. intros x I. rewrite Forall_forall in O, G. auto.
  - intros k IHk v IHv l [O _] G. apply Forall_forall. intros x I. rewrite Forall_forall in O, G. destruct (O x I), (G x I). auto.
  - intros nm t IHt ts IHs [x y] [O1 O2] [G1 G2]. auto.
  - intros nm vs IH [u|x]; auto.
  - intros nm t IHt vs IH [u|x]; auto.
Qed.
(** C46 with f32, which may be any number or infinity; missing: the types for which the property is false. *)
Theorem C46_f32_partial : forall w16 n16 t v, csafe_ true t -> (depth t <= 256)%nat -> ok t v -> no_nan t v ->
  cbor_from_bytes w16 widen32 narrow32 t (cbor_to_bytes w16 widen32 n16 narrow32 t v) = Some v.
Proof. intros w16 n16 t v S D O G. apply round_trip; auto. apply numbers; assumption. Qed.
(** A NaN comes back as a NaN with the quiet bit set; so a signalling NaN does not come back. *)
Theorem C46_nan : forall w16 n16 v, v < 2 ^ 32 -> is_nan32 v ->
  cbor_from_bytes w16 widen32 narrow32 (TFloat W32) (cbor_to_bytes w16 widen32 n16 narrow32 (TFloat W32) v) = Some (if v mod 2 ^ 23 <? 2 ^ 22 then v + 2 ^ 22 else v).
Proof.
  intros w16 n16 v B [N1 N2]. unfold cbor_from_bytes, cbor_to_bytes. cbn [cdec cenc]. rewrite <- (app_nil_r (enc_f64 _ _ _ _ _)). unfold dec_f64.
  destruct (f64_head w16 widen32 n16 narrow32 (widen32 v) [] (widen_lt v B)) as (mn & n & E & _ & [[-> W]|[[-> W]|[-> W]]]); rewrite E; cbn [N.eqb Pos.eqb]; rewrite W; f_equal;
    destruct (split32 v) as (s & e & m & HE & HM & ->); destruct (fields 23 8 s e m HE HM) as (F1 & F2 & F3); rewrite F2 in N1; rewrite F3 in *; subst e; rewrite back by assumption;
    rewrite (proj2 (N.eqb_neq m 0) N2); cbn [N.eqb Pos.eqb andb negb]; unfold quiet; cbn [option_map fst]; f_equal; destruct (m <? 2 ^ 22); lia.
Qed.
Theorem C46_signalling_nan_refuted : exists v, ok (TFloat W32) v /\ forall w16 n16,
  cbor_from_bytes w16 widen32 narrow32 (TFloat W32) (cbor_to_bytes w16 widen32 n16 narrow32 (TFloat W32) v) <> Some v.
Proof.
  exists 0x7F800001. split; [reflexivity|]. intros w16 n16. rewrite C46_nan; [discriminate|reflexivity|split; [reflexivity|discriminate]].
Qed.
(** 0.1, a subnormal, the largest number and infinity in a list; 0.1 as f64 has the expected bits; rounding 0.1 of f64 gives 0.1 of f32. *)
Example C46_f32_example : let l := [0x3DCCCCCD; 1; 0x80000003; 0x7F7FFFFF; 0xFF800000] in
  ok (TSeq (TFloat W32)) l /\ no_nan (TSeq (TFloat W32)) l /\ csafe_ true (TSeq (TFloat W32)) /\
  map widen32 l = [0x3FB99999A0000000; 0x36A0000000000000; 0xB6B8000000000000; 0x47EFFFFFE0000000; 0xFFF0000000000000] /\
  narrow32 0x3FB999999999999A = 0x3DCCCCCD /\ narrow32 0x47EFFFFFF0000000 = 0x7F800000.
Proof.
  cbv zeta. split; [split; [repeat constructor|reflexivity]|]. split; [repeat constructor; intros [A B]; try discriminate A; apply B; reflexivity|]. split; [reflexivity|]. split; [vm_compute; reflexivity|]. split; vm_compute; reflexivity.
Qed.
(** Rounding is to the nearest, and to the even one of two that are equally near: what [as f32] does to a number that is not an f32. *)
Definition nearest (n k q : N) : Prop := forall q', let d x := (Z.abs (Z.of_N n - Z.of_N x * 2 ^ Z.of_N k))%Z in (d q < d q')%Z \/ d q = d q' /\ (q = q' \/ N.even q = true).
Theorem C46_rounds_to_nearest : forall n k, nearest n k (rne n k).
Proof.
  intros n k q' d. unfold d. clear d. assert (K : 2 ^ k <> 0) by (apply N.pow_nonzero; lia). pose proof (N.div_mod n (2 ^ k) K) as DM. pose proof (N.mod_lt n (2 ^ k) K) as ML.
  assert (E2 : (2 ^ Z.of_N k = Z.of_N (2 ^ k))%Z) by (rewrite N2Z.inj_pow; reflexivity). rewrite E2. unfold rne. revert DM ML K. generalize (n / 2 ^ k). intros q. generalize (n mod 2 ^ k). intros r. clear E2. generalize (2 ^ k).
  intros p DM ML K. rewrite <- N.negb_even. subst n.
  assert (EV : N.even (q + 1) = negb (N.even q)) by (rewrite N.add_1_r; apply N.even_succ).
  assert (X : forall x y : N, (Z.of_N x <= Z.of_N y)%Z <-> x <= y) by (intros; lia).
  destruct (N.ltb_spec p (2 * r)); cbn [orb]; [|destruct (N.eqb_spec (2 * r) p); cbn [andb]; [destruct (N.even q) eqn:EQ; cbn [negb]|]].
  - destruct (N.lt_trichotomy q' (q + 1)) as [L|[->|L]]; [left; nia|right; auto|left; nia].
  - destruct (N.lt_trichotomy q' q) as [L|[->|L]]; [left; nia|right; auto|]. destruct (N.eq_dec q' (q + 1)) as [->|]; [right; split; [nia|auto]|left; nia].
  - destruct (N.lt_trichotomy q' (q + 1)) as [L|[->|L]]; [|right; auto|left; nia]. destruct (N.eq_dec q' q) as [->|]; [right; split; [nia|right; rewrite EV; reflexivity]|left; nia].
  - destruct (N.lt_trichotomy q' q) as [L|[->|L]]; [left; nia|right; auto|left; nia].
Qed.
Print Assumptions C46_rounds_to_nearest.
Print Assumptions C46_widening_exact.
Print Assumptions C46_f32_partial.
Print Assumptions C46_nan.
Print Assumptions C46_signalling_nan_refuted.
(** A finite f64 that is too large becomes infinity of its sign; it is larger than every finite f32. *)
Theorem C46_overflow : forall x, 1151 <= x / 2 ^ 52 mod 2 ^ 11 < 2047 ->
  narrow32 x = x / 2 ^ 63 * 2 ^ 31 + 0x7F800000 /\ forall v, finite32 v -> magnitude32 v < magnitude64 x.
Proof.
  intros x [L U]. split.
  - unfold narrow32. destruct (N.eqb_spec (x / 2 ^ 52 mod 2 ^ 11) 2047); [lia|]. destruct (N.eqb_spec (x / 2 ^ 52 mod 2 ^ 11) 0); [lia|].
    destruct (N.leb_spec (x / 2 ^ 52 mod 2 ^ 11) 896); [lia|]. destruct (N.leb_spec 1151 (x / 2 ^ 52 mod 2 ^ 11)); [reflexivity|lia].
  - intros v F. destruct (split32 v) as (s & e & m & HE & HM & ->). destruct (fields 23 8 s e m HE HM) as (F1 & F2 & F3). unfold finite32 in F. rewrite F2 in F. unfold magnitude32. rewrite F2, F3.
    apply N.lt_le_trans with (2 ^ 24 * 2 ^ 253 * 2 ^ 925).
    + apply N.mul_lt_mono_pos_r; [apply N.neq_0_lt_0, N.pow_nonzero; discriminate|]. change (2 ^ 8) with 256 in HE. destruct (N.eqb_spec e 0).
      * apply N.lt_le_trans with (1 := HM). vm_compute. discriminate.
      * apply N.lt_le_trans with (2 ^ 24 * 2 ^ (e - 1)).
        -- apply N.mul_lt_mono_pos_r; [apply N.neq_0_lt_0, N.pow_nonzero; discriminate|]. change (2 ^ 24) with (2 ^ 23 + 2 ^ 23). lia.
        -- apply N.mul_le_mono_l, N.pow_le_mono_r; [discriminate|lia].
    + unfold magnitude64. destruct (N.eqb_spec (x / 2 ^ 52 mod 2 ^ 11) 0); [lia|]. rewrite <- !N.pow_add_r. apply N.le_trans with (2 ^ 52 * 2 ^ (x / 2 ^ 52 mod 2 ^ 11 - 1)).
      * rewrite <- N.pow_add_r. apply N.pow_le_mono_r; [discriminate|lia].
      * apply N.mul_le_mono_r. lia.
Qed.
(** 1e39 and -1e300. *)
Example C46_overflow_ex : 1151 <= 0x48078287F49C4A1D / 2 ^ 52 mod 2 ^ 11 < 2047 /\ narrow32 0x48078287F49C4A1D = 0x7F800000 /\ narrow32 0xFE37E43C8800759C = 0xFF800000.
Proof. split; [split; [discriminate|reflexivity]|]. split; vm_compute; reflexivity. Qed.
Print Assumptions C46_overflow.
