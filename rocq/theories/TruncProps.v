(** C81: a message that has lost its end is never decoded, in either format, whatever the type of the value. *)
From Coq Require Import List NArith ZArith Lia Bool Ascii String.
From Verif Require Import Utf8 Schema PostcardModel PostcardProps CborModel CborProps.
Import ListNotations.
Open Scope list_scope.
Open Scope N_scope.
Notation length := List.length.

(** * Spec *)
(** What a decoder made of some bytes it makes of any continuation of them as well. *)
Definition grows {A : Type} (d : list N -> option (A * list N)) : Prop :=
  forall bs v r x, d bs = Some (v, r) -> d (bs ++ x) = Some (v, r ++ x).
(** [p] is what is left of [b] after its end was lost. *)
Definition truncated (p b : list N) : Prop := exists x, x <> [] /\ b = p ++ x.
(** A decoder that stops exactly where the encoded value ends, or fails. *)
Definition eats {A : Type} (d : list N -> option (A * list N)) (b : list N) : Prop :=
  forall r, d (b ++ r) = None \/ exists v, d (b ++ r) = Some (v, r).

(** What holds of every Rust type: fewer than 2^64 fields, names are unicode strings shorter than 2^64 bytes, the variants of an
    enum have different names. *)
Definition rust_name (n : list N) : Prop := forallb is_scalar n = true /\ N.of_nat (length (utf8_enc n)) < 2 ^ 64.
Fixpoint rust_ty (t : ty) : Prop :=
  match t with
  | TOpt t | TSeq t => rust_ty t
  | TMap k v => rust_ty k /\ rust_ty v
  | TTup ts => rust_tys false ts /\ ntys ts < 2 ^ 64
  | TStruct ts => rust_tys true ts /\ ntys ts < 2 ^ 64
  | TEnum vs => NoDup (vnames vs) /\ rust_vars vs
  | _ => True
  end
with rust_tys (named : bool) (ts : tys) : Prop :=
  match ts with FNil => True | FCons n t r => (named = true -> rust_name n) /\ rust_ty t /\ rust_tys named r end
with rust_vars (vs : vars) : Prop :=
  match vs with VNil => True | VUnit n r => rust_name n /\ rust_vars r | VPay n t r => rust_name n /\ rust_ty t /\ rust_vars r end.

Lemma cut : forall (A : Type) (d : list N -> option (A * list N)) p b, grows d -> eats d b -> truncated p b -> d p = None.
Proof.
  intros A d p b G E (x & NE & ->). destruct (d p) as [[v r]|] eqn:D; [|reflexivity]. exfalso.
  specialize (G _ _ _ x D). specialize (E []). rewrite app_nil_r in E. destruct E as [E|[w E]]; rewrite G in E; [discriminate|].
  injection E as _ E. destruct r; [now destruct x|discriminate].
Qed.

(** * Postcard *)
Lemma vdec_grows : forall b k sh acc, grows (vdec b k sh acc).
Proof.
  intros b. induction k as [|k IH]; intros sh acc bs v r x H; [discriminate|]. destruct bs as [|y bs]; [discriminate|].
  cbn [vdec app] in *. destruct (y <? 128).
  - destruct (match k with O => varint_last b <? y | _ => false end); [discriminate|]. now injection H as <- <-.
  - now apply IH.
Qed.
Lemma unvarint_grows : forall b, grows (unvarint b).
Proof. intros b. apply vdec_grows. Qed.
Lemma take_grows : forall n, grows (take n).
Proof.
  intros n bs v r x H. unfold take in *. destruct (N.ltb_spec (N.of_nat (length bs)) n) as [|L]; [discriminate|]. injection H as <- <-.
  rewrite (proj2 (N.ltb_ge _ _)) by (rewrite app_length; lia).
  rewrite firstn_app, skipn_app. replace (N.to_nat n - length bs)%nat with O by lia. cbn [firstn skipn]. now rewrite app_nil_r.
Qed.
Lemma rep_grows : forall (A : Type) (d : list N -> option (A * list N)), grows d -> forall n, grows (rep n d).
Proof.
  intros A d G. induction n as [|n IH]; intros bs v r x H; cbn [rep] in *; [now injection H as <- <-|].
  destruct (d bs) as [[y r1]|] eqn:D; [|discriminate]. destruct (rep n d r1) as [[l r2]|] eqn:R; [|discriminate]. injection H as <- <-.
  now rewrite (G _ _ _ x D), (IH _ _ _ x R).
Qed.
Lemma blob_grows : grows dec_blob.
Proof.
  intros bs v r x H. unfold dec_blob in *. destruct (unvarint 64 bs) as [[n r1]|] eqn:U; [|discriminate].
  rewrite (unvarint_grows _ _ _ _ x U). now apply take_grows.
Qed.
(** One after the other. *)
Lemma pair_grows : forall (A B : Type) (d : list N -> option (A * list N)) (e : list N -> option (B * list N)), grows d -> grows e ->
  grows (fun bs => match d bs with
                   | Some (x, r) => match e r with Some (y, r') => Some ((x, y), r') | None => None end
                   | None => None
                   end).
Proof.
  intros A B d e G1 G2 bs v r x H. cbn in *. destruct (d bs) as [[y r1]|] eqn:D; [|discriminate].
  destruct (e r1) as [[z r2]|] eqn:E; [|discriminate]. injection H as <- <-. now rewrite (G1 _ _ _ x D), (G2 _ _ _ x E).
Qed.

Lemma pdec_grows_all : (forall t, grows (pdec t)) /\ (forall ts, grows (pdecs ts)) /\ (forall vs i, grows (pdecv vs i)).
Proof.
  apply schema_ind; cbn [pdec pdecs pdecv].
  - intros bs v r x H. destruct bs as [|[|[]] bs]; try discriminate; injection H as <- <-; reflexivity.
  - intros w bs v r x H. unfold dec_uint in *. destruct w; try (now apply unvarint_grows). destruct bs; [discriminate|]. now injection H as <- <-.
  - intros w bs v r x H. unfold dec_int in *.
    assert (G : forall b, match unvarint b bs with Some (n, r) => Some (unzigzag n, r) | None => None end = Some (v, r) ->
                          match unvarint b (bs ++ x) with Some (n, r) => Some (unzigzag n, r) | None => None end = Some (v, r ++ x)).
    { intros b K. destruct (unvarint b bs) as [[n r1]|] eqn:U; [|discriminate]. injection K as <- <-. now rewrite (unvarint_grows _ _ _ _ x U). }
    destruct w; try (now apply G). destruct bs; [discriminate|]. now injection H as <- <-.
  - intros w bs v r x H. destruct (take (wbytes w) bs) as [[b r1]|] eqn:T; [|discriminate]. injection H as <- <-. now rewrite (take_grows _ _ _ _ x T).
  - intros bs v r x H. destruct (unvarint 64 bs) as [[n r1]|] eqn:U; [|discriminate]. rewrite (unvarint_grows _ _ _ _ x U).
    destruct (4 <? n); [discriminate|]. destruct (take n r1) as [[b r2]|] eqn:T; [|discriminate]. rewrite (take_grows _ _ _ _ x T).
    destruct (utf8_dec b) as [[|c l]|]; try discriminate. now injection H as <- <-.
  - intros bs v r x H. destruct (dec_blob bs) as [[b r1]|] eqn:U; [|discriminate]. rewrite (blob_grows _ _ _ x U).
    destruct (utf8_dec b); [|discriminate]. now injection H as <- <-.
  - apply blob_grows.
  - intros bs v r x H. now injection H as <- <-.
  - intros t IH bs v r x H. destruct bs as [|[|[]] bs]; try discriminate; cbn [app]; [now injection H as <- <-|].
    destruct (pdec t bs) as [[w r1]|] eqn:U; [|discriminate]. injection H as <- <-. now rewrite (IH _ _ _ x U).
  - intros t IH bs v r x H. destruct (unvarint 64 bs) as [[n r1]|] eqn:U; [|discriminate]. rewrite (unvarint_grows _ _ _ _ x U). now apply rep_grows.
  - intros k IHk v IHv bs w r x H. destruct (unvarint 64 bs) as [[n r1]|] eqn:U; [|discriminate]. rewrite (unvarint_grows _ _ _ _ x U).
    apply rep_grows; [now apply pair_grows|exact H].
  - auto.
  - auto.
  - intros vs IH bs v r x H. destruct (unvarint 32 bs) as [[n r1]|] eqn:U; [|discriminate]. rewrite (unvarint_grows _ _ _ _ x U). now apply IH.
  - intros bs v r x H. now injection H as <- <-.
  - intros nm t IHt ts IHs. apply (pair_grows _ _ (pdec t) (pdecs ts)); assumption.
  - intros i bs v r x H. discriminate.
  - intros nm vs IH i bs v r x H. destruct (i =? 0); [now injection H as <- <-|].
    destruct (pdecv vs (i - 1) bs) as [[w r1]|] eqn:U; [|discriminate]. injection H as <- <-. now rewrite (IH _ _ _ _ x U).
  - intros nm t IHt vs IH i bs v r x H. destruct (i =? 0).
    + destruct (pdec t bs) as [[w r1]|] eqn:U; [|discriminate]. injection H as <- <-. now rewrite (IHt _ _ _ x U).
    + destruct (pdecv vs (i - 1) bs) as [[w r1]|] eqn:U; [|discriminate]. injection H as <- <-. now rewrite (IH _ _ _ _ x U).
Qed.

(** * CBOR *)
Lemma dec_head_grows : grows dec_head.
Proof.
  intros bs v r x H. destruct bs as [|b bs]; [discriminate|]. cbn [dec_head app] in *. destruct (b mod 32 <? 24); [now injection H as <- <-|].
  destruct (b mod 32 <? 28); [|discriminate]. destruct (take (2 ^ (b mod 32 - 24)) bs) as [[y r1]|] eqn:T; [|discriminate].
  rewrite (take_grows _ _ _ _ x T). now injection H as <- <-.
Qed.
(** Once the head can be read, more bytes do not change whether [expect] and [dec_simple] succeed. *)
Lemma expect_more : forall m bs x, dec_head bs <> None ->
  expect m (bs ++ x) = match expect m bs with Some (n, r) => Some (n, r ++ x) | None => None end.
Proof.
  intros m bs x H. unfold expect. destruct (dec_head bs) as [[[[mj mn] n] r]|] eqn:D; [|congruence]. rewrite (dec_head_grows _ _ _ x D).
  now destruct (mj =? m).
Qed.
Lemma simple_more : forall bs x, dec_head bs <> None ->
  dec_simple (bs ++ x) = match dec_simple bs with Some (n, r) => Some (n, r ++ x) | None => None end.
Proof.
  intros bs x H. unfold dec_simple. destruct (dec_head bs) as [[[[mj mn] n] r]|] eqn:D; [|congruence]. rewrite (dec_head_grows _ _ _ x D).
  now destruct ((mj =? 7) && (mn <? 25))%bool.
Qed.
Lemma expect_some : forall m bs y, expect m bs = Some y -> dec_head bs <> None.
Proof. intros m bs y H. unfold expect in H. now destruct (dec_head bs). Qed.
Lemma simple_some : forall bs y, dec_simple bs = Some y -> dec_head bs <> None.
Proof. intros bs y H. unfold dec_simple in H. now destruct (dec_head bs). Qed.
Lemma expect_grows : forall m, grows (expect m).
Proof. intros m bs v r x H. rewrite expect_more by (eapply expect_some; eauto). now rewrite H. Qed.
Lemma simple_grows : grows dec_simple.
Proof. intros bs v r x H. rewrite simple_more by (eapply simple_some; eauto). now rewrite H. Qed.

Lemma integer_grows : grows dec_integer.
Proof.
  intros bs v r x H. unfold dec_integer in *. destruct (dec_head bs) as [[[[m mn] n] r1]|] eqn:D; [|discriminate]. rewrite (dec_head_grows _ _ _ x D).
  destruct (m =? 0); [now injection H as <- <-|]. destruct (m =? 1); [now injection H as <- <-|].
  destruct ((m =? 6) && ((n =? 2) || (n =? 3)))%bool; [|discriminate].
  destruct (expect 2 r1) as [[len r2]|] eqn:E; [|discriminate]. rewrite (expect_grows _ _ _ _ x E).
  destruct (take len r2) as [[b r3]|] eqn:T; [|discriminate]. rewrite (take_grows _ _ _ _ x T).
  destruct (16 <? N.of_nat (length (strip0 b))); [discriminate|]. now injection H as <- <-.
Qed.
Lemma text_grows : grows dec_text.
Proof.
  intros bs v r x H. unfold dec_text in *. destruct (expect 3 bs) as [[n r1]|] eqn:E; [|discriminate]. rewrite (expect_grows _ _ _ _ x E).
  destruct (take n r1) as [[b r2]|] eqn:T; [|discriminate]. rewrite (take_grows _ _ _ _ x T).
  destruct (utf8_dec b); [|discriminate]. now injection H as <- <-.
Qed.
Lemma name_grows : grows dec_name.
Proof.
  intros bs v r x H. unfold dec_name in *. destruct (expect 3 bs) as [[n r1]|] eqn:E; [|discriminate]. rewrite (expect_grows _ _ _ _ x E).
  destruct (4096 <? n); [discriminate|]. now apply text_grows.
Qed.

Section Cbor.
Variables widen16 widen32 narrow16 narrow32 : N -> N.
Notation cenc := (cenc widen16 widen32 narrow16 narrow32).
Notation cencs := (cencs widen16 widen32 narrow16 narrow32).
Notation cencv := (cencv widen16 widen32 narrow16 narrow32).
Notation cdec := (cdec widen16 widen32 narrow32).
Notation cdecs := (cdecs widen16 widen32 narrow32).
Notation cdecv := (cdecv widen16 widen32 narrow32).

Lemma f64_grows : grows (dec_f64 widen16 widen32).
Proof.
  intros bs v r x H. unfold dec_f64 in *. destruct (dec_head bs) as [[[[m mn] n] r1]|] eqn:D; [|discriminate]. rewrite (dec_head_grows _ _ _ x D).
  destruct (m =? 7); [|discriminate]. destruct (mn =? 25); [now injection H as <- <-|]. destruct (mn =? 26); [now injection H as <- <-|].
  destruct (mn =? 27); [now injection H as <- <-|discriminate].
Qed.

(** Every value starts with a complete head. *)
Lemma cdec_head : forall t d bs y, cdec t d bs = Some y -> dec_head bs <> None.
Proof.
  induction t; intros d bs y H; cbn [CborModel.cdec] in H.
  - destruct (dec_simple bs) eqn:E; [|discriminate]. eapply simple_some; eauto.
  - unfold cdec_uint, dec_integer in H. now destruct (dec_head bs).
  - unfold cdec_int, dec_integer in H. now destruct (dec_head bs).
  - destruct w; unfold dec_f64 in H; now destruct (dec_head bs).
  - destruct (expect 3 bs) eqn:E; [|discriminate]. eapply expect_some; eauto.
  - unfold dec_text in H. destruct (expect 3 bs) eqn:E; [|discriminate]. eapply expect_some; eauto.
  - destruct (expect 2 bs) eqn:E; [|discriminate]. eapply expect_some; eauto.
  - destruct (dec_simple bs) eqn:E; [|discriminate]. eapply simple_some; eauto.
  - destruct (dec_simple bs) eqn:E; [eapply simple_some; eauto|]. destruct (cdec t d bs) as [[w r]|] eqn:C; [|discriminate]. eauto.
  - destruct (expect 4 bs) eqn:E; [|discriminate]. eapply expect_some; eauto.
  - destruct (expect 5 bs) eqn:E; [|discriminate]. eapply expect_some; eauto.
  - destruct (expect 4 bs) eqn:E; [|discriminate]. eapply expect_some; eauto.
  - destruct (expect 5 bs) eqn:E; [|discriminate]. eapply expect_some; eauto.
  - destruct (expect 5 bs) eqn:E; [eapply expect_some; eauto|]. destruct (expect 3 bs) eqn:E'; [eapply expect_some; eauto|discriminate].
Qed.

Lemma cdec_grows_all : (forall t d, grows (cdec t d)) /\ (forall ts named d, grows (cdecs named ts d)) /\ (forall vs d n, grows (cdecv vs d n)).
Proof.
  apply schema_ind; cbn [CborModel.cdec CborModel.cdecs CborModel.cdecv].
  - intros d bs v r x H. destruct (dec_simple bs) as [[n r1]|] eqn:E; [|discriminate]. rewrite (simple_grows _ _ _ x E).
    destruct (n =? 20); [now injection H as <- <-|]. destruct (n =? 21); [now injection H as <- <-|discriminate].
  - intros w d bs v r x H. unfold cdec_uint in *. destruct (dec_integer bs) as [[[neg n] r1]|] eqn:E; [|discriminate]. rewrite (integer_grows _ _ _ x E).
    destruct neg; [discriminate|]. destruct (n <? 2 ^ bits w); [now injection H as <- <-|discriminate].
  - intros w d bs v r x H. unfold cdec_int in *. destruct (dec_integer bs) as [[[neg n] r1]|] eqn:E; [|discriminate]. rewrite (integer_grows _ _ _ x E).
    destruct (n <? 2 ^ (bits w - 1)); [now injection H as <- <-|discriminate].
  - intros w d bs v r x H.
    assert (G : match dec_f64 widen16 widen32 bs with Some (x, r) => Some (narrow32 x, r) | None => None end = Some (v, r) ->
                match dec_f64 widen16 widen32 (bs ++ x) with Some (x, r) => Some (narrow32 x, r) | None => None end = Some (v, r ++ x)).
    { intros K. destruct (dec_f64 widen16 widen32 bs) as [[n r1]|] eqn:U; [|discriminate]. injection K as <- <-. now rewrite (f64_grows _ _ _ x U). }
    destruct w; try (now apply G). now apply f64_grows.
  - intros d bs v r x H. destruct (expect 3 bs) as [[n r1]|] eqn:E; [|discriminate]. rewrite (expect_grows _ _ _ _ x E).
    destruct (4 <? n); [discriminate|]. destruct (dec_text bs) as [[[|c [|]] r2]|] eqn:T; try discriminate. rewrite (text_grows _ _ _ x T). now injection H as <- <-.
  - intros d. apply text_grows.
  - intros d bs v r x H. destruct (expect 2 bs) as [[n r1]|] eqn:E; [|discriminate]. rewrite (expect_grows _ _ _ _ x E). now apply take_grows.
  - intros d bs v r x H. destruct (dec_simple bs) as [[n r1]|] eqn:E; [|discriminate]. rewrite (simple_grows _ _ _ x E).
    destruct (is_null n); [now injection H as <- <-|discriminate].
  - intros t IH d bs v r x H.
    assert (HD : dec_head bs <> None) by (eapply (cdec_head (TOpt t)); eauto).
    rewrite (simple_more bs x HD). destruct (dec_simple bs) as [[n r1]|]; [destruct (is_null n); [now injection H as <- <-|]|];
      (destruct (cdec t d bs) as [[w r2]|] eqn:C; [|discriminate]); injection H as <- <-; now rewrite (IH _ _ _ _ x C).
  - intros t IH d bs v r x H. destruct (expect 4 bs) as [[n r1]|] eqn:E; [|discriminate]. rewrite (expect_grows _ _ _ _ x E).
    destruct d; [discriminate|]. apply rep_grows; [apply IH|exact H].
  - intros k IHk w IHw d bs v r x H. destruct (expect 5 bs) as [[n r1]|] eqn:E; [|discriminate]. rewrite (expect_grows _ _ _ _ x E).
    destruct d; [discriminate|]. apply rep_grows; [apply pair_grows; [apply IHk|apply IHw]|exact H].
  - intros ts IH d bs v r x H. destruct (expect 4 bs) as [[n r1]|] eqn:E; [|discriminate]. rewrite (expect_grows _ _ _ _ x E).
    destruct d; [discriminate|]. destruct (n =? ntys ts); [|discriminate]. now apply IH.
  - intros ts IH d bs v r x H. destruct (expect 5 bs) as [[n r1]|] eqn:E; [|discriminate]. rewrite (expect_grows _ _ _ _ x E).
    destruct d; [discriminate|]. destruct (n =? ntys ts); [|discriminate]. now apply IH.
  - intros vs IH d bs v r x H.
    assert (HD : dec_head bs <> None) by (eapply (cdec_head (TEnum vs)); eauto).
    rewrite (expect_more 5 bs x HD), (expect_more 3 bs x HD).
    set (pre := match expect 5 bs with Some (1, r) => Some r | _ => match expect 3 bs with Some _ => Some bs | None => None end end) in H.
    match goal with |- match ?p with _ => _ end = _ => set (post := p) end.
    assert (PP : post = match pre with Some b => Some (b ++ x) | None => None end).
    { unfold pre, post. destruct (expect 5 bs) as [[[|[]] r1]|]; try reflexivity; destruct (expect 3 bs) as [[]|]; reflexivity. }
    rewrite PP. destruct pre as [b|]; [|discriminate]. destruct d; [discriminate|].
    destruct (dec_name b) as [[n r1]|] eqn:U; [|discriminate]. rewrite (name_grows _ _ _ x U). now apply IH.
  - intros named d bs v r x H. now injection H as <- <-.
  - intros nm t IHt ts IHs named d bs v r x H. destruct named.
    + destruct (dec_name bs) as [[n r1]|] eqn:U; [|discriminate]. rewrite (name_grows _ _ _ x U).
      destruct (str_eqb n nm); [|discriminate]. now apply (pair_grows _ _ (cdec t d) (cdecs true ts d)).
    + now apply (pair_grows _ _ (cdec t d) (cdecs false ts d)).
  - intros d n bs v r x H. discriminate.
  - intros nm vs IH d n bs v r x H. destruct (str_eqb n nm); [now injection H as <- <-|].
    destruct (cdecv vs d n bs) as [[w r1]|] eqn:U; [|discriminate]. injection H as <- <-. now rewrite (IH _ _ _ _ _ x U).
  - intros nm t IHt vs IH d n bs v r x H.
    change ((if str_eqb n nm then match cdec t d bs with Some (v, b) => Some (inl v, b) | None => None end
            else match cdecv vs d n bs with Some (v, b) => Some (inr v, b) | None => None end) = Some (v, r)) in H.
    change ((if str_eqb n nm then match cdec t d (bs ++ x) with Some (v, b) => Some (inl v, b) | None => None end
            else match cdecv vs d n (bs ++ x) with Some (v, b) => Some (inr v, b) | None => None end) = Some (v, r ++ x)).
    destruct (str_eqb n nm).
    + destruct (cdec t d bs) as [[w r1]|] eqn:U; [|discriminate]. injection H as <- <-. now rewrite (IHt _ _ _ _ x U).
    + destruct (cdecv vs d n bs) as [[w r1]|] eqn:U; [|discriminate]. injection H as <- <-. now rewrite (IH _ _ _ _ _ x U).
Qed.

(** ** What was written is read to its end or not at all *)
Lemma eats_round : forall (A : Type) (d : list N -> option (A * list N)) b v, (forall r, d (b ++ r) = Some (v, r)) -> eats d b.
Proof. intros A d b v H r. right. eauto. Qed.
Lemma eats_pair : forall (A B C : Type) (d : list N -> option (A * list N)) (e : list N -> option (B * list N)) (f : A -> B -> C) b c,
  eats d b -> eats e c ->
  eats (fun bs => match d bs with
                  | Some (x, r) => match e r with Some (y, r') => Some (f x y, r') | None => None end
                  | None => None
                  end) (b ++ c).
Proof.
  intros A B C d e f b c E1 E2 r. cbn. rewrite <- app_assoc. destruct (E1 (c ++ r)) as [->|[v ->]]; [now left|].
  destruct (E2 r) as [->|[w ->]]; [now left|right; eauto].
Qed.
Lemma eats_rep : forall (A B : Type) (d : list N -> option (A * list N)) (e : B -> list N) l, Forall (fun v => eats d (e v)) l ->
  eats (rep (length l) d) (flat_map e l).
Proof.
  intros A B d e l F. induction F as [|v l E F IH]; intros r; cbn [rep flat_map length app]; [right; eauto|].
  apply (eats_pair _ _ _ d (rep (length l) d) (fun x y => x :: y)); assumption.
Qed.

Lemma f64_eats : forall x r, exists mn n, dec_head (enc_f64 widen16 widen32 narrow16 narrow32 x ++ r) = Some (7, mn, n, r) /\ 25 <= mn.
Proof.
  intros x r. unfold enc_f64.
  assert (G : forall m k n, 25 <= m < 28 -> N.of_nat k = 2 ^ (m - 24) -> exists mn a, dec_head ((7 * 32 + m :: be_enc k n) ++ r) = Some (7, mn, a, r) /\ 25 <= mn).
  { intros m k n B K. unfold dec_head. cbn [app].
    replace ((7 * 32 + m) mod 32) with m by lia. replace ((7 * 32 + m) / 32) with 7 by lia.
    rewrite (proj2 (N.ltb_ge m 24)) by lia. rewrite (proj2 (N.ltb_lt m 28)) by lia.
    rewrite <- K, take_eq by (now rewrite be_length). exists m, (be_dec (be_enc k n)). split; [reflexivity|lia]. }
  destruct (widen16 (narrow16 x mod 2 ^ 16) =? x); [apply (G 25 2%nat); [lia|reflexivity]|].
  destruct (widen32 (narrow32 x mod 2 ^ 32) =? x); [apply (G 26 4%nat); [lia|reflexivity]|apply (G 27 8%nat); [lia|reflexivity]].
Qed.

Lemma name_eats : forall n b r, rust_name n -> dec_name (enc_text n ++ b ++ r) = None \/ dec_name (enc_text n ++ b ++ r) = Some (n, b ++ r).
Proof.
  intros n b r [S L]. unfold dec_name. rewrite text_round by assumption. destruct (expect 3 (enc_text n ++ b ++ r)) as [[k r1]|]; [|now left].
  destruct (4096 <? k); auto.
Qed.

(** An item that is a null is one byte long. *)
Lemma null_eats : forall t v r n r0, rust_ty t -> ok t v -> dec_simple (cenc t v ++ r) = Some (n, r0) -> is_null n = true -> r0 = r.
Proof.
  assert (HD : forall mj n r y, mj < 7 -> n < 2 ^ 64 -> dec_simple (head mj n ++ r) = Some y -> False).
  { intros mj n r y M B. unfold dec_simple. rewrite dec_head_head by lia. rewrite (proj2 (N.eqb_neq mj 7)) by lia. discriminate. }
  assert (INT : forall neg raw r y, dec_simple (enc_integer neg raw ++ r) = Some y -> False).
  { intros neg raw r y. unfold enc_integer. destruct (N.ltb_spec raw (2 ^ 64)); [apply HD; destruct neg; auto; lia|].
    destruct neg; discriminate. }
  assert (TXT : forall s r y, N.of_nat (length (utf8_enc s)) < 2 ^ 64 -> dec_simple (enc_text s ++ r) = Some y -> False).
  { intros s r y L. unfold enc_text. rewrite <- app_assoc. apply HD; lia. }
  assert (F64 : forall x r y, dec_simple (enc_f64 widen16 widen32 narrow16 narrow32 x ++ r) = Some y -> False).
  { intros x r y. destruct (f64_eats x r) as (mn & n & E & M). unfold dec_simple. rewrite E. rewrite (proj2 (N.ltb_ge mn 25)) by lia. rewrite andb_false_r. discriminate. }
  induction t; intros x r n r0 RT O H NU; cbn [CborModel.cenc] in H.
  - destruct x; cbn in H; now injection H as <- <-.
  - now apply INT in H.
  - unfold cenc_int in H. destruct (x <? 0)%Z; now apply INT in H.
  - destruct w; now apply F64 in H.
  - apply TXT in H; [contradiction|]. cbn. rewrite app_nil_r. pose proof (enc_char_length x). lia.
  - apply TXT in H; [contradiction|]. apply O.
  - rewrite <- app_assoc in H. apply HD in H; [contradiction|lia|apply O].
  - cbn in H. now injection H as <- <-.
  - destruct x as [x|]; [eapply IHt; eauto|]. cbn in H. now injection H as <- <-.
  - rewrite <- app_assoc in H. apply HD in H; [contradiction|lia|apply O].
  - rewrite <- app_assoc in H. apply HD in H; [contradiction|lia|apply O].
  - rewrite <- app_assoc in H. apply HD in H; [contradiction|lia|apply RT].
  - rewrite <- app_assoc in H. apply HD in H; [contradiction|lia|apply RT].
  - cbn [rust_ty] in RT. destruct RT as [_ RT]. clear O. change (den (TEnum vs)) with (denv vs) in x.
    exfalso. induction vs as [|nm vs IH|nm t vs IH]; [destruct x| |].
    + destruct RT as [SN RT]. destruct x as [u|x]; [|apply (IH x RT H)]. eapply TXT, H. apply SN.
    + destruct RT as [SN [St RT]]. destruct x as [u|x]; [|apply (IH x RT H)]. cbn [CborModel.cencv] in H. rewrite <- app_assoc in H. eapply HD, H; lia.
Qed.

Lemma cdecs_cons : forall named nm t ts d bs, cdecs named (FCons nm t ts) d bs =
  match (if named then match dec_name bs with Some (n', b) => if str_eqb n' nm then Some b else None | None => None end else Some bs) with
  | Some b0 => match cdec t d b0 with
               | Some (v, b1) => match cdecs named ts d b1 with Some (vs, b2) => Some ((v, vs), b2) | None => None end
               | None => None
               end
  | None => None
  end.
Proof. reflexivity. Qed.
Lemma cdecv_pay : forall nm t vs d n bs, cdecv (VPay nm t vs) d n bs =
  if str_eqb n nm then match cdec t d bs with Some (v, b) => Some (inl v, b) | None => None end
  else match cdecv vs d n bs with Some (v, b) => Some (inr v, b) | None => None end.
Proof. reflexivity. Qed.
Lemma ceats_all :
  (forall t, rust_ty t -> forall v d, ok t v -> eats (cdec t d) (cenc t v)) /\
  (forall ts, forall named, rust_tys named ts -> forall v d, oks ts v -> eats (cdecs named ts d) (cencs named ts v)) /\
  (forall vs, rust_vars vs -> NoDup (vnames vs) -> forall v d, okv vs v ->
     exists n pay b, cencv vs v = (if pay : bool then head 5 1 else []) ++ enc_text n ++ b /\ In n (vnames vs) /\ rust_name n /\
       eats (cdecv vs d n) b).
Proof.
  apply schema_ind; cbn [rust_ty rust_tys rust_vars].
  - intros _ b d _ r. right. exists b. now destruct b.
  - intros w _ v d H. eapply eats_round. intros r. now apply cuint_round.
  - intros w _ v d H. eapply eats_round. intros r. now apply cint_round.
  - assert (F : forall x r, dec_f64 widen16 widen32 (enc_f64 widen16 widen32 narrow16 narrow32 x ++ r) = None \/
                            exists y, dec_f64 widen16 widen32 (enc_f64 widen16 widen32 narrow16 narrow32 x ++ r) = Some (y, r)).
    { intros x r. unfold dec_f64. destruct (f64_eats x r) as (mn & n & -> & _). cbn.
      destruct (mn =? 25); [eauto|]. destruct (mn =? 26); [eauto|]. destruct (mn =? 27); eauto. }
    intros w _ v d H r. destruct w; cbn [CborModel.cdec CborModel.cenc]; try apply F;
      destruct (F (widen32 v) r) as [-> | [y ->]]; eauto.
  - intros _ c d H. apply (eats_round _ _ _ c). intros r. cbn [CborModel.cdec CborModel.cenc]. pose proof (enc_char_length c).
    assert (L : length (utf8_enc [c]) = length (enc_char c)) by (cbn; now rewrite app_nil_r).
    assert (F : forallb is_scalar [c] = true) by (cbn; cbn in H; now rewrite H).
    rewrite text_round by (auto; rewrite L; lia). unfold enc_text. rewrite <- app_assoc, expect_head by (rewrite ?L; lia).
    rewrite (proj2 (N.ltb_ge 4 _)) by (rewrite L; lia). reflexivity.
  - intros _ s d [H1 H2]. eapply eats_round. intros r. cbn [CborModel.cdec CborModel.cenc]. now apply text_round.
  - intros _ b d [_ H2]. eapply eats_round. intros r. cbn [CborModel.cdec CborModel.cenc]. rewrite <- app_assoc, expect_head by (auto; lia). apply take_app.
  - intros _ [] d _ r. right. now exists tt.
  - intros t IH RT [v|] d H r; cbn [CborModel.cdec CborModel.cenc]; [|right; now exists None].
    pose proof (IH RT v d H r) as E. destruct (dec_simple (cenc t v ++ r)) as [[n r0]|] eqn:D.
    + destruct (is_null n) eqn:NU; [right; exists None; f_equal; f_equal; eapply null_eats; eauto|].
      destruct E as [-> | [w ->]]; eauto.
    + destruct E as [-> | [w ->]]; eauto.
  - intros t IH RT l d [H1 H2] r. cbn [CborModel.cdec CborModel.cenc]. rewrite <- app_assoc, expect_head by (auto; lia).
    destruct d as [|d]; [now left|]. rewrite Nat2N.id. apply eats_rep. eapply Forall_impl; [|exact H1]. intros v O. now apply IH.
  - intros k IHk v IHv [R1 R2] l d [H1 H2] r. cbn [CborModel.cdec CborModel.cenc]. rewrite <- app_assoc, expect_head by (auto; lia).
    destruct d as [|d]; [now left|]. rewrite Nat2N.id. apply (eats_rep _ _ _ (fun p => cenc k (fst p) ++ cenc v (snd p))).
    eapply Forall_impl; [|exact H1]. intros [x y] [X Y]. apply (eats_pair _ _ _ (cdec k d) (cdec v d) pair); [now apply IHk|now apply IHv].
  - intros ts IH [RT L] v d H r. cbn [CborModel.cdec CborModel.cenc]. rewrite <- app_assoc, expect_head by (auto; lia).
    destruct d as [|d]; [now left|]. rewrite N.eqb_refl. now apply IH.
  - intros ts IH [RT L] v d H r. cbn [CborModel.cdec CborModel.cenc]. rewrite <- app_assoc, expect_head by (auto; lia).
    destruct d as [|d]; [now left|]. rewrite N.eqb_refl. now apply IH.
  - intros vs IH [ND RT] v d H r. change (cenc (TEnum vs) v) with (cencv vs v). cbn [CborModel.cdec].
    destruct (IH RT ND v (pred d) H) as (n & pay & b & E & _ & NO & DV). rewrite E.
    assert (X : forall d, eats (cdecv vs d n) b -> match dec_name (enc_text n ++ b ++ r) with Some (n, r) => cdecv vs d n r | None => None end = None \/
                exists v, match dec_name (enc_text n ++ b ++ r) with Some (n, r) => cdecv vs d n r | None => None end = Some (v, r)).
    { intros d' E'. destruct (name_eats n b r NO) as [-> | ->]; [now left|]. apply E'. }
    destruct pay.
    + rewrite <- app_assoc, expect_head by lia. destruct d as [|d]; [now left|]. rewrite <- app_assoc. now apply X.
    + cbn [app]. destruct NO as [NO L].
      assert (X5 : expect 5 ((enc_text n ++ b) ++ r) = None) by (unfold enc_text; rewrite <- !app_assoc; apply expect_other; lia).
      assert (X3 : exists y, expect 3 ((enc_text n ++ b) ++ r) = Some y) by (unfold enc_text; rewrite <- !app_assoc, expect_head by lia; eauto).
      destruct X3 as [y X3]. rewrite X5, X3. destruct d as [|d]; [now left|]. rewrite <- app_assoc. now apply X.
  - intros named _ [] d _ r. right. now exists tt.
  - intros nm t IHt ts IHs named (NO & R1 & R2) [v vs] d [H1 H2]. cbn [fst snd] in *.
    change (cencs named (FCons nm t ts) (v, vs)) with ((if named then enc_text nm else []) ++ cenc t v ++ cencs named ts vs).
    assert (P := eats_pair _ _ _ (cdec t d) (cdecs named ts d) pair _ _ (IHt R1 v d H1) (IHs named R2 vs d H2)). cbn beta in P.
    intros r. rewrite cdecs_cons. destruct named; [|exact (P r)]. rewrite <- app_assoc.
    destruct (name_eats nm (cenc t v ++ cencs true ts vs) r (NO eq_refl)) as [-> | ->]; [now left|]. rewrite str_eqb_refl. apply P.
  - intros _ _ [].
  - intros nm vs IH [NO RT] ND [[]|v] d H; cbn [vnames] in *; inversion ND as [|x y NI ND' EQ]; subst.
    + exists nm, false, []. cbn [CborModel.cencv CborModel.cdecv app]. rewrite app_nil_r. repeat split; try apply NO; [now left|].
      intros r. rewrite str_eqb_refl. right. eauto.
    + destruct (IH RT ND' v d H) as (n & pay & b & E & IN & NO' & DV). exists n, pay, b. cbn [CborModel.cencv CborModel.cdecv].
      split; [exact E|]. split; [now right|]. split; [exact NO'|]. intros r. rewrite str_eqb_neq by (intros ->; contradiction).
      destruct (DV r) as [-> | [w ->]]; eauto.
  - intros nm t IHt vs IH (NO & Rt & RT) ND [x|v] d H; cbn [vnames] in *; inversion ND as [|x' y NI ND' EQ]; subst.
    + exists nm, true, (cenc t x). cbn [CborModel.cencv]. repeat split; try apply NO; [now left|].
      intros r. rewrite cdecv_pay, str_eqb_refl. destruct (IHt Rt x d H r) as [-> | [w ->]]; eauto.
    + destruct (IH RT ND' v d H) as (n & pay & b & E & IN & NO' & DV). exists n, pay, b. cbn [CborModel.cencv].
      split; [exact E|]. split; [now right|]. split; [exact NO'|]. intros r. rewrite cdecv_pay, str_eqb_neq by (intros ->; contradiction).
      destruct (DV r) as [-> | [w ->]]; eauto.
Qed.

(** ** C81 *)
(** CBOR, every type, every value, also those C46 shows not to come back unchanged. *)
Theorem C81_cbor : forall t v p, rust_ty t -> ok t v -> truncated p (cbor_to_bytes widen16 widen32 narrow16 narrow32 t v) ->
  cbor_from_bytes widen16 widen32 narrow32 t p = None.
Proof.
  intros t v p RT O T. unfold cbor_from_bytes. rewrite (cut _ (cdec t 256) p (cenc t v)); auto; [apply cdec_grows_all|].
  now apply ceats_all.
Qed.
(** What follows a value is never looked at: bytes that decode still decode to the same when more follow. *)
Theorem C81_cbor_trailing : forall t p x v, cbor_from_bytes widen16 widen32 narrow32 t p = Some v ->
  cbor_from_bytes widen16 widen32 narrow32 t (p ++ x) = Some v.
Proof.
  intros t p x v H. unfold cbor_from_bytes in *. destruct (cdec t 256 p) as [[w r]|] eqn:D; [|discriminate]. injection H as <-.
  now rewrite (proj1 cdec_grows_all t _ _ _ _ x D).
Qed.
End Cbor.

Theorem C81_postcard : forall t v p, wf t -> ok t v -> truncated p (postcard_to_bytes t v) -> postcard_from_bytes t p = None.
Proof.
  intros t v p W O T. unfold postcard_from_bytes. rewrite (cut _ (pdec t) p (penc t v)); auto; [apply pdec_grows_all|].
  apply (eats_round _ _ _ v). intros r. now apply C45_round_trip_rest.
Qed.
Theorem C81_postcard_trailing : forall t p x v, postcard_from_bytes t p = Some v -> postcard_from_bytes t (p ++ x) = Some v.
Proof.
  intros t p x v H. unfold postcard_from_bytes in *. destruct (pdec t p) as [[w r]|] eqn:D; [|discriminate]. injection H as <-.
  now rewrite (proj1 pdec_grows_all t _ _ _ x D).
Qed.

(** No message of paladin's is the beginning of another of the same type: a stream of them has no second reading. *)
Theorem C81_prefix_free : forall t v w, wf t -> ok t v -> ok t w -> truncated (postcard_to_bytes t v) (postcard_to_bytes t w) -> False.
Proof.
  intros t v w W O1 O2 T. pose proof (C81_postcard t w _ W O2 T) as H. now rewrite (C45_round_trip t v W O1) in H.
Qed.

Lemma safe_rust_all : (forall t, csafe_ true t -> rust_ty t) /\ (forall ts named, csafes_ true named ts -> rust_tys named ts) /\ (forall vs, csafev_ true vs -> rust_vars vs).
Proof.
  assert (NM : forall n, name_ok n -> rust_name n) by (intros n [H L]; split; [exact H|lia]).
  apply schema_ind; cbn [csafe_ csafes_ csafev_ rust_ty rust_tys rust_vars]; try tauto.
  - intros ts IH [S L]. auto.
  - intros ts IH [S L]. auto.
  - intros nm t IHt ts IHs named (NO & S1 & S2). auto.
  - intros nm vs IH [NO S]. auto.
  - intros nm t IHt vs IH (NO & S1 & S2). auto.
Qed.
(** The messages on paladin's channels: a truncated task, result or command is an error for its receiver, in both formats. *)
Theorem C81_messages : forall w16 w32 n16 n32 t v p, In t message_types -> ok t v ->
  (truncated p (postcard_to_bytes t v) -> postcard_from_bytes t p = None) /\
  (truncated p (cbor_to_bytes w16 w32 n16 n32 t v) -> cbor_from_bytes w16 w32 n32 t p = None).
Proof.
  intros w16 w32 n16 n32 t v p I O. destruct (message_types_safe t I) as (W & S & _). split; intros T; [eapply C81_postcard; eauto|].
  eapply C81_cbor; eauto. apply safe_rust_all. now apply (without_f32 (fun _ => True)).
Qed.

(** ** Examples *)
Definition id8 := fun n : N => n.
Example C81_ex_hyps : wf ex_ty /\ rust_ty cex_ty /\ ok cex_ty cex_val.
Proof.
  split; [cbn; lia|]. destruct C46_ex_safe as (S & _ & O). split; [|exact O]. apply safe_rust_all. now apply (without_f32 (fun _ => True)).
Qed.
(** Losing the last byte. *)
Example C81_ex_cut : let b := cbor_to_bytes id8 id8 id8 id8 cex_ty cex_val in
  truncated (firstn 29 b) b /\ cbor_from_bytes id8 id8 id8 cex_ty (firstn 29 b) = None /\ cbor_from_bytes id8 id8 id8 cex_ty b = Some cex_val.
Proof. cbn zeta. split; [exists [172]; split; [discriminate|vm_compute; reflexivity]|]. split; vm_compute; reflexivity. Qed.
(** Every proper beginning of a command. *)
Definition ex_command : den command_ty := inl ([107; 49], tt).
Example C81_ex_command : let b := postcard_to_bytes command_ty ex_command in
  b = [0; 2; 107; 49] /\ map (fun k => postcard_from_bytes command_ty (firstn k b)) (seq 0 5) = [None; None; None; None; Some ex_command].
Proof. cbn zeta. split; vm_compute; reflexivity. Qed.
(** A value of C46's refutation: it does not come back, yet its beginnings are refused. *)
Example C81_ex_nested : rust_ty (TTup (FCons [] (TOpt (TOpt TBool)) (FCons [] TBool FNil))) /\
  let b := cbor_to_bytes id8 id8 id8 id8 (TTup (FCons [] (TOpt (TOpt TBool)) (FCons [] TBool FNil))) (Some None, (true, tt)) in
  map (fun k => cbor_from_bytes id8 id8 id8 (TTup (FCons [] (TOpt (TOpt TBool)) (FCons [] TBool FNil))) (firstn k b)) (seq 0 4) =
  [None; None; None; Some (None, (true, tt))].
Proof. split; [cbn; repeat split; try discriminate; lia|]. vm_compute. reflexivity. Qed.

Print Assumptions C81_cbor.
Print Assumptions C81_cbor_trailing.
Print Assumptions C81_postcard.
Print Assumptions C81_postcard_trailing.
Print Assumptions C81_prefix_free.
Print Assumptions C81_messages.
