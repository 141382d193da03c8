(** Both serializers write bytes: numbers below 256. *)
From Coq Require Import List NArith ZArith Lia Bool.
From Verif Require Import Utf8 Schema PostcardModel CborModel CborProps.
Import ListNotations.
Open Scope N_scope.

Notation bytes := (Forall (fun x : N => x < 256)).
Lemma mod_lt : forall a b, 0 < b -> a mod b < b. Proof. intros a b H. apply N.mod_lt. lia. Qed.
Lemma venc_bytes : forall k n, bytes (venc k n).
Proof.
  induction k as [|k IH]; intros n; [constructor|]. cbn [venc]. destruct (N.ltb_spec n 128).
  - repeat constructor. lia.
  - constructor; [|apply IH]. pose proof (mod_lt n 128 ltac:(lia)). lia.
Qed.
Lemma varint_bytes : forall b n, bytes (varint b n). Proof. intros. apply venc_bytes. Qed.
Lemma le_bytes : forall k n, bytes (le_enc k n).
Proof. induction k as [|k IH]; intros n; cbn; constructor; [apply mod_lt; lia|apply IH]. Qed.
Lemma be_bytes : forall k n, bytes (be_enc k n). Proof. intros. apply Forall_rev, le_bytes. Qed.
Lemma char_bytes : forall c, is_scalar c = true -> bytes (enc_char c).
Proof.
  intros c H. assert (L : c < 0x110000) by (unfold is_scalar in H; apply orb_true_iff in H; destruct H as [H|H]; [apply N.ltb_lt in H; lia|apply andb_true_iff in H; destruct H as [_ H]; apply N.ltb_lt in H; lia]).
  unfold enc_char. assert (M : forall x, 0x80 + x mod 64 < 256) by (intros x; pose proof (mod_lt x 64 ltac:(lia)); lia).
  destruct (N.ltb_spec c 0x80); [repeat constructor; lia|]. destruct (N.ltb_spec c 0x800); [|destruct (N.ltb_spec c 0x10000)]; repeat constructor; auto.
  - assert (c / 64 < 32) by (apply N.div_lt_upper_bound; lia). lia.
  - assert (c / 4096 < 16) by (apply N.div_lt_upper_bound; lia). lia.
  - assert (c / 262144 < 5) by (apply N.div_lt_upper_bound; lia). lia.
Qed.
Lemma utf8_bytes : forall s, forallb is_scalar s = true -> bytes (utf8_enc s).
Proof.
  induction s as [|c s IH]; intros H; [constructor|]. cbn in H. apply andb_true_iff in H. destruct H as [H1 H2]. cbn [utf8_enc flat_map]. apply Forall_app. split; [now apply char_bytes|now apply IH].
Qed.
Lemma flat_bytes : forall (A : Type) (f : A -> list N) l, Forall (fun x => bytes (f x)) l -> bytes (flat_map f l).
Proof. intros A f l H. induction H; cbn; [constructor|apply Forall_app; auto]. Qed.
Lemma blob_bytes : forall b, bytes b -> bytes (enc_blob b). Proof. intros b H. apply Forall_app. split; [apply varint_bytes|exact H]. Qed.

Lemma penc_all_bytes :
  (forall t v, ok t v -> bytes (penc t v)) /\ (forall ts v, oks ts v -> bytes (pencs ts v)) /\ (forall vs v i, okv vs v -> bytes (pencv vs i v)).
Proof.
  apply schema_ind.
  - intros [] _; repeat constructor.
  - intros w v H. cbn [penc]. unfold enc_uint. destruct w; try apply varint_bytes. constructor; [exact H|constructor].
  - intros w v H. cbn [penc]. unfold enc_int. destruct w; try apply varint_bytes. constructor; [|constructor].
    pose proof (Z.mod_pos_bound v 256 ltac:(lia)). lia.
  - intros w v H. apply le_bytes.
  - intros c H. now apply blob_bytes, char_bytes.
  - intros s [H _]. now apply blob_bytes, utf8_bytes.
  - intros b [H _]. now apply blob_bytes.
  - intros v _. constructor.
  - intros t IH [v|] H; [|repeat constructor]. constructor; [lia|now apply IH].
  - intros t IH l [H _]. cbn [penc]. apply Forall_app. split; [apply varint_bytes|]. apply flat_bytes. eapply Forall_impl; [|exact H]. intros a Ha. now apply IH.
  - intros k IHk v IHv l [H _]. cbn [penc]. apply Forall_app. split; [apply varint_bytes|]. apply flat_bytes. eapply Forall_impl; [|exact H]. intros [x y] [Hx Hy]. apply Forall_app. split; [now apply IHk|now apply IHv].
  - intros ts IH v H. now apply IH.
  - intros ts IH v H. now apply IH.
  - intros vs IH v H. now apply IH.
  - intros v _. constructor.
  - intros n t IHt ts IHs [x y] [H1 H2]. cbn [pencs]. apply Forall_app. split; [now apply IHt|now apply IHs].
  - intros [].
  - intros n vs IH [u|v] i H; cbn [pencv]; [apply varint_bytes|now apply IH].
  - intros n t IHt vs IH [x|v] i H; cbn [pencv]; [apply Forall_app; split; [apply varint_bytes|now apply IHt]|now apply IH].
Qed.

Lemma head_bytes : forall mj n, mj < 8 -> bytes (head mj n).
Proof.
  intros mj n H. unfold head. destruct (N.ltb_spec n 24); [repeat constructor; lia|].
  destruct (n <? 2 ^ 8); [|destruct (n <? 2 ^ 16); [|destruct (n <? 2 ^ 32)]]; (constructor; [lia|apply be_bytes]).
Qed.
Lemma text_bytes : forall s, forallb is_scalar s = true -> bytes (enc_text s).
Proof. intros s H. unfold enc_text. apply Forall_app. split; [apply head_bytes; lia|now apply utf8_bytes]. Qed.
Lemma strip_bytes : forall l, bytes l -> bytes (strip0 l).
Proof. intros l H. induction H as [|x l Hx Hl IH]; cbn; [constructor|]. destruct (x =? 0); [exact IH|now constructor]. Qed.
Lemma integer_bytes : forall neg raw, bytes (enc_integer neg raw).
Proof.
  intros neg raw. unfold enc_integer. destruct (raw <? 2 ^ 64); [apply head_bytes; destruct neg; lia|]. constructor; [destruct neg; lia|].
  apply Forall_app. split; [apply head_bytes; lia|apply strip_bytes, be_bytes].
Qed.
Section Cbor.
Variables widen16 widen32 narrow16 narrow32 : N -> N.
Lemma f64_bytes : forall x, bytes (enc_f64 widen16 widen32 narrow16 narrow32 x).
Proof.
  intros x. unfold enc_f64. destruct (_ =? x); [constructor; [lia|apply be_bytes]|]. destruct (_ =? x); constructor; try lia; apply be_bytes.
Qed.
Lemma cenc_all_bytes :
  (forall t, csafe_ true t -> forall v, ok t v -> bytes (cenc widen16 widen32 narrow16 narrow32 t v)) /\
  (forall ts named, csafes_ true named ts -> forall v, oks ts v -> bytes (cencs widen16 widen32 narrow16 narrow32 named ts v)) /\
  (forall vs, csafev_ true vs -> forall v, okv vs v -> bytes (cencv widen16 widen32 narrow16 narrow32 vs v)).
Proof.
  apply schema_ind; cbn [csafe_ csafes_ csafev_].
  - intros _ [] _; repeat constructor.
  - intros w _ v H. apply integer_bytes.
  - intros w _ v H. cbn [cenc]. unfold cenc_int. destruct (v <? 0)%Z; apply integer_bytes.
  - intros w _ v H. cbn [cenc]. destruct w; apply f64_bytes.
  - intros _ c H. cbn [cenc]. apply text_bytes. cbn. cbn in H. now rewrite H.
  - intros _ s [H _]. now apply text_bytes.
  - intros _ b [H _]. cbn [cenc]. apply Forall_app. split; [apply head_bytes; lia|exact H].
  - intros _ v _. repeat constructor.
  - intros t IH [_ S] [v|] H; [|repeat constructor]. now apply IH.
  - intros t IH S l [H _]. cbn [cenc]. apply Forall_app. split; [apply head_bytes; lia|]. apply flat_bytes. eapply Forall_impl; [|exact H]. intros a Ha. now apply IH.
  - intros k IHk v IHv [S1 S2] l [H _]. cbn [cenc]. apply Forall_app. split; [apply head_bytes; lia|]. apply flat_bytes. eapply Forall_impl; [|exact H]. intros [x y] [Hx Hy].
    apply Forall_app. split; [now apply IHk|now apply IHv].
  - intros ts IH [S _] v H. cbn [cenc]. apply Forall_app. split; [apply head_bytes; lia|now apply IH].
  - intros ts IH [S _] v H. cbn [cenc]. apply Forall_app. split; [apply head_bytes; lia|now apply IH].
  - intros vs IH [_ S] v H. now apply IH.
  - intros named _ v _. constructor.
  - intros n t IHt ts IHs named (NO & S1 & S2) [x y] [H1 H2]. cbn [cencs]. apply Forall_app. split; [destruct named; [apply text_bytes; now destruct (NO eq_refl)|constructor]|].
    apply Forall_app. split; [now apply IHt|now apply IHs].
  - intros _ [].
  - intros n vs IH [NO S] [u|v] H; cbn [cencv]; [apply text_bytes; now destruct NO|now apply IH].
  - intros n t IHt vs IH (NO & S1 & S2) [x|v] H; cbn [cencv]; [|now apply IH]. apply Forall_app. split; [apply head_bytes; lia|].
    apply Forall_app. split; [apply text_bytes; now destruct NO|now apply IHt].
Qed.
End Cbor.
