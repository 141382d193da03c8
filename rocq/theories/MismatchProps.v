(** C70: leader and workers configured with different serializers (paladin-core/src/config/mod.rs:27-29; the serializer goes to the
    connection, runtime/dynamic_channel.rs:121-145, and encodes every message: queue/amqp.rs:337 and 355, decodes: 519-521; the same in
    queue/in_memory.rs). No message may be taken for another one. The wire formats are those of PostcardModel and CborModel; the
    simplifications of the CBOR decoder do not matter here, since all bytes that reach it below are refused at their first byte. *)
From Coq Require Import String List NArith ZArith Bool Lia Arith.
From Verif Require Import Utf8 Schema PostcardModel PostcardProps CborModel CborProps KeyModel KeyProps.
Import ListNotations.
Open Scope N_scope.

(** The routing keys of tasks and commands are issued by the crate and are short (KeyModel, [issued_short] below). *)
Definition short (s : list N) : Prop := N.of_nat (List.length (utf8_enc s)) < 128.
Definition key_short (t : ty) : den t -> Prop :=
  match t return den t -> Prop with
  | TStruct (FCons _ TStr _) => fun v => short (fst v)
  | _ => fun _ => True
  end.

Lemma issued_short : forall draws k rest, get_random_routing_key draws = Some (k, rest) -> short (nm k).
Proof.
  intros draws k rest H. apply C50_identifier_shape in H. destruct H as [L _]. unfold short.
  assert (G : forall l, (List.length (utf8_enc l) <= 4 * List.length l)%nat).
  { induction l as [|c l IH]; [cbn; lia|]. cbn [utf8_enc flat_map]. rewrite app_length. fold (utf8_enc l). pose proof (enc_char_length c). cbn [List.length]. lia. }
  assert (M : List.length (nm k) = String.length k) by (unfold nm; rewrite map_length; clear; induction k; cbn; auto).
  specialize (G (nm k)). lia.
Qed.

Lemma low_head : forall b r mj, b < 128 -> 3 < mj -> expect mj (b :: r) = None.
Proof.
  intros b r mj B M. unfold expect, dec_head. assert (D : b / 32 <= 3) by (apply N.lt_succ_r, N.div_lt_upper_bound; lia).
  assert (X : (b / 32 =? mj) = false) by (apply N.eqb_neq; lia).
  destruct (b mod 32 <? 24); [now rewrite X|]. destruct (b mod 32 <? 28); [|reflexivity]. destruct (take _ r) as [[x r']|]; [now rewrite X|reflexivity].
Qed.
Lemma zero_head : forall b r mj, b < 2 -> 0 < mj -> expect mj (b :: r) = None.
Proof.
  intros b r mj B M. unfold expect, dec_head. assert (D : b / 32 = 0) by (apply N.div_small; lia). rewrite D.
  assert (X : (0 =? mj) = false) by (apply N.eqb_neq; lia).
  destruct (b mod 32 <? 24); [now rewrite X|]. destruct (b mod 32 <? 28); [|reflexivity]. destruct (take _ r) as [[x r']|]; [now rewrite X|reflexivity].
Qed.

Section Mismatch.
Variables w16 w32 n16 n32 : N -> N.

(** A worker that reads CBOR refuses what a leader writes in Postcard, and the other way round for results and commands. *)
Theorem C70_postcard_as_cbor : forall t v, In t message_types -> key_short t v -> cbor_from_bytes w16 w32 n32 t (postcard_to_bytes t v) = None.
Proof.
  intros t v [<-|[<-|[<-|[]]]] K; unfold cbor_from_bytes, postcard_to_bytes.
  - cbn in K. destruct v as [key rest]. cbn [fst] in K. unfold any_task_ty.
    assert (E : exists r, penc any_task_ty (key, rest) = N.of_nat (List.length (utf8_enc key)) :: r).
    { unfold any_task_ty. cbn [penc pencs fst]. unfold enc_blob, enc_len, varint. change (varint_max 64) with 10%nat. cbn [venc].
      apply N.ltb_lt in K. rewrite K. eexists. reflexivity. }
    destruct E as (r & E). unfold any_task_ty in E. rewrite E. cbn [cdec]. now rewrite low_head.
  - assert (E : exists b r, b < 2 /\ penc any_task_result_ty v = b :: r).
    { destruct v as [v|[v|[]]]; [exists 0|exists 1]; eexists; (split; [lia|]); reflexivity. }
    destruct E as (b & r & B & E). rewrite E. unfold any_task_result_ty. cbn [cdec]. now rewrite !zero_head.
  - assert (E : exists r, penc command_ty v = 0 :: r). { destruct v as [v|[]]. eexists. reflexivity. }
    destruct E as (r & E). rewrite E. unfold command_ty. cbn [cdec]. now rewrite !zero_head.
Qed.

Theorem C70_result_as_postcard : forall t v, t = any_task_result_ty \/ t = command_ty -> postcard_from_bytes t (cbor_to_bytes w16 w32 n16 n32 t v) = None.
Proof.
  intros t v [-> | ->].
  - assert (E : exists b r, (b = 0x62 \/ b = 0x63) /\ cbor_to_bytes w16 w32 n16 n32 any_task_result_ty v = 0xA1 :: b :: r).
    { destruct v as [v|[v|[]]]; [exists 0x62|exists 0x63]; eexists; (split; [auto|]); reflexivity. }
    destruct E as (b & r & [-> | ->] & ->); reflexivity.
  - assert (E : exists r, cbor_to_bytes w16 w32 n16 n32 command_ty v = 0xA1 :: 0x65 :: r). { destruct v as [v|[]]. eexists. reflexivity. }
    destruct E as (r & ->). reflexivity.
Qed.

(** Tasks: a worker that reads Postcard takes the first two bytes of CBOR for the length 13734 of the routing key, and so refuses what is shorter.
    Missing to the full statement: longer tasks, for which it is false. *)
Theorem C70_task_as_postcard_partial : forall v, N.of_nat (List.length (cbor_to_bytes w16 w32 n16 n32 any_task_ty v)) < 13736 ->
  postcard_from_bytes any_task_ty (cbor_to_bytes w16 w32 n16 n32 any_task_ty v) = None.
Proof.
  intros v L. assert (E : exists r, cbor_to_bytes w16 w32 n16 n32 any_task_ty v = 0xA6 :: 0x6B :: r) by (eexists; reflexivity).
  destruct E as (r & E). rewrite E in *. unfold postcard_from_bytes, any_task_ty. cbn [pdec pdecs]. unfold dec_blob.
  change (unvarint 64 (0xA6 :: 0x6B :: r)) with (Some (13734, r)). unfold take.
  assert (X : (N.of_nat (List.length r) <? 13734) = true) by (apply N.ltb_lt; cbn [length] in L; lia). now rewrite X.
Qed.
End Mismatch.

(** Without the bound it is false, even for a plain input: a task of operation 5 with 14080 zero bytes as input is taken for a task of
    operation 0 with an empty operation and input, to be answered on a channel named by the first bytes of the message. *)
Definition with_input (inp : list N) : den any_task_ty := (nm "7b1d"%string, ([], ([1; 2; 3], (5, (inp, (inl tt, tt)))))).
Definition zeros : den any_task_ty := with_input (repeat 0 (N.to_nat 14080)).
Definition misread (v : option (den any_task_ty)) : bool :=
  match v with
  | Some (key, (md, (op, (id, (inp, (inl tt, tt)))))) => (N.of_nat (List.length key) =? 13734) && (match md, op, inp with [], [], [] => true | _, _, _ => false end) && (id =? 0)
  | _ => false
  end.
Lemma with_input_ok : forall inp, ok TBytes inp -> ok any_task_ty (with_input inp).
Proof.
  intros inp I. unfold any_task_ty, with_input. cbn [ok oks fst snd]. unfold serializer_ty. cbn.
  split; [split; [reflexivity|vm_compute; reflexivity]|]. split; [split; [constructor|vm_compute; reflexivity]|].
  split; [split; [repeat constructor|vm_compute; reflexivity]|]. split; [reflexivity|]. auto.
Qed.
Lemma zeros_ok : ok any_task_ty zeros.
Proof.
  apply with_input_ok. split.
  - apply Forall_forall. intros x X. apply repeat_spec in X. subst x. reflexivity.
  - unfold len_ok. rewrite repeat_length, N2Nat.id. reflexivity.
Qed.
Theorem C70_refuted : forall w16 w32 n16 n32, exists v v', ok any_task_ty v /\ key_short any_task_ty v /\
  postcard_from_bytes any_task_ty (cbor_to_bytes w16 w32 n16 n32 any_task_ty v) = Some v' /\ v' <> v /\ fst (snd (snd (snd v'))) <> fst (snd (snd (snd v))).
Proof.
  intros w16 w32 n16 n32. exists zeros.
  assert (M : misread (postcard_from_bytes any_task_ty (cbor_to_bytes w16 w32 n16 n32 any_task_ty zeros)) = true) by (vm_compute; reflexivity).
  destruct (postcard_from_bytes any_task_ty (cbor_to_bytes w16 w32 n16 n32 any_task_ty zeros)) as [v'|] eqn:E; [|discriminate]. exists v'. clear E.
  split; [exact zeros_ok|]. split; [reflexivity|]. split; [reflexivity|].
  assert (X : fst (snd (snd (snd v'))) = 0).
  { destruct v' as (key & md & op & id & inp & [[]|z] & []); [|discriminate]. unfold misread in M. apply andb_true_iff in M. destruct M as [_ M]. now apply N.eqb_eq in M. }
  split; [|rewrite X; discriminate]. intros ->. discriminate.
Qed.

Example C70_example : key_short any_task_ty zeros /\ cbor_from_bytes (fun x => x) (fun x => x) (fun x => x) any_task_ty (postcard_to_bytes any_task_ty zeros) = None /\
  postcard_from_bytes any_task_ty (cbor_to_bytes (fun x => x) (fun x => x) (fun x => x) (fun x => x) any_task_ty (nm "7b1d"%string, ([], ([1; 2; 3], (5, ([0; 0], (inl tt, tt))))))) = None.
Proof. split; [reflexivity|]. split; vm_compute; reflexivity. Qed.

Print Assumptions C70_postcard_as_cbor.
Print Assumptions C70_result_as_postcard.
Print Assumptions C70_task_as_postcard_partial.
Print Assumptions C70_refuted.
