(** C25, continued: which consumer handles there are. *)
From Coq Require Import List Arith Lia Bool.
From Verif Require Import Base BaseFacts BroadcastModel BroadcastSpec BroadcastProofs.
Import ListNotations.
Open Scope nat_scope.

(** A declaration of the name that has returned; a drop of a handle of the name. *)
Definition handed (n : nat) (d : bdecl) : bool := match d with DDone m _ => Nat.eqb m n | _ => false end.
Definition drops (n : nat) (e : b_event) : bool := match e with EvBDrop m => Nat.eqb m n | _ => false end.

Section Handles.
Variable shards : nat.
Variable shard : nat -> nat.
Lemma drop_one_cnt : forall n m l, In m l -> cnt (fun x => Nat.eqb x n) (drop_one m l) + b2n (Nat.eqb m n) = cnt (fun x => Nat.eqb x n) l.
Proof.
  intros n m l. induction l as [|x l IH]; intros H; [easy|]. cbn [drop_one]. destruct (Nat.eqb_spec x m) as [->|D].
  - rewrite cnt_cons. lia.
  - destruct H as [H|H]; [congruence|]. rewrite !cnt_cons. specialize (IH H). lia.
Qed.
(** Every declaration that returned gave a handle, and each is there until it is dropped. *)
Theorem C25_handles : forall persistent tr s n, b_run shards shard persistent tr = Some s ->
  cnt (fun x => Nat.eqb x n) (b_live s) + cnt (drops n) tr = cnt (handed n) (b_decls s).
Proof.
  intros persistent tr. induction tr as [|e tr IH] using rev_ind; intros s n R; [injection R as <-; reflexivity|].
  apply run_from_app in R. destruct R as (u & R1 & R2). cbn in R2. destruct (b_step shards shard u e) as [v|] eqn:E; [|discriminate]. injection R2 as <-.
  specialize (IH u n R1). rewrite cnt_app, cnt_one. destruct e as [|i|i m|m|j|m]; cbn [b_step] in E; cbn [drops b2n].
  - injection E as <-. cbn [b_live b_decls]. lia.
  - destruct (nth_error (b_pubs u) i) as [p|]; [|discriminate]. unfold pub_step_b in E.
    repeat match type of E with match ?x with _ => _ end = Some _ => destruct x; try discriminate E end; injection E as <-; cbn [b_live b_decls set_bpub]; lia.
  - destruct (nth_error (b_pubs u) i) as [[ | | |id [|j] vis|]|]; try discriminate. destruct (_ && _); [|discriminate]. injection E as <-. cbn [b_live b_decls]. lia.
  - injection E as <-. cbn [b_live b_decls]. rewrite cnt_app, cnt_one. cbn. lia.
  - destruct (nth_error (b_decls u) j) as [d|] eqn:D; [|discriminate].
    assert (U : forall d', cnt (handed n) (upd j d' (b_decls u)) + b2n (handed n d) = cnt (handed n) (b_decls u) + b2n (handed n d')) by (intros d'; pose proof (cnt_upd _ (handed n) j (b_decls u) d d' D); lia).
    destruct d as [m|m|m got|m got|m f]; cbn [decl_step_b] in E; cbn [handed b2n] in U.
    + destruct (_ || _); [discriminate|]. destruct (mem m _); injection E as <-; cbn [b_live b_decls set_bdecl]; rewrite ?cnt_cons.
      * specialize (U (DDone m false)). cbn [handed] in U. lia.
      * specialize (U (DLocked m)). cbn in U. lia.
    + destruct (_ && _); injection E as <-; cbn [b_live b_decls set_bdecl]; [specialize (U (DDrain m []))|specialize (U (DIns m []))]; cbn in U; lia.
    + destruct (b_hist u) as [|id h]; injection E as <-; cbn [b_live b_decls set_bdecl]; [specialize (U (DIns m got))|specialize (U (DDrain m (if mem id got then got else got ++ [id])))]; cbn in U; lia.
    + injection E as <-. cbn [b_live b_decls]. rewrite cnt_cons. specialize (U (DDone m true)). cbn [handed] in U. lia.
    + discriminate.
  - destruct (mem m (b_live u)) eqn:M; [|discriminate]. injection E as <-. cbn [b_live b_decls]. pose proof (drop_one_cnt n m (b_live u)) as P.
    unfold mem in M. apply existsb_exists in M. destruct M as (x & I & X). apply Nat.eqb_eq in X. subst x. specialize (P I). lia.
Qed.
End Handles.
(** Two declarations of one name and one of another, a message between, a drop. *)
Example C25_handles_ex : exists s, b_run 1 (fun _ => 0) true
    [EvBDeclare 7; EvBDeclStep 0; EvBDeclStep 0; EvBDeclStep 0; EvBPublish; EvBPubStep 0; EvBDeclare 7; EvBDeclStep 1; EvBDeclare 8; EvBDeclStep 2; EvBDeclStep 2; EvBDeclStep 2; EvBDrop 7] = Some s /\
  b_live s = [8; 7] /\ b_decls s = [DDone 7 true; DDone 7 false; DDone 8 true].
Proof. eexists. split; [vm_compute; reflexivity|]. split; reflexivity. Qed.
Print Assumptions C25_handles.
