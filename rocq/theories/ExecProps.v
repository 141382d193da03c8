(** C32: executing a task is total. *)
From Coq Require Import List NArith Bool Lia Arith.
From Verif Require Import Base RetryModel RetrySpec RetryProps ExecModel.
Import ListNotations.
Open Scope nat_scope.

Section Props.
Context {Ser Bs : Type}.
Variable operations : list (operation Ser Bs).

(** The codecs of the operation return, with a value or an error, on this task. *)
Definition decodes_calmly (o : operation Ser Bs) (t : any_task Ser Bs) : Prop :=
  dec_op o (t_ser t) (t_op t) <> BPanic /\ dec_input o (t_ser t) (t_input t) <> BPanic.

(** What the first execution leads to. *)
Definition first_error (o : operation Ser Bs) (t : any_task Ser Bs) (e : oerr) : Prop :=
  exists op i, dec_op o (t_ser t) (t_op t) = BOk op /\ dec_input o (t_ser t) (t_input t) = BOk i /\ execute o 0 op i = BErr e.

Lemma calm : forall o t k, decodes_calmly o t -> exists r b, get_result o t k = Some (r, b).
Proof.
  intros o t k [D1 D2]. unfold get_result. destruct (dec_op o (t_ser t) (t_op t)); [|eauto|tauto].
  destruct (dec_input o (t_ser t) (t_input t)); [|eauto|tauto].
  destruct (execute o k a a0); eauto. destruct (enc_output o (t_ser t) a1); eauto.
Qed.

(** ** C32 *)
(** Whatever [execute] does at each attempt, and whether the payload can be decoded or not: if execution ends, it ends with an
    output or a fatal error. *)
Theorem C32_no_panic : forall fuel pauses t o r n,
  nth_error operations (t_id t) = Some o -> decodes_calmly o t ->
  (forall x rs s, first_error o t (Transient x rs s) -> strategy_ok rs) ->
  remote_execute operations fuel pauses t = Some (r, n) ->
  (exists out, r = XOut out) \/ (exists x s, r = XFail (Fatal x s)).
Proof using.
  intros fuel pauses t o r n R C OK H. unfold remote_execute in H. rewrite R in H. unfold executor in H.
  destruct (calm o t 0 C) as (r0 & b & G). rewrite G in H. destruct r0 as [v|e].
  - injection H as <- <-. left. eauto.
  - destruct (retry_internal fuel e (fun k => outcome o t (S k)) pauses true) as [[[v|e'] l]|] eqn:X; [| |discriminate]; injection H as <- <-.
    + left; eauto.
    + right. assert (SO : forall x rs s, e = Transient x rs s -> strategy_ok rs); [|destruct (C30_never_transient _ _ _ _ _ _ _ _ _ SO X) as (x & -> & _); eauto].
      intros x rs s ->. apply (OK x rs s). unfold get_result in G.
      destruct (dec_op o (t_ser t) (t_op t)) as [op| |] eqn:D1; try discriminate.
      destruct (dec_input o (t_ser t) (t_input t)) as [i| |] eqn:D2; try discriminate.
      destruct (execute o 0 op i) as [v|e0|] eqn:E; try discriminate.
      * destruct (enc_output o (t_ser t) v); discriminate.
      * injection G as <- <-. exists op, i. auto.
Qed.

(** Execution ends when the first error is fatal or asks for a counted number of retries, after at most [max_retries + 2] calls. *)
Theorem C32_ends : forall pauses t o max,
  nth_error operations (t_id t) = Some o -> decodes_calmly o t ->
  (forall e, first_error o t e -> (exists x s, e = Fatal x s) \/
     exists x rs s m d, e = Transient x rs s /\ strategy_ok rs /\ strategy_max rs = Some (m, d) /\ m <= max) ->
  exists r n, remote_execute operations max pauses t = Some (r, n) /\ n <= max + 2.
Proof using.
  intros pauses t o max R C F. unfold remote_execute. rewrite R. unfold executor.
  destruct (calm o t 0 C) as (r0 & b & G). rewrite G. destruct r0 as [v|e]; [eexists; exists 1; split; [reflexivity|lia]|].
  assert (E : (exists x s, e = Fatal x s) \/ exists x rs s m d, e = Transient x rs s /\ strategy_ok rs /\ strategy_max rs = Some (m, d) /\ m <= max).
  { unfold get_result in G. destruct (dec_op o (t_ser t) (t_op t)) as [op| |] eqn:D1; try discriminate; [|injection G as <- <-; left; eexists; eexists; reflexivity].
    destruct (dec_input o (t_ser t) (t_input t)) as [i| |] eqn:D2; try discriminate; [|injection G as <- <-; left; eexists; eexists; reflexivity].
    destruct (execute o 0 op i) as [v|e0|] eqn:X; try discriminate.
    - destruct (enc_output o (t_ser t) v); try discriminate; injection G as <- <-; left; eexists; eexists; reflexivity.
    - injection G as <- <-. apply F. exists op, i. auto.
    - injection G as <- <-; left; eexists; eexists; reflexivity. }
  destruct E as [(x & s & ->)|(x & rs & s & m & d & -> & OK & SM & LE)].
  - cbn. eexists; exists 1; split; [reflexivity|lia].
  - cbn [retry_internal]. destruct (C29_retry _ _ (fun k => outcome o t (S k)) true rs pauses m d max OK SM LE) as (k & K & _ & _ & E).
    rewrite E. fold (@calls (op_error xerr)). 
    pose proof (doings_calls (fun k => outcome o t (S k)) true (fun _ => d) k) as DC. unfold calls in DC.
    destruct (outcome o t (S k)); rewrite DC; eexists; exists (S (S k)); (split; [reflexivity|lia]).
Qed.

(** A panic of the first execution is reported with Terminate and not retried. *)
Theorem C32_panic_reported : forall fuel pauses t o op i,
  nth_error operations (t_id t) = Some o -> dec_op o (t_ser t) (t_op t) = BOk op -> dec_input o (t_ser t) (t_input t) = BOk i ->
  execute o 0 op i = BPanic ->
  remote_execute operations fuel pauses t = Some (XFail (Fatal XPanicked FsTerminate), 1).
Proof using. intros fuel pauses t o op i R D1 D2 E. unfold remote_execute. rewrite R. unfold executor, get_result. rewrite D1, D2, E. reflexivity. Qed.

(** The user's code runs exactly when the operation and its input can be decoded, whatever it then does. *)
Theorem C32_executes_iff : forall (o : operation Ser Bs) (t : any_task Ser Bs) k r b, get_result o t k = Some (r, b) ->
  (b = true <-> exists op i, dec_op o (t_ser t) (t_op t) = BOk op /\ dec_input o (t_ser t) (t_input t) = BOk i).
Proof using.
  intros o t k r b H. unfold get_result in H. destruct (dec_op o (t_ser t) (t_op t)) as [op|u|]; [|injection H as <- <-; split; [discriminate | intros (? & ? & ? & _); discriminate] | discriminate].
  destruct (dec_input o (t_ser t) (t_input t)) as [i|u|]; [|injection H as <- <-; split; [discriminate | intros (? & ? & _ & ?); discriminate] | discriminate].
  split; [eauto|]. intros _. destruct (execute o k op i) as [v|e|]; [|now injection H as <- <- | now injection H as <- <-]. destruct (enc_output o (t_ser t) v); now injection H as <- <-.
Qed.

(** An undecodable payload is a fatal error, and nothing is executed: the first call ends it, without reaching [execute]. *)
Theorem C32_undecodable : forall fuel pauses t o,
  nth_error operations (t_id t) = Some o -> decodes_calmly o t ->
  (exists u, dec_op o (t_ser t) (t_op t) = BErr u) \/ (exists u, dec_input o (t_ser t) (t_input t) = BErr u) ->
  remote_execute operations fuel pauses t = Some (XFail (Fatal XCodec FsTerminate), 1) /\ get_result o t 0 = Some (RErr (Fatal XCodec FsTerminate), false).
Proof using.
  intros fuel pauses t o R [C1 C2] H.
  assert (G : get_result o t 0 = Some (RErr (Fatal XCodec FsTerminate), false)).
  { unfold get_result. destruct (dec_op o (t_ser t) (t_op t)) as [op|u|] eqn:D1; [|reflexivity|tauto].
    destruct H as [(u & H)|(u & H)]; [discriminate|]. now rewrite H. }
  split; [|exact G]. unfold remote_execute. rewrite R. unfold executor. rewrite G. reflexivity.
Qed.
End Props.

(** The limits of C32. A panic met by a retry is reported with the strategy of the first error, here Ignore, and is followed by
    more retries; a panicking [Deserialize] takes the executor down. *)
Definition flaky (b : nat -> beh oerr nat) : operation unit nat :=
  mkOp unit nat nat (fun _ _ => BOk tt) (fun _ n => BOk n) (fun k _ _ => b k) (fun _ n => BOk n).
Definition ex_task : any_task unit nat := mkTask 7 100 0 0 5 tt.

Theorem C32_panic_in_retry_ignored : exists b,
  (forall k, k > 0 -> b k = BPanic) /\
  remote_execute [flaky b] 3 (fun _ => None) ex_task = Some (XFail (Fatal XPanicked FsIgnore), 5).
Proof.
  exists (fun k => match k with 0 => BErr (Transient (XUser 1) default_retry FsIgnore) | _ => BPanic end).
  split; [intros [|k] H; [lia|reflexivity]|vm_compute; reflexivity].
Qed.

Theorem C32_deserialize_panic : exists o,
  remote_execute [o] 3 (fun _ => None) ex_task = Some (XPanics, 1).
Proof. exists (mkOp unit nat nat (fun _ _ => BPanic) (fun _ n => BOk n) (fun _ _ n => BOk n) (fun _ n => BOk n)). reflexivity. Qed.

(** An identifier that no operation of this program has: the index panics before anything is executed. This is the only way to end
    without executing. *)
Theorem C32_unknown_id_panics : forall (Ser Bs : Type) (operations : list (operation Ser Bs)) fuel pauses t,
  length operations <= t_id t <-> remote_execute operations fuel pauses t = Some (XPanics, 0).
Proof.
  intros. unfold remote_execute. rewrite <- nth_error_None. split; [now intros ->|]. destruct (nth_error operations (t_id t)) as [o|]; [|reflexivity].
  intros H. exfalso. unfold executor in H. destruct (get_result o t 0) as [[[v|e] b]|]; try discriminate.
  destruct (retry_internal _ _ _ _ _) as [[[v|e'] l]|]; discriminate.
Qed.
Example C32_unknown_ex : remote_execute [flaky (fun _ => BOk 42)] 3 (fun _ => None) (mkTask 0 100 0 1 5 tt) = Some (XPanics, 0).
Proof. vm_compute; reflexivity. Qed.

(** ** Examples *)
Example C32_ex_retry : remote_execute [flaky (fun k => if k <? 2 then BErr (Transient (XUser k) default_retry FsTerminate) else BOk 42)] 3 (fun _ => None) ex_task
  = Some (XOut (mkOut 100 42 tt), 3).
Proof. vm_compute; reflexivity. Qed.
Example C32_ex_hyps : nth_error [flaky (fun _ => BPanic)] (t_id ex_task) = Some (flaky (fun _ => BPanic)) /\
  decodes_calmly (flaky (fun _ => BPanic)) ex_task /\ remote_execute [flaky (fun _ => BPanic)] 0 (fun _ => None) ex_task = Some (XFail (Fatal XPanicked FsTerminate), 1).
Proof. split; [reflexivity|]. split; [split; discriminate|vm_compute; reflexivity]. Qed.
Example C32_ex_exhausted : remote_execute [flaky (fun k => BErr (Transient (XUser k) (RsImmediate 2) FsTerminate))] 2 (fun _ => None) ex_task
  = Some (XFail (Fatal (XUser 3) FsTerminate), 4).
Proof. vm_compute; reflexivity. Qed.

Print Assumptions C32_no_panic.
Print Assumptions C32_ends.
Print Assumptions C32_panic_reported.
Print Assumptions C32_undecodable.
Print Assumptions C32_executes_iff.
Print Assumptions C32_unknown_id_panics.
