(** C29 to C31: retrying. *)
From Coq Require Import List NArith Lia Bool Arith.
From Verif Require Import Base RetryModel RetrySpec.
Import ListNotations.
Open Scope nat_scope.

Section Facts.
Context {E A : Type}.
Variable f : nat -> res E A.
Variable tracer : bool.

Lemma between_trace : forall pause j e, f j = RErr e -> between f tracer pause j = trace_if tracer e ++ ropt (pause j) ASleep.
Proof. intros pause j e H. unfold between. rewrite H. destruct tracer, (pause j); reflexivity. Qed.

Lemma between_ext : forall p q j, p j = q j -> between f tracer p j = between f tracer q j.
Proof. intros p q j H. unfold between. now rewrite H. Qed.
Lemma doings_ext : forall p q k, (forall j, j < k -> p j = q j) -> doings f tracer p k = doings f tracer q k.
Proof.
  intros p q k. induction k as [|k IH]; intros H; [reflexivity|]. cbn. rewrite IH by (intros; apply H; lia).
  rewrite (between_ext p q k) by (apply H; lia). reflexivity.
Qed.

Lemma calls_app : forall (l m : list (ract E)), calls (l ++ m) = calls l + calls m.
Proof. intros. unfold calls. now rewrite filter_app, app_length. Qed.
Lemma calls_between : forall p j, calls (between f tracer p j) = 0.
Proof. intros p j. unfold between. destruct (f j), tracer, (p j); reflexivity. Qed.
Lemma doings_calls : forall p k, calls (doings f tracer p k) = S k.
Proof. intros p k. induction k as [|k IH]; [reflexivity|]. cbn [doings].
  rewrite !calls_app, calls_between, IH. change (calls [ACall (S k)]) with 1. lia. Qed.

(** The loop from call [k] on, all earlier calls having failed; [p] is what precedes. *)
Lemma loop_spec : forall max d n fuel num k, (max < 2 ^ 32)%N -> (num <= max)%N -> n = N.to_nat (max - num) -> n <= fuel ->
  exists j, j <= n /\ (forall i, i < j -> exists e, f (k + i) = RErr e) /\ ((exists e, f (k + j) = RErr e) -> j = n) /\
    exists l, retry_loop fuel f max d tracer num k (f k) = Some (f (k + j), l) /\
      forall pre, pre = doings f tracer (fun _ => d) k -> pre ++ l = doings f tracer (fun _ => d) (k + j).
Proof.
  intros max d. induction n as [|n IH]; intros fuel num k M L EN F.
  - assert (num = max) as -> by lia. exists 0. rewrite Nat.add_0_r.
    split; [lia|]. split; [lia|]. split; [reflexivity|]. exists [].
    split; [|intros pre ->; now rewrite app_nil_r].
    destruct fuel; cbn; destruct (f k); try reflexivity; rewrite (proj2 (N.leb_le max max)) by lia; reflexivity.
  - destruct (f k) as [a|e] eqn:FK.
    + exists 0. rewrite Nat.add_0_r. split; [lia|]. split; [lia|]. split; [intros (e & X); congruence|]. exists [].
      split; [rewrite FK; destruct fuel; reflexivity|]. intros pre ->. now rewrite app_nil_r.
    + destruct fuel as [|fuel]; [lia|].
      assert (W : ((num + 1) mod 2 ^ 32 = num + 1)%N) by (apply N.mod_small; lia).
      destruct (IH fuel (num + 1)%N (S k)) as (j & J & FB & LAST & l & R & D); [exact M|lia|lia|lia|].
      exists (S j). replace (k + S j) with (S k + j) by lia.
      split; [lia|]. split; [|split; [intros X; rewrite (LAST X); reflexivity|]].
      * intros [|i] I; [rewrite Nat.add_0_r; eauto|]. replace (k + S i) with (S k + i) by lia. apply FB. lia.
      * exists (trace_if tracer e ++ ropt d ASleep ++ ACall (S k) :: l). split.
        -- cbn [retry_loop]. rewrite (proj2 (N.leb_gt max num)) by lia. rewrite W, R. reflexivity.
        -- intros pre ->. rewrite <- (D (doings f tracer (fun _ => d) (S k)) eq_refl). cbn [doings].
           rewrite (between_trace _ _ _ FK). rewrite <- !app_assoc. reflexivity.
Qed.

Lemma simple_spec : forall max d fuel, (max < 2 ^ 32)%N -> N.to_nat max <= fuel ->
  exists k, k <= N.to_nat max /\ failed_before f k /\ ((exists e, f k = RErr e) -> k = N.to_nat max) /\
    retry_simple fuel f max d tracer = Some (f k, doings f tracer (fun _ => d) k).
Proof.
  intros max d fuel M F. destruct (loop_spec max d (N.to_nat max) fuel 0%N 0) as (k & K & FB & LAST & l & R & D); [exact M|lia|f_equal; lia|exact F|].
  exists k. split; [exact K|]. split; [exact FB|]. split; [exact LAST|]. unfold retry_simple. rewrite R.
  cbn in D |- *. rewrite <- (D [ACall 0] eq_refl). reflexivity.
Qed.

Lemma notify_spec : forall pauses n fuel k, pauses (k + n) = None -> n < fuel ->
  exists j, j <= n /\ (forall i, i < j -> (exists e, f (k + i) = RErr e) /\ pauses (k + i) <> None) /\
    ((exists e, f (k + j) = RErr e) -> pauses (k + j) = None) /\
    exists l, retry_notify fuel f pauses tracer k = Some (f (k + j), ACall k :: l) /\
      forall pre, pre ++ [ACall k] = doings f tracer pauses k -> pre ++ ACall k :: l = doings f tracer pauses (k + j).
Proof.
  intros pauses. induction n as [|n IH]; intros fuel k N F; (destruct fuel as [|fuel]; [lia|]); cbn [retry_notify].
  - rewrite Nat.add_0_r in N. exists 0. rewrite !Nat.add_0_r. split; [lia|]. split; [lia|]. split; [auto|].
    exists []. split; [|auto]. destruct (f k); [|rewrite N]; reflexivity.
  - destruct (f k) as [a|e] eqn:FK.
    + exists 0. rewrite !Nat.add_0_r. split; [lia|]. split; [lia|]. split; [intros (e & X); congruence|]. exists []. rewrite FK. auto.
    + destruct (pauses k) as [d|] eqn:P.
      * destruct (IH fuel (S k)) as (j & J & FB & LAST & l & R & D); [now replace (S k + n) with (k + S n) by lia|lia|].
        exists (S j). replace (k + S j) with (S k + j) by lia. split; [lia|]. split; [|split; [exact LAST|]].
        -- intros [|i] I; [rewrite Nat.add_0_r; split; [eauto|congruence]|]. replace (k + S i) with (S k + i) by lia. apply FB. lia.
        -- exists (trace_if tracer e ++ ASleep d :: ACall (S k) :: l). split; [now rewrite R|].
           intros pre PE. specialize (D (doings f tracer pauses k ++ between f tracer pauses k)).
           rewrite <- D by (cbn; now rewrite <- app_assoc). rewrite (between_trace _ _ _ FK), P, <- PE. cbn.
           rewrite <- !app_assoc. reflexivity.
      * exists 0. rewrite !Nat.add_0_r. split; [lia|]. split; [lia|]. split; [auto|]. exists []. rewrite FK. auto.
Qed.
End Facts.

(** ** C29 *)
(** The number of retries and the pause a strategy asks for. *)
Definition strategy_max (r : retry_strategy) : option (nat * option N) :=
  match r with
  | RsImmediate m => Some (N.to_nat m, None)
  | RsAfter m d => Some (N.to_nat m, Some d)
  | RsExponential _ _ => None
  end.

(** The retry stops at the first success or at call number [max_retries] (counted from 0), returns the outcome of that call, and
    did exactly the calls, reports and pauses asked for. *)
Theorem C29_retry : forall (E A : Type) (f : nat -> res E A) (tracer : bool) r pauses max d fuel,
  strategy_ok r -> strategy_max r = Some (max, d) -> max <= fuel ->
  exists k, k <= max /\ failed_before f k /\ ((exists e, f k = RErr e) -> k = max) /\
    retry_with_strategy fuel f r pauses tracer = Some (f k, doings f tracer (fun _ => d) k).
Proof.
  intros E A f tracer r pauses max d fuel OK SM F. destruct r as [m|m d'|a b]; cbn in OK, SM; [| |discriminate];
    injection SM as <- <-; apply (simple_spec f tracer m); [lia|exact F|lia|exact F].
Qed.

(** The reading of it in counts: at most [max_retries + 1] calls; an Ok is the outcome of the first successful call; an error
    is the outcome of the last of [max_retries + 1] failed calls. *)
Theorem C29_counts : forall (E A : Type) (f : nat -> res E A) (tracer : bool) r pauses max d fuel res l,
  strategy_ok r -> strategy_max r = Some (max, d) ->
  retry_with_strategy fuel f r pauses tracer = Some (res, l) ->
  calls l <= max + 1 /\
  (forall a, res = ROk a -> exists k, f k = ROk a /\ failed_before f k /\ calls l = k + 1) /\
  (forall e, res = RErr e -> f max = RErr e /\ failed_before f max /\ calls l = max + 1).
Proof.
  intros E A f tracer r pauses max d fuel res l OK SM R.
  assert (G : forall fuel fuel' m d num k x y, fuel <= fuel' -> retry_loop fuel f m d tracer num k x = Some y -> retry_loop fuel' f m d tracer num k x = Some y).
  { induction fuel0 as [|n IH]; intros fuel' m d0 num k x y L H.
    - destruct fuel'; cbn [retry_loop] in *; destruct x; auto; destruct (m <=? num)%N; auto; discriminate.
    - destruct fuel' as [|fuel']; [lia|]. cbn [retry_loop] in *. destruct x; auto. destruct (m <=? num)%N; auto.
      destruct (retry_loop n f m d0 tracer ((num + 1) mod 2 ^ 32)%N (S k) (f (S k))) as [[r0 l0]|] eqn:X; [|discriminate].
      rewrite (IH fuel' _ _ _ _ _ _ ltac:(lia) X). exact H. }
  assert (R' : retry_with_strategy (fuel + max) f r pauses tracer = Some (res, l)).
  { destruct r as [m|m d'|a b]; cbn in *; [| |discriminate]; unfold retry_simple in *.
    - destruct (retry_loop fuel f m None tracer 0 0 (f 0)) as [[r0 l0]|] eqn:X; [|discriminate].
      rewrite (G fuel (fuel + max) _ _ _ _ _ _ ltac:(lia) X). exact R.
    - destruct (retry_loop fuel f m (Some d') tracer 0 0 (f 0)) as [[r0 l0]|] eqn:X; [|discriminate].
      rewrite (G fuel (fuel + max) _ _ _ _ _ _ ltac:(lia) X). exact R. }
  destruct (C29_retry E A f tracer r pauses max d (fuel + max) OK SM ltac:(lia)) as (k & K & FB & LAST & R2).
  rewrite R2 in R'. injection R' as <- <-. rewrite doings_calls. split; [lia|]. split.
  - intros a X. exists k. repeat split; auto; lia.
  - intros e X. rewrite <- (LAST (ex_intro _ _ X)). repeat split; auto; lia.
Qed.

(** The exponential strategy: the same, with the pauses and the stopping point of the backoff, once it stops at all. *)
Theorem C29_exponential : forall (E A : Type) (f : nat -> res E A) (tracer : bool) a b pauses n fuel,
  pauses n = None -> n < fuel ->
  exists k, k <= n /\ failed_before f k /\ (forall j, j < k -> pauses j <> None) /\ ((exists e, f k = RErr e) -> pauses k = None) /\
    retry_with_strategy fuel f (RsExponential a b) pauses tracer = Some (f k, doings f tracer pauses k).
Proof.
  intros E A f tracer a b pauses n fuel P F. destruct (notify_spec f tracer pauses n fuel 0 P F) as (k & K & FB & LAST & l & R & D).
  exists k. split; [exact K|]. split; [intros j J; apply (FB j J)|]. split; [intros j J; apply (FB j J)|]. split; [exact LAST|].
  cbn. rewrite R. cbn in D |- *. rewrite <- (D [] eq_refl). reflexivity.
Qed.

(** ** C30 *)
(** A fatal error is returned as it is, and nothing is called. *)
Theorem C30_fatal_unchanged : forall (Err A : Type) fuel x s (f : nat -> res (op_error Err) A) pauses tracer,
  retry_internal fuel (Fatal x s) f pauses tracer = Some (RErr (Fatal x s), []).
Proof. reflexivity. Qed.

(** Whatever is returned as an error is fatal, with the strategy of the original error; if the original was transient, the error
    is that of the last call made. *)
Theorem C30_never_transient : forall (Err A : Type) fuel e (f : nat -> res (op_error Err) A) pauses tracer e' l,
  (forall x r s, e = Transient x r s -> strategy_ok r) ->
  retry_internal fuel e f pauses tracer = Some (RErr e', l) ->
  exists x, e' = Fatal x (fatal_strategy_of e) /\
    (forall y s, e = Fatal y s -> x = y) /\
    (forall y r s, e = Transient y r s -> exists k last, calls l = k + 1 /\ f k = RErr last /\ failed_before f k /\ x = into_err last).
Proof.
  intros Err A fuel e f pauses tracer e' l OK H. destruct e as [y r s|y s]; cbn in H.
  - destruct (retry_with_strategy fuel f r pauses tracer) as [[[a|e2] l2]|] eqn:R; try discriminate. injection H as <- <-.
    exists (into_err e2). split; [reflexivity|]. split; [congruence|]. intros y' r' s' X. injection X as <- <- <-.
    specialize (OK y r s eq_refl). destruct (strategy_max r) as [[m d]|] eqn:SM.
    + destruct (C29_counts _ _ f tracer r pauses m d fuel _ _ OK SM R) as (_ & _ & B). destruct (B e2 eq_refl) as (B1 & B2 & B3).
      exists m, e2. auto.
    + destruct r as [|? ?|a b]; try discriminate. cbn in R.
      assert (G : forall fuel k l, retry_notify fuel f pauses tracer k = Some (RErr e2, l) ->
                exists j, calls l = j + 1 /\ f (k + j) = RErr e2 /\ forall i, i < j -> exists e, f (k + i) = RErr e).
      { clear. induction fuel as [|n IH]; intros k l H; [discriminate|]. cbn in H.
        destruct (f k) as [a|e] eqn:FK; [discriminate|]. destruct (pauses k) as [d|].
        - destruct (retry_notify n f pauses tracer (S k)) as [[r0 l0]|] eqn:X; [|discriminate]. injection H as -> <-.
          destruct (IH _ _ X) as (j & C & F & FB). exists (S j). split; [|split].
          + change (calls (ACall k :: trace_if tracer e ++ ASleep d :: l0)) with (S (calls (trace_if tracer e ++ ASleep d :: l0))).
            rewrite calls_app. destruct tracer; cbn; fold (calls l0); unfold calls in *; cbn; lia.
          + now replace (k + S j) with (S k + j) by lia.
          + intros [|i] I; [rewrite Nat.add_0_r; eauto|]. replace (k + S i) with (S k + i) by lia. apply FB. lia.
        - injection H as <- <-. exists 0. rewrite Nat.add_0_r. split; [reflexivity|]. split; [exact FK|]. lia. }
      destruct (G _ _ _ R) as (j & C & F & FB). exists j, e2. auto.
  - injection H as <- <-. exists y. cbn. split; [reflexivity|]. split; [congruence|]. congruence.
Qed.

(** A caller can give up on an error by hand: the error and what to do about it stay, it is not retried any more, and an error that is
    fatal already is returned unchanged. *)
Theorem C30_into_fatal : forall (Err A : Type) (e : op_error Err) fuel (f : nat -> res (op_error Err) A) pauses tracer,
  into_err (into_fatal e) = into_err e /\ fatal_strategy_of (into_fatal e) = fatal_strategy_of e /\
  retry_internal fuel (into_fatal e) f pauses tracer = Some (RErr (into_fatal e), []) /\
  (forall x s, e = Fatal x s -> into_fatal e = e).
Proof. intros Err A e fuel f pauses tracer. destruct e as [x r s|x s]; (split; [reflexivity|]); (split; [reflexivity|]); (split; [reflexivity|]); intros; [discriminate|reflexivity]. Qed.

(** The retries come to an end for the two counting strategies. *)
Theorem C30_ends : forall (Err A : Type) x r s (f : nat -> res (op_error Err) A) pauses tracer max d,
  strategy_ok r -> strategy_max r = Some (max, d) ->
  exists result l, retry_internal max (Transient x r s) f pauses tracer = Some (result, l).
Proof.
  intros Err A x r s f pauses tracer max d OK SM.
  destruct (C29_retry _ _ f tracer r pauses max d max OK SM (le_n _)) as (k & _ & _ & _ & R). cbn. rewrite R.
  destruct (f k); eauto.
Qed.

(** ** C31 *)
(** The generated executor ([paladin-opkind-derive/src/lib.rs], 149-159) calls once, and retries the error of that call. Call 0
    below is the first attempt, call [k+1] the [k]-th call of the retry. *)
Definition attempts {Err A : Type} (fuel : nat) (f : nat -> res (op_error Err) A) (pauses : nat -> option N)
  : option (res (op_error Err) A * nat) :=
  match f 0 with
  | ROk a => Some (ROk a, 1)
  | RErr e => match retry_internal fuel e (fun k => f (S k)) pauses true with
              | Some (r, l) => Some (r, S (calls l))
              | None => None
              end
  end.

(** The property is false: a transient failure, then a fatal one, then a third attempt. *)
Theorem C31_refuted : exists (f : nat -> res (op_error nat) nat) r n,
  (exists x s, f 1 = RErr (Fatal x s)) /\ attempts 3 f (fun _ => None) = Some (r, n) /\ n > 2.
Proof.
  exists (fun k => match k with
                   | 0 => RErr (Transient 7 default_retry FsTerminate)
                   | 1 => RErr (Fatal 8 FsTerminate)
                   | _ => ROk 5
                   end).
  exists (ROk 5), 3. split; [eexists; eexists; reflexivity|]. split; [vm_compute; reflexivity|lia].
Qed.

(** What holds: a fatal failure of the first attempt is final; after a transient first failure at most [max_retries + 1] more
    attempts are made. Missing: a fatal failure of a later attempt should be final too. *)
Theorem C31_first_fatal_partial : forall (Err A : Type) fuel (f : nat -> res (op_error Err) A) pauses x s,
  f 0 = RErr (Fatal x s) -> attempts fuel f pauses = Some (RErr (Fatal x s), 1).
Proof. intros Err A fuel f pauses x s H. unfold attempts. rewrite H. reflexivity. Qed.

Theorem C31_bounded_partial : forall (Err A : Type) fuel (f : nat -> res (op_error Err) A) pauses x r s max d result n,
  f 0 = RErr (Transient x r s) -> strategy_ok r -> strategy_max r = Some (max, d) ->
  attempts fuel f pauses = Some (result, n) -> n <= max + 2.
Proof.
  intros Err A fuel f pauses x r s max d result n H OK SM R. unfold attempts in R. rewrite H in R. cbn in R.
  destruct (retry_with_strategy fuel (fun k => f (S k)) r pauses true) as [[r0 l]|] eqn:X; [|discriminate].
  destruct (C29_counts _ _ _ _ _ _ _ _ _ _ _ OK SM X) as (C & _).
  destruct r0; injection R as <- <-; lia.
Qed.

(** ** Examples *)
Definition ex_f (k : nat) : res nat nat := match k with 0 => RErr 10 | 1 => RErr 11 | 2 => ROk 42 | _ => RErr 99 end.
Example C29_ex_success :
  retry_with_strategy 5 ex_f (RsAfter 5 30) (fun _ => None) true =
    Some (ROk 42, [ACall 0; ATrace 10; ASleep 30; ACall 1; ATrace 11; ASleep 30; ACall 2]) /\
  strategy_ok (RsAfter 5 30) /\ strategy_max (RsAfter 5 30) = Some (5, Some 30%N).
Proof. split; [vm_compute; reflexivity|]. split; [cbn; lia|reflexivity]. Qed.
Example C29_ex_exhausted : retry_with_strategy 1 ex_f (RsImmediate 1) (fun _ => None) false = Some (RErr 11, [ACall 0; ACall 1]).
Proof. vm_compute; reflexivity. Qed.
Example C29_ex_exponential :
  retry_with_strategy 9 (fun k => RErr k) (RsExponential 1 100) (fun k => if k <? 2 then Some 7%N else None) true =
    Some (RErr 2 : res nat nat, [ACall 0; ATrace 0; ASleep 7; ACall 1; ATrace 1; ASleep 7; ACall 2]).
Proof. vm_compute; reflexivity. Qed.
Example C30_ex :
  retry_internal 9 (Transient 1 (RsImmediate 2) FsIgnore)
    (fun k => RErr (Transient (100 + k) default_retry FsTerminate) : res (op_error nat) nat) (fun _ => None) false =
  Some (RErr (Fatal 102 FsIgnore), [ACall 0; ACall 1; ACall 2]).
Proof. vm_compute; reflexivity. Qed.

Print Assumptions C29_retry.
Print Assumptions C29_counts.
Print Assumptions C29_exponential.
Print Assumptions C30_fatal_unchanged.
Print Assumptions C30_never_transient.
Example C30_into_fatal_ex : into_fatal (Transient 7 (RsImmediate 2) FsIgnore) = Fatal 7 FsIgnore.
Proof. reflexivity. Qed.
Print Assumptions C30_ends.
Print Assumptions C30_into_fatal.
Print Assumptions C31_refuted.
Print Assumptions C31_first_fatal_partial.
Print Assumptions C31_bounded_partial.
