(** When a mapped stream comes to an end: the counter of its channel says exactly what is still missing, and whatever was refused, lost or
    not acknowledged is missing for ever. *)
From Coq Require Import List Arith NArith Bool Lia Permutation.
From Verif Require Import Base BaseFacts CoordModel PublishModel PublishSpec PublishProofs MapModel MapSpec MapProofs MapCoord MapProps.
Import ListNotations.
Open Scope nat_scope.
Local Opaque usize_max usize_mod wsucc wpred.
Arguments cnt : simpl never.
Arguments side_done : simpl never.
Arguments left_done : simpl never.

(** Calls of the inner publisher made in an execution. *)
Definition begins {O : Type} (e : m_event O) : nat := match e with MLeft (PaStart _) => 1 | _ => 0 end.
Definition begun {O : Type} (tr : list (m_event O)) : nat := list_sum (map begins tr).
(** An acknowledgement that failed. *)
Definition unacked {B E : Type} (r : mret B E) : bool := match r with MErr EAck => true | _ => false end.

Section Relabel.
Context {A B E O : Type}.
Variable exec : O -> A -> res E B.
Definition rl_res (r : res E B) : res E unit := match r with ROk _ => ROk tt | RErr e => RErr e end.
Definition rl_result (r : @result A B E) : @result A unit E := (fst r, rl_res (snd r)).
Definition rl_ret (r : mret B E) : mret unit E := match r with MItem i _ => MItem i tt | MErr e => MErr e | MPending => MPending | MNone => MNone end.
(** The same state, without the values of the results. *)
Definition rl (s : mstate A B E) : mstate A unit E :=
  mkM (m_pa s) (m_sent s) (m_closed s) (m_pending s) (m_tasks s) (map rl_result (m_results s)) (m_resreg s)
      (option_map (fun p => (rl_result (fst p), snd p)) (m_then s)) (m_next s) (m_ldone s) (m_rdone s) (m_poll s) (map rl_ret (m_log s)) (m_lost s).
Definition exec1 (o : O) (x : A) : res E unit := rl_res (exec o x).
Definition rl_sret (r : @sret B E) : @sret unit E := match r with SItem x => SItem (rl_ret x) | SNone => SNone | SPend => SPend end.
Lemma rl_side : forall s sd k r, rl (side_done s sd k r) = side_done (rl s) sd k (rl_sret r).
Proof. intros s sd k [x| |]; destruct k as [|[]|]; try reflexivity. all: destruct x; reflexivity. Qed.
Lemma pick_map : forall (X Y : Type) (g : X -> Y) i l, pick i (map g l) = option_map (fun p => (g (fst p), map g (snd p))) (pick i l).
Proof.
  intros X Y g i. induction i as [|i IH]; intros [|x l]; cbn; auto. rewrite IH. destruct (pick i l) as [[y r]|]; reflexivity.
Qed.
Lemma rl_left : forall s k p, rl (left_done s k p) = left_done (rl s) k p.
Proof. intros s k p. unfold left_done. destruct (pa_ret p) as [[|x|n]|]; try reflexivity; rewrite rl_side; reflexivity. Qed.
Lemma rl_step : forall s e s', m_step exec s e = Some s' -> m_step exec1 (rl s) e = Some (rl s').
Proof.
  intros s e s' H. destruct e as [| e | | | | | | | | e | ok | i o | i | i | i | i]; cbn [m_step] in *; cbn [rl m_poll m_pa m_sent m_closed m_pending m_tasks m_results m_resreg m_then m_next m_ldone m_rdone m_log m_lost] in *.
  - destruct (m_poll s); [|discriminate]. cbn in *. destruct (m_ldone s), (m_rdone s); injection H as <-; reflexivity.
  - destruct (m_poll s) as [|[] k]; try discriminate. destruct (m_sent s || negb (poll_event e)); [discriminate|].
    destruct e; try (destruct (pa_step (m_pa s) _) as [p|]; [|discriminate]; injection H as <-; now rewrite rl_left).
    + destruct (pa_inreg (m_pa s)); [discriminate|]. destruct (pa_step (m_pa s) _) as [p|]; [|discriminate]. injection H as <-. now rewrite rl_left.
    + destruct (m_closed s); [discriminate|]. destruct (pa_step (m_pa s) _) as [p|]; [|discriminate]. now injection H as <-.
    + destruct (m_closed s); [|discriminate]. destruct (pa_step (m_pa s) _) as [p|]; [|discriminate]. now injection H as <-.
  - destruct (m_poll s) as [|[] k]; try discriminate. destruct (negb (m_sent s) && pa_idle (m_pa s)); [|discriminate]. injection H as <-. now rewrite rl_side.
  - destruct (m_poll s) as [|[] k]; try discriminate. destruct (m_sent s); [|discriminate]. injection H as <-. now rewrite rl_side.
  - destruct (m_poll s) as [|[] k]; try discriminate. destruct (m_then s); [discriminate|]. destruct (m_results s) as [|r rs]; [discriminate|]. now injection H as <-.
  - destruct (m_poll s) as [|[] k]; try discriminate. destruct (m_then s); [discriminate|]. destruct (m_results s) as [|r rs]; [|discriminate]. injection H as <-. rewrite rl_side.
    cbn. destruct (m_closed s && (m_pending s =? 0)%N); reflexivity.
  - destruct (m_poll s) as [|[] k]; try discriminate. destruct (m_then s) as [[r []]|]; try discriminate. now injection H as <-.
  - destruct (m_poll s) as [|[] k]; try discriminate. destruct (m_then s) as [[r []]|]; try discriminate. injection H as <-. now rewrite rl_side.
  - destruct (m_poll s) as [|[] k]; try discriminate. destruct (m_then s) as [[r [| |[]]]|]; try discriminate; injection H as <-; rewrite rl_side; [|reflexivity].
    destruct r as [t [y|x]]; reflexivity.
  - destruct (poll_event e); [discriminate|]. destruct (pa_step (m_pa s) e) as [p|]; [|discriminate]. now injection H as <-.
  - destruct (m_then s) as [[r []]|]; try discriminate. now injection H as <-.
  - destruct (pick i (m_tasks s)) as [[t ts]|]; [|discriminate]. injection H as <-. unfold deliver, rl. cbn. rewrite map_app. reflexivity.
  - destruct (pick i (m_tasks s)) as [[t ts]|]; [|discriminate]. now injection H as <-.
  - rewrite pick_map. destruct (pick i (m_results s)) as [[t ts]|]; [|discriminate]. now injection H as <-.
  - destruct (nth_error (m_tasks s) i); [|discriminate]. now injection H as <-.
  - rewrite nth_error_map. destruct (nth_error (m_results s) i); [|discriminate]. cbn. injection H as <-. unfold deliver, rl. cbn. rewrite map_app. reflexivity.
Qed.
Lemma rl_run : forall tr s s', run_from (m_step exec) s tr = Some s' -> run_from (m_step exec1) (rl s) tr = Some (rl s').
Proof.
  induction tr as [|e tr IH]; intros s s' H; cbn [run_from] in *; [now injection H as <-|]. destruct (m_step exec s e) as [s1|] eqn:S; [|discriminate H].
  rewrite (rl_step _ _ _ S). now apply IH.
Qed.
(** The invariants hold whatever the workers answer. *)
Lemma minv_any : forall arr late en tr s, (N.of_nat (length (arr ++ late)) < usize_max)%N -> no_dup tr ->
  run_from (m_step exec) (m_init arr late en) tr = Some s -> minv (fun _ => tt) (arr ++ late) (rl s).
Proof.
  intros arr late en tr s SH ND R. apply rl_run in R. change (rl (m_init arr late en)) with (m_init (A := A) (B := unit) (E := E) arr late en) in R.
  eapply (minv_run exec1 (fun _ => tt)); eauto. intros o x y _. now destruct y.
Qed.
End Relabel.

Section Count.
Context {A B E O : Type}.
Variable exec : O -> A -> res E B.
Notation st := (mstate A B E).
Definition th (s : st) : nat := match m_then s with Some _ => 1 | None => 0 end.
(** Where the accepted messages are. *)
Definition places (s : st) : nat := length (m_tasks s) + length (m_results s) + th s + length (m_lost s) + cnt received (m_log s).
Definition out (p : pall (N * A) E) : nat := length (pa_acc p) + cnt is_half (pa_futs p) + length (pa_dropped p).

Lemma side_same : forall (s : st) sd k r, m_pa s = m_pa s -> (r = SPend \/ r = SNone) -> 
  pa_acc (m_pa (side_done s sd k r)) = pa_acc (m_pa s) /\ pa_futs (m_pa (side_done s sd k r)) = pa_futs (m_pa s) /\ pa_dropped (m_pa (side_done s sd k r)) = pa_dropped (m_pa s) /\
  m_pending (side_done s sd k r) = m_pending s /\ places (side_done s sd k r) = places s /\ cnt confirmed (m_log (side_done s sd k r)) = cnt confirmed (m_log s).
Proof.
  intros s sd k r _ [-> | ->]; destruct k as [|[]|]; unfold side_done, places, th; cbn; rewrite ?cnt_cons; cbn; auto 10.
Qed.
Lemma side_item : forall (s : st) sd k x, 
  pa_acc (m_pa (side_done s sd k (SItem x))) = pa_acc (m_pa s) /\ pa_futs (m_pa (side_done s sd k (SItem x))) = pa_futs (m_pa s) /\ pa_dropped (m_pa (side_done s sd k (SItem x))) = pa_dropped (m_pa s) /\
  m_pending (side_done s sd k (SItem x)) = m_pending s /\ places (side_done s sd k (SItem x)) = places s + b2n (received x) /\
  cnt confirmed (m_log (side_done s sd k (SItem x))) = cnt confirmed (m_log s) + b2n (confirmed x).
Proof.
  intros s sd k x. unfold side_done, places, th. cbn. rewrite !cnt_cons. destruct x as [| [] | |]; cbn; repeat (split; [reflexivity|]); split; lia.
Qed.
Lemma pa_out : forall (p p' : pall (N * A) E) e, pa_step p e = Some p' -> (pa_ret p = None -> pa_dropped p = []) ->
  exists m lk, pa_acc p' = pa_acc p ++ m /\ out p' + lk = out p + starts e /\ (poll_event e = true -> m = []).
Proof.
  intros p p' e S D. destruct (pa_counts p e p' S D) as (m & lk & [(X1 & X2 & _ & _ & X5 & _)|(X1 & i & x & d & -> & X3 & X4 & X5 & X6 & _)]).
  - exists m, lk. split; [exact X1|]. split; [|exact X5]. unfold out. rewrite X1, app_length. lia.
  - exists [x], 0. split; [exact X4|]. split; [|discriminate]. unfold out. rewrite X4, X5, X6, app_length. apply pick_perm, Permutation_length in X3. cbn in *. lia.
Qed.

Lemma count_step : forall (s s' : st) e, m_step exec s e = Some s' -> duplicates e = false -> (pa_ret (m_pa s) = None -> pa_dropped (m_pa s) = []) ->
  (begins e = 1 -> (m_pending s < usize_max)%N) -> (m_then s <> None -> m_pending s <> 0%N) ->
  (exists lk, out (m_pa s') + lk = out (m_pa s) + begins e) /\
  length (pa_acc (m_pa s')) + places s = length (pa_acc (m_pa s)) + places s' /\
  N.to_nat (m_pending s') + cnt confirmed (m_log s') = N.to_nat (m_pending s) + cnt confirmed (m_log s) + begins e.
Proof.
  intros s s' e H ND D W1 W2.
  assert (LEFT : forall p e0 k, pa_step (m_pa s) e0 = Some p -> poll_event e0 = true -> starts e0 = 0 ->
    (exists lk, out (m_pa (left_done s k p)) + lk = out (m_pa s) + 0) /\
    length (pa_acc (m_pa (left_done s k p))) + places s = length (pa_acc (m_pa s)) + places (left_done s k p) /\
    N.to_nat (m_pending (left_done s k p)) + cnt confirmed (m_log (left_done s k p)) = N.to_nat (m_pending s) + cnt confirmed (m_log s) + 0).
  { intros p e0 k S PE ST. destruct (pa_out _ _ _ S D) as (m & lk & X1 & X2 & X3). rewrite (X3 PE), app_nil_r in X1. rewrite ST in X2. unfold left_done.
    destruct (pa_ret p) as [[|x|n]|].
    - destruct (side_same (sender_done s p) L k SNone eq_refl) as (Y1 & Y2 & Y3 & Y4 & Y5 & Y6); [auto|]. unfold out in *. rewrite Y1, Y2, Y3, Y4, Y5, Y6. cbn. rewrite X1 in *.
      split; [exists lk; lia|]. split; [|lia]. reflexivity.
    - destruct (side_item (sender_done s p) L k (MErr (EInput x))) as (Y1 & Y2 & Y3 & Y4 & Y5 & Y6). unfold out in *. rewrite Y1, Y2, Y3, Y4, Y5, Y6. cbn. rewrite X1 in *.
      split; [exists lk; lia|]. split; [|lia]. unfold places, th. cbn. lia.
    - destruct (side_item (sender_done s p) L k (MErr (EPublish n))) as (Y1 & Y2 & Y3 & Y4 & Y5 & Y6). unfold out in *. rewrite Y1, Y2, Y3, Y4, Y5, Y6. cbn. rewrite X1 in *.
      split; [exists lk; lia|]. split; [|lia]. unfold places, th. cbn. lia.
    - cbn. split; [exists lk; lia|]. rewrite X1. split; [reflexivity|lia]. }
  assert (NOP : m_pa s' = m_pa s -> places s' = places s -> m_pending s' = m_pending s -> cnt confirmed (m_log s') = cnt confirmed (m_log s) -> begins e = 0 ->
    (exists lk, out (m_pa s') + lk = out (m_pa s) + begins e) /\ length (pa_acc (m_pa s')) + places s = length (pa_acc (m_pa s)) + places s' /\
    N.to_nat (m_pending s') + cnt confirmed (m_log s') = N.to_nat (m_pending s) + cnt confirmed (m_log s) + begins e).
  { intros -> -> -> -> ->. split; [exists 0; lia|]. split; [reflexivity|lia]. }
  assert (SIDE : forall s0 sd k r, (r = SPend \/ r = SNone) -> s' = side_done s0 sd k r -> m_pa s0 = m_pa s -> places s0 = places s -> m_pending s0 = m_pending s -> m_log s0 = m_log s -> begins e = 0 ->
    (exists lk, out (m_pa s') + lk = out (m_pa s) + begins e) /\ length (pa_acc (m_pa s')) + places s = length (pa_acc (m_pa s)) + places s' /\
    N.to_nat (m_pending s') + cnt confirmed (m_log s') = N.to_nat (m_pending s) + cnt confirmed (m_log s) + begins e).
  { intros s0 sd k r R -> Z1 Z2 Z3 Z4 Z5. destruct (side_same s0 sd k r eq_refl R) as (Y1 & Y2 & Y3 & Y4 & Y5 & Y6). unfold out. rewrite Y1, Y2, Y3, Y4, Y5, Y6, Z1, Z2, Z3, Z4, Z5.
    split; [exists 0; lia|]. split; [reflexivity|lia]. }
  destruct e as [| e | | | | | | | | e | ok | i o | i | i | i | i]; cbn [m_step] in H; try discriminate ND; cbn [begins] in *.
  - destruct (m_poll s); [|discriminate]. cbn in H. destruct (m_ldone s), (m_rdone s); injection H as <-; cbn; unfold places, th; cbn; rewrite ?cnt_cons; cbn;
      (split; [exists 0; unfold out; cbn; lia|]; split; lia).
  - destruct (m_poll s) as [|[] k]; try discriminate. destruct (m_sent s || negb (poll_event e)) eqn:G; [discriminate|]. apply orb_false_iff in G as [_ G]. apply negb_false_iff in G.
    destruct e; cbn in G; try discriminate G.
    + destruct (pa_inreg (m_pa s)); [discriminate|]. destruct (pa_step (m_pa s) PaPull) as [p|] eqn:S; [|discriminate]. injection H as <-. eapply LEFT; eauto.
    + destruct (m_closed s); [discriminate|]. destruct (pa_step (m_pa s) (PaStart i)) as [p|] eqn:S; [|discriminate]. injection H as <-. cbn.
      destruct (pa_out _ _ _ S D) as (m & lk & X1 & X2 & X3). rewrite (X3 eq_refl), app_nil_r in X1. cbn in X2. split; [eauto|]. rewrite X1. split; [reflexivity|].
      specialize (W1 eq_refl). rewrite wsucc_small by exact W1. lia.
    + destruct (m_closed s); [|discriminate]. destruct (pa_step (m_pa s) (PaRefuse i)) as [p|] eqn:S; [|discriminate]. injection H as <-. cbn.
      destruct (pa_out _ _ _ S D) as (m & lk & X1 & X2 & X3). rewrite (X3 eq_refl), app_nil_r in X1. cbn in X2. split; [eauto|]. rewrite X1. split; [reflexivity|lia].
    + destruct (pa_step (m_pa s) (PaCheck i)) as [p|] eqn:S; [|discriminate]. injection H as <-. eapply LEFT; eauto.
    + destruct (pa_step (m_pa s) (PaFinish i)) as [p|] eqn:S; [|discriminate]. injection H as <-. eapply LEFT; eauto.
    + destruct (pa_step (m_pa s) PaReturn) as [p|] eqn:S; [|discriminate]. injection H as <-. eapply LEFT; eauto.
  - destruct (m_poll s) as [|[] k]; try discriminate. destruct (negb (m_sent s) && pa_idle (m_pa s)); [|discriminate]. injection H as <-. eapply SIDE; [|reflexivity| | | | |]; auto.
  - destruct (m_poll s) as [|[] k]; try discriminate. destruct (m_sent s); [|discriminate]. injection H as <-. eapply SIDE; [|reflexivity| | | | |]; auto.
  - destruct (m_poll s) as [|[] k]; try discriminate. destruct (m_then s) eqn:T; [discriminate|]. destruct (m_results s) as [|r rs] eqn:RS; [discriminate|]. injection H as <-.
    apply NOP; cbn; auto. unfold places, th. cbn. rewrite T, RS. cbn. lia.
  - destruct (m_poll s) as [|[] k]; try discriminate. destruct (m_then s) eqn:T; [discriminate|]. destruct (m_results s) as [|r rs] eqn:RS; [|discriminate]. injection H as <-.
    eapply SIDE; [|reflexivity| | | | |]; auto; [|unfold places, th; cbn; rewrite T, RS; reflexivity]. destruct (_ && _); auto.
  - destruct (m_poll s) as [|[] k]; try discriminate. destruct (m_then s) as [[r []]|] eqn:T; try discriminate. injection H as <-. apply NOP; cbn; auto. unfold places, th. cbn. now rewrite T.
  - destruct (m_poll s) as [|[] k]; try discriminate. destruct (m_then s) as [[r []]|] eqn:T; try discriminate. injection H as <-.
    eapply SIDE; [|reflexivity| | | | |]; auto. unfold places, th; cbn; rewrite T; reflexivity.
  - destruct (m_poll s) as [|[] k]; try discriminate. destruct (m_then s) as [[r [| |[]]]|] eqn:T; try discriminate; injection H as <-.
    + assert (PN : m_pending s <> 0%N) by (apply W2; discriminate).
      match goal with |- context [side_done ?s0 R k (SItem ?x)] => destruct (side_item s0 R k x) as (Y1 & Y2 & Y3 & Y4 & Y5 & Y6) end.
      unfold out. rewrite Y1, Y2, Y3, Y4, Y5, Y6. cbn [set_pending set_pa set_then set_woken m_pa m_pending m_log pa_acc pa_futs pa_dropped].
      assert (Q : forall x : res E B, b2n (received (match x with ROk y => MItem (fst (fst r)) y | RErr e => MErr (EWorker e) end)) = 1 /\
                b2n (confirmed (match x with ROk y => MItem (fst (fst r)) y | RErr e => MErr (EWorker e) end)) = 1) by (intros []; auto).
      destruct (Q (snd r)) as [Q1 Q2]. rewrite Q1, Q2. split; [exists 0; lia|]. split; [unfold places, th; cbn; rewrite T; lia|].
      Local Transparent wpred. unfold wpred. Local Opaque wpred. destruct (N.eqb_spec (m_pending s) 0); lia.
    + match goal with |- context [side_done ?s0 R k (SItem ?x)] => destruct (side_item s0 R k x) as (Y1 & Y2 & Y3 & Y4 & Y5 & Y6) end.
      unfold out. rewrite Y1, Y2, Y3, Y4, Y5, Y6. cbn. split; [exists 0; lia|]. split; [unfold places, th; cbn; rewrite T; lia|lia].
  - destruct (poll_event e) eqn:PE; [discriminate|]. destruct (pa_step (m_pa s) e) as [p|] eqn:S; [|discriminate]. injection H as <-. cbn.
    destruct (pa_out _ _ _ S D) as (m & lk & X1 & X2 & X3). assert (starts e = 0) as Z by (destruct e; auto; discriminate PE). rewrite Z in X2. split; [eauto|]. split; [|lia].
    rewrite X1. unfold places, th. cbn. rewrite !app_length, map_length, skipn_app, app_length, skipn_all, Nat.sub_diag. cbn. lia.
  - destruct (m_then s) as [[r []]|] eqn:T; try discriminate. injection H as <-. cbn. unfold places, th, out; cbn. rewrite T. split; [exists 0; lia|]. split; lia.
  - destruct (pick i (m_tasks s)) as [[t ts]|] eqn:P; [|discriminate]. injection H as <-. apply pick_perm, Permutation_length in P. cbn. unfold places, th, out; cbn. rewrite app_length. cbn in *.
    split; [exists 0; lia|]. split; lia.
  - destruct (pick i (m_tasks s)) as [[t ts]|] eqn:P; [|discriminate]. injection H as <-. apply pick_perm, Permutation_length in P. cbn. unfold places, th, out; cbn. cbn in *.
    split; [exists 0; lia|]. split; lia.
  - destruct (pick i (m_results s)) as [[t ts]|] eqn:P; [|discriminate]. injection H as <-. apply pick_perm, Permutation_length in P. cbn. unfold places, th, out; cbn. cbn in *.
    split; [exists 0; lia|]. split; lia.
Qed.

Lemma side_grows : forall (s : st) sd k r, length (m_lost (side_done s sd k r)) = length (m_lost s) /\ cnt unacked (m_log s) <= cnt unacked (m_log (side_done s sd k r)).
Proof. intros s sd k [x| |]; destruct k as [|[]|]; unfold side_done; cbn; rewrite ?cnt_cons; split; try lia; reflexivity. Qed.
Lemma left_grows : forall (s : st) k p, length (m_lost (left_done s k p)) = length (m_lost s) /\ cnt unacked (m_log s) <= cnt unacked (m_log (left_done s k p)).
Proof.
  intros s k p. unfold left_done. destruct (pa_ret p) as [[|x|n]|]; [| | |cbn; lia];
    match goal with |- context [side_done ?s0 ?sd ?k ?r] => destruct (side_grows s0 sd k r) as [Y1 Y2] end; rewrite Y1; split; try reflexivity; exact Y2.
Qed.
Lemma grows : forall (s s' : st) e, m_step exec s e = Some s' -> length (m_lost s) <= length (m_lost s') /\ cnt unacked (m_log s) <= cnt unacked (m_log s').
Proof.
  intros s s' e H.
  assert (SIDE : forall s0 sd k r, s' = side_done s0 sd k r -> m_lost s0 = m_lost s -> m_log s0 = m_log s -> length (m_lost s) <= length (m_lost s') /\ cnt unacked (m_log s) <= cnt unacked (m_log s')).
  { intros s0 sd k r -> L0 G0. destruct (side_grows s0 sd k r) as [Y1 Y2]. rewrite Y1, <- L0, <- G0. split; [lia|exact Y2]. }
  assert (LEFT : forall k p, s' = left_done s k p -> length (m_lost s) <= length (m_lost s') /\ cnt unacked (m_log s) <= cnt unacked (m_log s')).
  { intros k p ->. destruct (left_grows s k p) as [Y1 Y2]. rewrite Y1. split; [lia|exact Y2]. }
  destruct e as [| e | | | | | | | | e | ok | i o | i | i | i | i]; cbn [m_step] in H.
  - destruct (m_poll s); [|discriminate]. cbn in H. destruct (m_ldone s), (m_rdone s); injection H as <-; cbn; rewrite ?cnt_cons; lia.
  - destruct (m_poll s) as [|[] k]; try discriminate. destruct (m_sent s || negb (poll_event e)); [discriminate|].
    destruct e; try (destruct (pa_step (m_pa s) _) as [p|]; [|discriminate]; injection H as <-; eapply LEFT; reflexivity).
    + destruct (pa_inreg (m_pa s)); [discriminate|]. destruct (pa_step (m_pa s) _) as [p|]; [|discriminate]. injection H as <-. eapply LEFT; reflexivity.
    + destruct (m_closed s); [discriminate|]. destruct (pa_step (m_pa s) _) as [p|]; [|discriminate]. injection H as <-. cbn. lia.
    + destruct (m_closed s); [|discriminate]. destruct (pa_step (m_pa s) _) as [p|]; [|discriminate]. injection H as <-. cbn. lia.
  - destruct (m_poll s) as [|[] k]; try discriminate. destruct (_ && _); [|discriminate]. injection H as <-. eapply SIDE; reflexivity.
  - destruct (m_poll s) as [|[] k]; try discriminate. destruct (m_sent s); [|discriminate]. injection H as <-. eapply SIDE; reflexivity.
  - destruct (m_poll s) as [|[] k]; try discriminate. destruct (m_then s); [discriminate|]. destruct (m_results s) as [|r rs]; [discriminate|]. injection H as <-. cbn. lia.
  - destruct (m_poll s) as [|[] k]; try discriminate. destruct (m_then s); [discriminate|]. destruct (m_results s) as [|r rs]; [|discriminate]. injection H as <-. eapply SIDE; reflexivity.
  - destruct (m_poll s) as [|[] k]; try discriminate. destruct (m_then s) as [[r []]|]; try discriminate. injection H as <-. cbn. lia.
  - destruct (m_poll s) as [|[] k]; try discriminate. destruct (m_then s) as [[r []]|]; try discriminate. injection H as <-. eapply SIDE; reflexivity.
  - destruct (m_poll s) as [|[] k]; try discriminate. destruct (m_then s) as [[r [| |[]]]|]; try discriminate; injection H as <-; eapply SIDE; reflexivity.
  - destruct (poll_event e); [discriminate|]. destruct (pa_step (m_pa s) e) as [p|]; [|discriminate]. injection H as <-. cbn. lia.
  - destruct (m_then s) as [[r []]|]; try discriminate. injection H as <-. cbn. lia.
  - destruct (pick i (m_tasks s)) as [[t ts]|]; [|discriminate]. injection H as <-. cbn. lia.
  - destruct (pick i (m_tasks s)) as [[t ts]|]; [|discriminate]. injection H as <-. cbn. lia.
  - destruct (pick i (m_results s)) as [[t ts]|]; [|discriminate]. injection H as <-. cbn. lia.
  - destruct (nth_error (m_tasks s) i); [|discriminate]. injection H as <-. cbn. lia.
  - destruct (nth_error (m_results s) i); [|discriminate]. injection H as <-. cbn. lia.
Qed.

(** Calls of the inner publisher that are over although the broker has not got the message. *)
Definition refused (tr : list (m_event O)) (s : st) : nat := begun tr - (length (pa_acc (m_pa s)) + length (half_done (pa_futs (m_pa s))) + length (pa_dropped (m_pa s))).
(** What can never be acknowledged any more. *)
Definition gone (tr : list (m_event O)) (s : st) : nat := refused tr s + length (m_lost s) + length (filter unacked (m_log s)).

Record cinv (tr : list (m_event O)) (s : st) : Prop := {
  ci_out : out (m_pa s) <= begun tr;
  ci_acc : length (pa_acc (m_pa s)) = places s;
  ci_pend : N.to_nat (m_pending s) + cnt confirmed (m_log s) = begun tr
}.
Lemma begun_snoc : forall tr (e : m_event O), begun (tr ++ [e]) = begun tr + begins e.
Proof. intros tr e. unfold begun. rewrite map_app, list_sum_app. cbn. lia. Qed.
Lemma rcv_split : forall log : list (mret B E), cnt received log = cnt confirmed log + cnt unacked log.
Proof. induction log as [|r log IH]; [reflexivity|]. rewrite !cnt_cons, IH. destruct r as [|[]| |]; cbn; lia. Qed.
Lemma dropped_none : forall inp (p : pall (N * A) E), pinv inp p -> pa_ret p = None -> pa_dropped p = [].
Proof. intros inp p I R. now apply (pi_drop _ _ I). Qed.
Variables (arr late : list (res E (N * A))) (en : bool).
Hypothesis SH : (N.of_nat (length (arr ++ late)) < usize_max)%N.
Lemma cinv_run : forall tr s, no_dup tr -> run_from (m_step exec) (m_init arr late en) tr = Some s -> cinv tr s.
Proof.
  intros tr. induction tr as [|e tr IH] using rev_ind; intros s ND R.
  - injection R as <-. constructor; reflexivity.
  - apply run_from_app in R as (m & R1 & R2). cbn [run_from] in R2. destruct (m_step exec m e) as [m'|] eqn:S; [|discriminate R2]. injection R2 as <-.
    assert (ND1 : no_dup tr) by (intros x I; apply ND, in_app_iff; auto). destruct (IH m ND1 R1) as [C1 C2 C3].
    pose proof (minv_any exec arr late en tr m SH ND1 R1) as M.
    destruct (count_step m m' e S) as ((lk & X1) & X2 & X3).
    + apply ND, in_app_iff. right. now left.
    + apply (dropped_none _ _ (mi_pa _ _ _ M)).
    + intros BE. pose proof (mi_bound _ _ _ M) as BO. cbn in BO. pose proof (pulled_short _ _ (mi_pa _ _ _ M)) as PS. cbn in PS. lia.
    + intros T. destruct (mi_pend _ _ _ M) as (leaks & P & _). cbn in P. unfold then_list in P. cbn in P. destruct (m_then m); [|contradiction]. cbn in P. lia.
    + constructor; rewrite ?begun_snoc; lia.
Qed.
Lemma half_out : forall (s : st) tr, refused tr s = begun tr - out (m_pa s).
Proof. intros s tr. unfold refused, out. now rewrite half_cnt. Qed.

(** The counter of the channel counts exactly what the broker has not got, what is under way, what is lost and what could not be acknowledged. *)
Theorem C95_counter : forall tr s, no_dup tr -> run_from (m_step exec) (m_init arr late en) tr = Some s ->
  length (pa_acc (m_pa s)) <= begun tr /\
  m_pending s = N.of_nat ((begun tr - length (pa_acc (m_pa s))) + length (m_tasks s) + length (m_results s) + match m_then s with Some _ => 1 | None => 0 end
                          + length (m_lost s) + length (filter unacked (m_log s))).
Proof.
  intros tr s ND R. destruct (cinv_run tr s ND R) as [C1 C2 C3]. unfold out, places, th in *. rewrite rcv_split in C2. split; [lia|].
  change (length (filter unacked (m_log s))) with (cnt unacked (m_log s)). lia.
Qed.
(** What is gone stays gone. *)
Lemma gone_mono : forall tr2 tr1 s1 s2, no_dup (tr1 ++ tr2) -> run_from (m_step exec) (m_init arr late en) tr1 = Some s1 -> run_from (m_step exec) s1 tr2 = Some s2 -> gone tr1 s1 <= gone (tr1 ++ tr2) s2.
Proof.
  induction tr2 as [|e tr2 IH] using rev_ind; intros tr1 s1 s2 ND R1 R2.
  - injection R2 as <-. rewrite app_nil_r. lia.
  - apply run_from_app in R2 as (m & Q1 & Q2). cbn [run_from] in Q2. destruct (m_step exec m e) as [m'|] eqn:S; [|discriminate Q2]. injection Q2 as <-.
    rewrite app_assoc in *. assert (ND1 : no_dup (tr1 ++ tr2)) by (intros x I; apply ND, in_app_iff; auto). specialize (IH _ _ _ ND1 R1 Q1).
    assert (RM : run_from (m_step exec) (m_init arr late en) (tr1 ++ tr2) = Some m) by (apply run_from_app; eauto).
    assert (RM' : run_from (m_step exec) (m_init arr late en) ((tr1 ++ tr2) ++ [e]) = Some m') by (apply run_from_app; exists m; split; [exact RM|cbn [run_from]; now rewrite S]).
    destruct (cinv_run _ _ ND1 RM) as [C1 _ _]. destruct (cinv_run _ _ ND RM') as [C1' _ _].
    pose proof (minv_any exec arr late en _ m SH ND1 RM) as M. pose proof (grows _ _ _ S) as [G1 G2].
    destruct (count_step m m' e S) as ((lk & X1) & _).
    + apply ND, in_app_iff. right. now left.
    + apply (dropped_none _ _ (mi_pa _ _ _ M)).
    + intros BE. pose proof (mi_bound _ _ _ M) as BO. cbn in BO. pose proof (pulled_short _ _ (mi_pa _ _ _ M)) as PS. cbn in PS. lia.
    + intros T. destruct (mi_pend _ _ _ M) as (leaks & P & _). cbn in P. unfold then_list in P. cbn in P. destruct (m_then m); [|contradiction]. cbn in P. lia.
    + unfold gone in *. change (length (filter unacked (m_log m'))) with (cnt unacked (m_log m')). change (length (filter unacked (m_log m))) with (cnt unacked (m_log m)) in IH.
      pose proof (half_out m (tr1 ++ tr2)) as H1. pose proof (half_out m' ((tr1 ++ tr2) ++ [e])) as H2. rewrite begun_snoc in H2. lia.
Qed.
(** Once something is gone, the stream never ends, whatever happens afterwards. *)
Theorem C95_never_ends : forall tr1 tr2 s1 s2, no_dup (tr1 ++ tr2) ->
  run_from (m_step exec) (m_init arr late en) tr1 = Some s1 -> run_from (m_step exec) s1 tr2 = Some s2 ->
  0 < gone tr1 s1 -> m_rdone s2 = false /\ ended (m_log s2) = false.
Proof.
  intros tr1 tr2 s1 s2 ND R1 R2 G. pose proof (gone_mono _ _ _ _ ND R1 R2) as GM.
  assert (R : run_from (m_step exec) (m_init arr late en) (tr1 ++ tr2) = Some s2) by (apply run_from_app; eauto).
  pose proof (minv_any exec arr late en _ s2 SH ND R) as M. destruct (C95_counter _ _ ND R) as [C1 C2].
  assert (RD : m_rdone s2 = false).
  { destruct (m_rdone s2) eqn:D; [exfalso|reflexivity]. destruct (mi_rdone _ _ _ M D) as [_ PZ]. cbn in PZ. rewrite C2 in PZ. assert (gone (tr1 ++ tr2) s2 = 0) by (unfold gone, refused; lia). lia. }
  split; [exact RD|]. destruct (ended (m_log s2)) eqn:EN; [exfalso|reflexivity].
  assert (EN' : ended (m_log (rl s2)) = true).
  { cbn. unfold ended in *. apply existsb_exists in EN as (r & I & Q). apply existsb_exists. exists (rl_ret r). split; [now apply in_map|]. now destruct r. }
  destruct (mi_none _ _ _ M EN') as [RD' _]. cbn in RD'. congruence.
Qed.
(** When the sending is over and nothing is under way, the next look at the result queue ends the result side exactly if nothing is gone. *)
Theorem C95_iff_partial : forall tr s s', no_dup tr -> run_from (m_step exec) (m_init arr late en) tr = Some s ->
  pa_ret (m_pa s) <> None -> pa_dropped (m_pa s) = [] -> m_tasks s = [] -> m_rdone s = false ->
  m_step exec s MEmpty = Some s' -> (m_rdone s' = true <-> gone tr s = 0).
Proof.
  intros tr s s' ND R PR DR TA RD S. pose proof (minv_any exec arr late en _ s SH ND R) as M. destruct (C95_counter _ _ ND R) as [C1 C2].
  assert (CL : m_closed s = true).
  { pose proof (mi_closed _ _ _ M) as Z. cbn in Z. rewrite Z. apply (proj2 (mi_sent _ _ _ M)). exact PR. }
  cbn [m_step] in S. destruct (m_poll s) as [|[] k]; try discriminate S. destruct (m_then s) eqn:T; [discriminate S|]. destruct (m_results s) as [|r rs] eqn:RS; [|discriminate S]. injection S as <-.
  rewrite CL. assert (FU : pa_futs (m_pa s) = []) by (apply (pi_ret _ _ (mi_pa _ _ _ M)); exact PR).
  assert (GP : m_pending s = N.of_nat (gone tr s)).
  { rewrite C2. unfold gone, refused. cbn in FU, DR. rewrite FU, DR, TA, ?RS, ?T. change (@half_done (N * A) []) with (@nil (nat * (N * A))). cbn [length]. lia. }
  cbn [andb]. destruct (N.eqb_spec (m_pending s) 0) as [Z|Z].
  - split; [intros _; lia|]. intros _. unfold side_done. destruct k as [|[]|]; reflexivity.
  - split; [|intros Q; rewrite GP, Q in Z; now destruct Z]. unfold side_done. destruct k as [|[]|]; cbn; congruence.
Qed.
End Count.

Print Assumptions C95_counter.
Print Assumptions C95_never_ends.
Print Assumptions C95_iff_partial.

(** One item; the broker refuses its publication. The consumer gets the error, polls again and waits. *)
Definition refused_trace : list (m_event unit) :=
  [MPoll; MLeft PaPull; MLeft (PaStart 0); MEnv (PaReply 0 false); MLeft (PaFinish 0); MPoll; MEmpty; MLeftNone].
Definition one_input : list (res nat (N * N)) := [ROk (0, 5)%N].
Definition refused_state : mstate N N nat := match run_from (m_step dbl) (m_init one_input [] true) refused_trace with Some s => s | None => m_init [] [] true end.
(** The stream does not end although it has reported the error, nothing is under way and every poll is made. *)
Theorem C95_refuted : exists tr (s : mstate N N nat), no_dup tr /\ run_from (m_step dbl) (m_init one_input [] true) tr = Some s /\
  m_log s = [MPending; MErr (EPublish 0)] /\ m_tasks s = [] /\ m_results s = [] /\ m_then s = None /\ pa_futs (m_pa s) = [] /\ pa_dropped (m_pa s) = [] /\ m_closed s = true /\
  forall tr2 s2, no_dup tr2 -> run_from (m_step dbl) s tr2 = Some s2 -> ended (m_log s2) = false.
Proof.
  assert (ND : no_dup refused_trace) by (intros e I; cbn in I; repeat destruct I as [<-|I]; try reflexivity; contradiction).
  assert (R : run_from (m_step dbl) (m_init one_input [] true) refused_trace = Some refused_state) by (vm_compute; reflexivity).
  exists refused_trace, refused_state. split; [exact ND|]. split; [exact R|]. do 7 (split; [vm_compute; reflexivity|]).
  intros tr2 s2 ND2 R2. eapply (C95_never_ends dbl one_input [] true); [vm_compute; reflexivity| |exact R|exact R2|vm_compute; lia].
  intros e I. apply in_app_iff in I as [I|I]; auto.
Qed.
Print Assumptions C95_refuted.
(** A task that is lost: the other item is delivered, and the stream waits for ever. *)
Definition lost_trace : list (m_event unit) := firstn 13 two_trace ++ [MLose 0].
Example C95_lost_ex : option_map (fun s => (gone lost_trace s, m_pending s, length (m_tasks s), length (m_lost s))) (run_from (m_step dbl) (m_init two_inputs [] true) lost_trace) = Some (1, 2%N, 1, 1).
Proof. vm_compute. reflexivity. Qed.
(** The example of C12, to where both results are acknowledged: nothing is gone and the next look ends the result side. *)
Definition done_trace : list (m_event unit) := firstn 29 two_trace.
Example C95_iff_ex : exists s s', no_dup done_trace /\ run_from (m_step dbl) (m_init two_inputs [] true) done_trace = Some s /\ pa_ret (m_pa s) = Some PaOk /\ pa_dropped (m_pa s) = [] /\
  m_tasks s = [] /\ m_rdone s = false /\ m_step dbl s MEmpty = Some s' /\ m_rdone s' = true /\ gone done_trace s = 0 /\ length (yielded (m_log s)) = 2.
Proof.
  do 2 eexists. split; [intros e I; cbn in I; repeat destruct I as [<-|I]; try reflexivity; contradiction|]. split; [vm_compute; reflexivity|].
  do 4 (split; [vm_compute; reflexivity|]). split; [vm_compute; reflexivity|]. do 2 (split; [vm_compute; reflexivity|]). vm_compute. reflexivity.
Qed.
