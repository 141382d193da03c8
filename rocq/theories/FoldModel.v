(** Model of the fold directive over an indexed stream
    (paladin-core/src/directive/indexed_stream/foldable.rs, [f_fold], 133-297).

    All branches of the final [select!] (287-296) run in one task, and the code between two await
    points that can really suspend is atomic with respect to the other branches.  Hence one event of
    the model is one such piece of code, or one action of the environment (broker, worker). *)
From Coq Require Import List NArith Bool.
From Verif Require Import Base ContiguousModel.
Import ListNotations.
Open Scope N_scope.

Section Fold.
  (** [M::Elem], error payloads, and whatever the outcome of one execution of [combine] depends on
      besides its arguments (time, randomness, retries ...). *)
  Variable A : Type.
  Variable E : Type.
  Variable O : Type.
  (** [Monoid::combine] as executed by a worker, operation/mod.rs:183-196: the answer published by the worker,
      after retries; [RErr] is [AnyTaskResult::Err]. *)
  Variable comb : O -> A -> A -> res E A.
  (** [Monoid::empty]. *)
  Variable empty : A.

  (** foldable.rs:105-112: the task dispatched for a pair; the range is [lhs.start..=rhs.end]. *)
  Record ftask : Type := mkTask { ft_lo : N; ft_hi : N; ft_l : A; ft_r : A }.

  (** Errors [f_fold] can return. *)
  Inductive ferr : Type :=
  | ErrInput (e : E)       (* the input stream yielded an error, 172 *)
  | ErrWorker (e : E)      (* [result?], 250 *)
  | ErrAck                 (* [acker.ack()], 255 and 265 *)
  | ErrPublish             (* [publish_all], 279-281 *)
  | ErrClose               (* 292-293 *)
  | ErrTxTaken.            (* 258 *)

  Inductive foutcome : Type :=
  | RetOk (a : A)
  | RetErr (e : ferr)
  | Panicked.              (* 223, [expect] *)

  (** The local variables of [f_fold] and the environment's queues. *)
  Record fstate : Type := mkF {
    f_inp : list (res E (N * A));   (* what the input stream has yet to yield, in order of arrival *)
    f_ended : bool;                 (* resolved_input_size is not usize::MAX, 166 and 211 *)
    f_count : N;                    (* count, 158 *)
    f_asm : cqueue (item A);        (* assembler, 143 *)
    f_chan : list ftask;            (* tx/rx, 142 *)
    f_tasks : list ftask;           (* published, not yet executed *)
    f_results : list (res E (item A)); (* published by workers, not yet received *)
    f_final : option (item A);      (* the oneshot channel, 232 *)
    f_ret : option foutcome;        (* what [f_fold] has returned *)
    f_disp : nat                    (* ghost: number of tasks ever dispatched *)
  }.

  Definition fold_init (inp : list (res E (N * A))) : fstate :=
    mkF inp false 0 [] [] [] [] None None 0.

  Definition f_return (s : fstate) (o : foutcome) : fstate :=
    mkF (f_inp s) (f_ended s) (f_count s) (f_asm s) (f_chan s) (f_tasks s) (f_results s) (f_final s) (Some o) (f_disp s).

  (** foldable.rs:103-118.  [tx.send] on a fresh clone of the sender always enqueues on its first
      poll (a new futures mpsc sender is never parked), so dispatching is atomic; waiting for the flush only
      delays the end of [init], which the model lets happen arbitrarily late. *)
  Definition try_dispatch (s : fstate) (it : item A) : fstate :=
    match cq_acquire item_key is_contiguous (f_asm s) it with
    | (Some (l, r), q') =>
        mkF (f_inp s) (f_ended s) (f_count s) q'
            (f_chan s ++ [mkTask (it_lo l) (it_hi r) (it_val l) (it_val r)])
            (f_tasks s) (f_results s) (f_final s) (f_ret s) (S (f_disp s))
    | (None, q') =>
        mkF (f_inp s) (f_ended s) (f_count s) q' (f_chan s)
            (f_tasks s) (f_results s) (f_final s) (f_ret s) (f_disp s)
    end.

  Inductive fevent : Type :=
  | EvInput                          (* [init] receives the next item of the stream *)
  | EvInputEnd                       (* [init] sees the end of the stream and all its futures are done *)
  | EvPublish (i : nat) (ok : bool)  (* [task_handler] publishes a task from the channel *)
  | EvWork (i : nat) (o : O)         (* a worker executes a published task and publishes the answer *)
  | EvResult (i : nat) (ack : bool)  (* [result_processor] handles a delivered result *)
  | EvFinal (ok : bool)              (* the oneshot branch of [select!] *)
  | EvDropTask (i : nat)             (* a task is lost: ignored failure, skipped job, crashed worker *)
  | EvDropResult (i : nat)
  | EvDupTask (i : nat)              (* the broker delivers twice *)
  | EvDupResult (i : nat).

  Definition set_inp (s : fstate) (inp : list (res E (N * A))) : fstate :=
    mkF inp (f_ended s) (f_count s) (f_asm s) (f_chan s) (f_tasks s) (f_results s) (f_final s) (f_ret s) (f_disp s).
  Definition set_count (s : fstate) (c : N) : fstate :=
    mkF (f_inp s) (f_ended s) c (f_asm s) (f_chan s) (f_tasks s) (f_results s) (f_final s) (f_ret s) (f_disp s).
  Definition set_asm (s : fstate) (q : cqueue (item A)) : fstate :=
    mkF (f_inp s) (f_ended s) (f_count s) q (f_chan s) (f_tasks s) (f_results s) (f_final s) (f_ret s) (f_disp s).
  Definition set_chan (s : fstate) (c : list ftask) : fstate :=
    mkF (f_inp s) (f_ended s) (f_count s) (f_asm s) c (f_tasks s) (f_results s) (f_final s) (f_ret s) (f_disp s).
  Definition set_tasks (s : fstate) (t : list ftask) : fstate :=
    mkF (f_inp s) (f_ended s) (f_count s) (f_asm s) (f_chan s) t (f_results s) (f_final s) (f_ret s) (f_disp s).
  Definition set_results (s : fstate) (r : list (res E (item A))) : fstate :=
    mkF (f_inp s) (f_ended s) (f_count s) (f_asm s) (f_chan s) (f_tasks s) r (f_final s) (f_ret s) (f_disp s).
  Definition set_final (s : fstate) (r : option (item A)) : fstate :=
    mkF (f_inp s) (f_ended s) (f_count s) (f_asm s) (f_chan s) (f_tasks s) (f_results s) r (f_ret s) (f_disp s).
  Definition set_ended (s : fstate) : fstate :=
    mkF (f_inp s) true (f_count s) (f_asm s) (f_chan s) (f_tasks s) (f_results s) (f_final s) (f_ret s) (f_disp s).

  (** foldable.rs:172-201, one item.  The counter cannot overflow: there are fewer than 2^64 items. *)
  Definition on_input (s : fstate) (it : N * A) : fstate :=
    let item_result := mkItem (fst it) (fst it) (snd it) in
    let next_sum := f_count s + 1 in
    let s := set_count s next_sum in
    if next_sum <? 2 then set_asm s (cq_queue item_key (f_asm s) item_result)
    else try_dispatch s item_result.

  (** foldable.rs:202-230. *)
  Definition on_input_end (s : fstate) : fstate :=
    let s := set_ended s in
    if f_count s =? 0 then f_return s (RetOk empty)
    else if f_count s =? 1 then
      match cq_dequeue (f_asm s) 0 with
      | (Some it, q') => f_return (set_asm s q') (RetOk (it_val it))
      | (None, _) => f_return s Panicked
      end
    else s.

  (** foldable.rs:249-268, one delivered result.  [ack] is whether [acker.ack()] succeeds.  At 265 the
      dispatch happens before the outcome of the ack is seen. *)
  Definition on_result (s : fstate) (r : res E (item A)) (ack : bool) : fstate :=
    match r with
    | RErr e => f_return s (RetErr (ErrWorker e))
    | ROk it =>
        if f_ended s && is_final it (f_count s) then
          if ack then
            match f_final s with
            | None => set_final s (Some it)
            | Some _ => f_return s (RetErr ErrTxTaken)
            end
          else f_return s (RetErr ErrAck)
        else
          let s := try_dispatch s it in
          if ack then s else f_return s (RetErr ErrAck)
    end.

  (** One event.  After [f_fold] has returned nothing happens any more. *)
  Definition fold_step (s : fstate) (e : fevent) : option fstate :=
    match f_ret s with
    | Some _ => None
    | None =>
        match e with
        | EvInput =>
            match f_inp s with
            | [] => None
            | RErr x :: r => Some (f_return (set_inp s r) (RetErr (ErrInput x)))
            | ROk it :: r => Some (on_input (set_inp s r) it)
            end
        | EvInputEnd =>
            match f_inp s with
            | [] => if f_ended s then None else Some (on_input_end s)
            | _ :: _ => None
            end
        | EvPublish i ok =>
            match pick i (f_chan s) with
            | None => None
            | Some (t, c) =>
                if ok then Some (set_tasks (set_chan s c) (f_tasks s ++ [t]))
                else Some (f_return (set_chan s c) (RetErr ErrPublish))
            end
        | EvWork i o =>
            match pick i (f_tasks s) with
            | None => None
            | Some (t, ts) =>
                let answer := match comb o (ft_l t) (ft_r t) with
                              | ROk v => ROk (mkItem (ft_lo t) (ft_hi t) v)
                              | RErr x => RErr x
                              end in
                Some (set_results (set_tasks s ts) (f_results s ++ [answer]))
            end
        | EvResult i ack =>
            (* 240: results are not consumed before the second input *)
            if 2 <=? f_count s then
              match pick i (f_results s) with
              | None => None
              | Some (r, rs) => Some (on_result (set_results s rs) r ack)
              end
            else None
        | EvFinal ok =>
            match f_final s with
            | None => None
            | Some it => Some (f_return s (if ok then RetOk (it_val it) else RetErr ErrClose))
            end
        | EvDropTask i =>
            match pick i (f_tasks s) with
            | None => None
            | Some (_, ts) => Some (set_tasks s ts)
            end
        | EvDropResult i =>
            match pick i (f_results s) with
            | None => None
            | Some (_, rs) => Some (set_results s rs)
            end
        | EvDupTask i =>
            match nth_error (f_tasks s) i with
            | None => None
            | Some t => Some (set_tasks s (f_tasks s ++ [t]))
            end
        | EvDupResult i =>
            match nth_error (f_results s) i with
            | None => None
            | Some r => Some (set_results s (f_results s ++ [r]))
            end
        end
    end.

  Definition fold_run (inp : list (res E (N * A))) (tr : list fevent) : option fstate :=
    run_from fold_step (fold_init inp) tr.

  (** Schedules without faults of the broker, the channel or the acknowledgements. *)
  Definition nofault (e : fevent) : bool :=
    match e with
    | EvInput | EvInputEnd | EvPublish _ true | EvWork _ _ | EvResult _ true | EvFinal true => true
    | _ => false
    end.
End Fold.

Arguments mkTask {A}. Arguments ft_lo {A}. Arguments ft_hi {A}. Arguments ft_l {A}. Arguments ft_r {A}.
Arguments ErrInput {E}. Arguments ErrWorker {E}. Arguments ErrAck {E}. Arguments ErrPublish {E}.
Arguments ErrClose {E}. Arguments ErrTxTaken {E}.
Arguments RetOk {A E}. Arguments RetErr {A E}. Arguments Panicked {A E}.
Arguments f_inp {A E}. Arguments f_ended {A E}. Arguments f_count {A E}. Arguments f_asm {A E}.
Arguments f_chan {A E}. Arguments f_tasks {A E}. Arguments f_results {A E}. Arguments f_final {A E}.
Arguments f_ret {A E}. Arguments f_disp {A E}.
Arguments EvInput {O}. Arguments EvInputEnd {O}. Arguments EvPublish {O}. Arguments EvWork {O}.
Arguments EvResult {O}. Arguments EvFinal {O}. Arguments EvDropTask {O}. Arguments EvDropResult {O}.
Arguments EvDupTask {O}. Arguments EvDupResult {O}.
Arguments fold_init {A E}. Arguments fold_step {A E O}. Arguments fold_run {A E O}.
Arguments try_dispatch {A E}. Arguments on_input {A E}. Arguments on_input_end {A E}. Arguments on_result {A E}.
Arguments f_return {A E}. Arguments set_inp {A E}. Arguments set_count {A E}. Arguments set_asm {A E}.
Arguments set_chan {A E}. Arguments set_tasks {A E}. Arguments set_results {A E}.
Arguments set_final {A E}. Arguments set_ended {A E}. Arguments nofault {O}. Arguments mkF {A E}.
