(** [publish_all] (paladin-core/src/queue/publisher.rs:58-74) over futures-util 0.3.31's [TryForEachConcurrent], one micro-step at a
    time, with the wakers of the task that polls it. The stream and the inner publisher are the environment.

    A poll of [TryForEachConcurrent] repeats: take an item if fewer than [limit] futures exist, then poll one future; it leaves with
    Pending when an iteration made no progress. The order in which [FuturesUnordered] polls woken futures is left open. *)
From Coq Require Import List Arith NArith Bool.
From Verif Require Import Base.
Import ListNotations.

Section PublishAll.
Context {T E : Type}.

(** One [publish] call (the async block at publisher.rs:68-71). *)
Inductive fut : Type :=
| FNew                          (* created, never polled *)
| FWait (acc reg : bool)        (* called the inner publisher; [acc]: the message was accepted; [reg]: its poll returned Pending *)
| FReady (ok : bool).           (* the inner publisher has the answer, the future was not polled since *)

(** How the whole call ended. *)
Inductive pa_result : Type :=
| PaOk
| PaInput (e : E)               (* the stream yielded an error *)
| PaPublish (n : nat).          (* publishing item number [n] failed *)

Record pall : Type := mkPA {
  pa_limit : option nat;               (* None: unlimited *)
  pa_arr : list (res E T);             (* items the stream could yield at once *)
  pa_late : list (res E T);            (* items still to come *)
  pa_end : bool;                       (* the stream knows that it has ended (after the items above) *)
  pa_open : bool;                      (* the stream field is still Some *)
  pa_inreg : bool;                     (* the last poll of the stream returned Pending: it holds the waker *)
  pa_futs : list (nat * T * fut);      (* the FuturesUnordered, with the number of the item *)
  pa_ret : option pa_result;
  pa_woken : bool;                     (* the waker was called *)
  pa_pulled : list T;                  (* ghost: items taken from the stream *)
  pa_acc : list (nat * T);             (* ghost: messages accepted by the inner publisher, in order *)
  pa_dropped : list (nat * T)          (* dropped while the inner publisher was busy: the broker may still accept them *)
}.

(** [limit.into().and_then(NonZeroUsize::new)]: zero means no limit. *)
Definition norm_limit (l : option nat) : option nat := match l with Some O => None | x => x end.

Definition pa_init (limit : option nat) (arrived late : list (res E T)) (ended : bool) : pall :=
  mkPA (norm_limit limit) arrived late (match late with [] => ended | _ => false end) true false [] None false [] [] [].

Definition may_pull (s : pall) : bool :=
  match pa_limit s with None => true | Some l => Nat.ltb (length (pa_futs s)) l end.

(** Futures dropped after they handed their message to the inner publisher. *)
Definition half_done (l : list (nat * T * fut)) : list (nat * T) :=
  map fst (filter (fun f => match snd f with FWait false _ => true | _ => false end) l).

(** Returning drops the stream and the remaining futures. *)
Definition pa_return (s : pall) (r : pa_result) : pall :=
  mkPA (pa_limit s) (pa_arr s) (pa_late s) (pa_end s) false (pa_inreg s) [] (Some r) (pa_woken s) (pa_pulled s) (pa_acc s)
       (half_done (pa_futs s)).

Definition set_futs (s : pall) (l : list (nat * T * fut)) : pall :=
  mkPA (pa_limit s) (pa_arr s) (pa_late s) (pa_end s) (pa_open s) (pa_inreg s) l (pa_ret s) (pa_woken s) (pa_pulled s) (pa_acc s) (pa_dropped s).
Definition set_woken (s : pall) (w : bool) : pall :=
  mkPA (pa_limit s) (pa_arr s) (pa_late s) (pa_end s) (pa_open s) (pa_inreg s) (pa_futs s) (pa_ret s) w (pa_pulled s) (pa_acc s) (pa_dropped s).

Inductive pa_event : Type :=
(* steps of a poll *)
| PaPull                      (* poll the stream, if the limit allows *)
| PaStart (i : nat)           (* first poll of future [i]: calls the inner publisher *)
| PaRefuse (i : nat)          (* first poll of future [i]: the publisher refuses at once *)
| PaCheck (i : nat)           (* poll of future [i] without an answer: Pending, holds the waker *)
| PaFinish (i : nat)          (* poll of future [i] with an answer *)
| PaReturn                    (* no futures and no stream left: Ready(Ok) *)
(* the environment *)
| PaArrive                    (* the stream gets its next item *)
| PaEnd                       (* the stream learns that it has ended *)
| PaAccept (i : nat)          (* the message of future [i] is accepted *)
| PaReply (i : nat) (ok : bool)
| PaAcceptDropped (i : nat).  (* a dropped call takes effect after all *)

Definition pa_step (s : pall) (e : pa_event) : option pall :=
  match pa_ret s with
  | Some r =>
      (* nobody listens any more *)
      match e with
      | PaAcceptDropped i =>
          match pick i (pa_dropped s) with
          | Some (m, d) => Some (mkPA (pa_limit s) (pa_arr s) (pa_late s) (pa_end s) (pa_open s) (pa_inreg s) (pa_futs s) (Some r)
                                   (pa_woken s) (pa_pulled s) (pa_acc s ++ [m]) d)
          | None => None
          end
      | _ => None
      end
  | None =>
    match e with
    | PaPull =>
        if pa_open s && may_pull s then
          match pa_arr s with
          | ROk x :: r =>
              Some (mkPA (pa_limit s) r (pa_late s) (pa_end s) true false
                      (pa_futs s ++ [(length (pa_pulled s), x, FNew)]) None (pa_woken s) (pa_pulled s ++ [x]) (pa_acc s) (pa_dropped s))
          | RErr e :: r =>
              Some (pa_return (mkPA (pa_limit s) r (pa_late s) (pa_end s) true false
                      (pa_futs s) None (pa_woken s) (pa_pulled s) (pa_acc s) (pa_dropped s)) (PaInput e))
          | [] =>
              if pa_end s then
                Some (mkPA (pa_limit s) [] (pa_late s) true false false (pa_futs s) None (pa_woken s) (pa_pulled s) (pa_acc s) (pa_dropped s))
              else
                Some (mkPA (pa_limit s) [] (pa_late s) false true true (pa_futs s) None (pa_woken s) (pa_pulled s) (pa_acc s) (pa_dropped s))
          end
        else None
    | PaStart i =>
        match nth_error (pa_futs s) i with
        | Some (n, x, FNew) => Some (set_futs s (upd i (n, x, FWait false false) (pa_futs s)))
        | _ => None
        end
    | PaRefuse i =>
        match nth_error (pa_futs s) i with
        | Some (n, x, FNew) => Some (set_futs s (upd i (n, x, FReady false) (pa_futs s)))
        | _ => None
        end
    | PaCheck i =>
        match nth_error (pa_futs s) i with
        | Some (n, x, FWait a false) => Some (set_futs s (upd i (n, x, FWait a true) (pa_futs s)))
        | _ => None
        end
    | PaFinish i =>
        match pick i (pa_futs s) with
        | Some ((n, x, FReady true), r) => Some (set_futs s r)
        | Some ((n, x, FReady false), r) => Some (pa_return s (PaPublish n))
        | _ => None
        end
    | PaReturn =>
        if pa_open s then None
        else match pa_futs s with [] => Some (pa_return s PaOk) | _ => None end
    | PaArrive =>
        match pa_late s with
        | x :: r => Some (mkPA (pa_limit s) (pa_arr s ++ [x]) r (pa_end s) (pa_open s) false (pa_futs s) None
                            (pa_woken s || pa_inreg s) (pa_pulled s) (pa_acc s) (pa_dropped s))
        | [] => None
        end
    | PaEnd =>
        match pa_late s with
        | [] => if pa_end s then None
                else Some (mkPA (pa_limit s) (pa_arr s) [] true (pa_open s) false (pa_futs s) None
                            (pa_woken s || pa_inreg s) (pa_pulled s) (pa_acc s) (pa_dropped s))
        | _ => None
        end
    | PaAccept i =>
        match nth_error (pa_futs s) i with
        | Some (n, x, FWait false r) =>
            Some (mkPA (pa_limit s) (pa_arr s) (pa_late s) (pa_end s) (pa_open s) (pa_inreg s)
                    (upd i (n, x, FWait true r) (pa_futs s)) None (pa_woken s) (pa_pulled s) (pa_acc s ++ [(n, x)]) (pa_dropped s))
        | _ => None
        end
    | PaReply i ok =>
        match nth_error (pa_futs s) i with
        | Some (n, x, FWait a r) =>
            if negb ok || a then
              Some (set_woken (set_futs s (upd i (n, x, FReady ok) (pa_futs s))) (pa_woken s || r))
            else None
        | _ => None
        end
    | PaAcceptDropped _ => None
    end
  end.

(** A poll may leave with Pending: nothing more to do now. *)
Definition pa_idle (s : pall) : bool :=
  match pa_ret s with Some _ => false | None => true end
  && forallb (fun f => match snd f with FWait _ true => true | _ => false end) (pa_futs s)
  && (pa_inreg s || negb (may_pull s) || (negb (pa_open s) && negb (match pa_futs s with [] => true | _ => false end))).
End PublishAll.
Arguments pall : clear implicits.
Arguments pa_result : clear implicits.
