(** AMQP connections (paladin-core/src/queue/amqp.rs) and the broker behind them.

    A call of the connection is the list of the broker operations it awaits, in order; calls of all connections interleave. The broker and the
    client library lapin are modelled from their documentation (AMQP 0-9-1, RabbitMQ):
    - a queue is a list; a delivery takes the first message for one of the queue's consumers, as long as that consumer has fewer
      unanswered deliveries than its prefetch limit (basic.qos applies to each consumer; 0 means no limit);
    - ack removes a delivery; nack with requeue = false, which is the default of lapin's options, removes it too;
    - when a channel closes, its unanswered deliveries go back to their old positions in their queues and its consumers are gone;
    - a message for the default exchange with no queue of that name is dropped; publishing to or binding a missing exchange, and consuming
      from a missing queue, close the channel;
    - deleting what does not exist is not an error; a deleted queue loses its messages, bindings and consumers;
    - lapin's consumer stores the waker at each poll, and each new delivery wakes it.
    Every AMQPConnection has one channel, and clones share it: [c] stands for both. Durability is not modelled (the broker does not
    restart); all declarations of a name have the same. Delivery errors (lapin's [Err], 522-526), which come with the closing of the channel, are not
    modelled; deliveries still in the client's buffer when the channel closes count as lost with it. Any list of operations can be
    a call, so the theorems hold for more programs than this crate. *)
From Coq Require Import List Arith Bool.
From Verif Require Import Base ConnModel.
Import ListNotations.

Inductive mode : Type := Single | Broadcast.
Record bmsg : Type := mkM { m_id : nat; m_pub : nat; m_body : nat }.   (* number of the copy, number of the publication *)
Inductive place : Type :=
| InBuffer        (* delivered to the client, not polled *)
| InHand          (* returned by poll_next, with its acker *)
| Dropped.        (* not decodable: the delivery is dropped without an answer, 521-526 *)
Record flight : Type := mkF { f_msg : bmsg; f_q : nat; f_cons : nat; f_at : place }.
Record kons : Type := mkK { k_conn : nat; k_q : nat; k_live : bool; k_awake : bool }.

Inductive bop : Type :=
| OExchange (n : nat) | OQueue (n : nat) | OBind (n : nat)
| OQueueDelete (n : nat) | OExchangeDelete (n : nat)
| OPublish (m : mode) (n body : nat)
| OConsume (n : nat).

(** amqp.rs:303-308 with 191-230 and 244-263, [declare_queue]; the exchange and the queue have the same name. *)
Definition declare_ops (m : mode) (n : nat) : list bop :=
  match m with
  | Single => [OQueue n]
  | Broadcast => [OExchange n; OQueue n; OBind n]
  end.
(** 310-324, [delete_queue]: nothing is ever inserted into queue_options, so the entry is vacant and [delete_broadcast] (232-242) runs. *)
Definition delete_ops (n : nat) : list bop := [OQueueDelete n; OExchangeDelete n].
(** 428-433 with 328-362, [publish]. *)
Definition publish_ops (m : mode) (n body : nat) : list bop := [OPublish m n body].
(** paladin-core/src/channel/queue.rs:174-196: a sender declares the queue; a receiver also consumes (473-497). *)
Definition receiver_ops (m : mode) (n : nat) : list bop := declare_ops m n ++ [OConsume n].

(** What happened, newest first. *)
Inductive bact : Type :=
| BPub (p n : nat) (m : mode) (body : nat)
| BRoute (p id q : nat)             (* a copy was put in a queue *)
| BCons (k c q : nat)               (* a consumer was declared *)
| BGive (id k c : nat)              (* delivered to consumer [k] of connection [c] *)
| BYield (k p x : nat)              (* poll_next returned the payload *)
| BAck (id : nat) | BNack (id : nat)
| BClose (c : nat)
| BGone (q : nat).                  (* queue deleted or expired *)

Record broker : Type := mkB {
  b_map : list (nat * nat);         (* name to queue *)
  b_made : nat;                     (* number of queues ever made *)
  b_exch : list nat;
  b_bind : list (nat * nat);        (* exchange to queue *)
  b_ready : list (nat * bmsg);      (* queue and message *)
  b_flight : list flight;           (* unanswered deliveries, oldest first *)
  b_cons : list kons;               (* all consumers ever *)
  b_dead : list nat;                (* closed connections *)
  b_calls : list (nat * list bop);  (* calls under way *)
  b_pubs : nat;
  b_next : nat;
  b_log : list bact
}.
Definition b_init : broker := mkB [] 0 [] [] [] [] [] [] [] 0 0 [].

Section Amqp.
Variable decode : nat -> option nat.     (* Serializer::from_bytes *)
Variable qos : nat -> nat.               (* prefetch limit of a connection, 180: the option, or 1 *)

(** The first element satisfying [f], with what is before and after it. *)
Fixpoint cut {A : Type} (f : A -> bool) (l : list A) : option (list A * A * list A) :=
  match l with
  | [] => None
  | x :: r => if f x then Some ([], x, r) else match cut f r with Some (a, y, b) => Some (x :: a, y, b) | None => None end
  end.
(** A message put back takes its old position: before the first one published later. *)
Fixpoint put_back (x : nat * bmsg) (l : list (nat * bmsg)) : list (nat * bmsg) :=
  match l with
  | [] => [x]
  | y :: r => if m_id (snd x) <? m_id (snd y) then x :: l else y :: put_back x r
  end.

Definition of_conn (s : broker) (c k : nat) : bool := match nth_error (b_cons s) k with Some x => Nat.eqb (k_conn x) c | None => false end.
Definition known (q : nat) (s : broker) : bool := existsb (fun p => Nat.eqb (snd p) q) (b_map s).
(** The channel of [c] closes. *)
Definition close (s : broker) (c : nat) : broker :=
  let back := filter (fun f => of_conn s c (f_cons f)) (b_flight s) in
  mkB (b_map s) (b_made s) (b_exch s) (b_bind s)
    (fold_right put_back (b_ready s) (map (fun f => (f_q f, f_msg f)) (filter (fun f => known (f_q f) s) back)))
    (filter (fun f => negb (of_conn s c (f_cons f))) (b_flight s))
    (map (fun x => if Nat.eqb (k_conn x) c then mkK (k_conn x) (k_q x) false (k_awake x) else x) (b_cons s))
    (c :: b_dead s) (filter (fun p => negb (Nat.eqb (fst p) c)) (b_calls s)) (b_pubs s) (b_next s) (BClose c :: b_log s).
Definition gone (s : broker) (n q : nat) : broker :=
  mkB (remove n (b_map s)) (b_made s) (b_exch s) (filter (fun p => negb (Nat.eqb (snd p) q)) (b_bind s))
    (filter (fun p => negb (Nat.eqb (fst p) q)) (b_ready s)) (b_flight s)
    (map (fun x => if Nat.eqb (k_q x) q then mkK (k_conn x) (k_q x) false (k_awake x) else x) (b_cons s))
    (b_dead s) (b_calls s) (b_pubs s) (b_next s) (BGone q :: b_log s).
Fixpoint route (s : broker) (p body : nat) (qs : list nat) : broker :=
  match qs with
  | [] => s
  | q :: r =>
      route (mkB (b_map s) (b_made s) (b_exch s) (b_bind s) (b_ready s ++ [(q, mkM (b_next s) p body)]) (b_flight s) (b_cons s) (b_dead s) (b_calls s)
               (b_pubs s) (S (b_next s)) (BRoute p (b_next s) q :: b_log s)) p body r
  end.
Definition publish (s : broker) (m : mode) (n body : nat) (qs : list nat) : broker :=
  route (mkB (b_map s) (b_made s) (b_exch s) (b_bind s) (b_ready s) (b_flight s) (b_cons s) (b_dead s) (b_calls s)
           (S (b_pubs s)) (b_next s) (BPub (b_pubs s) n m body :: b_log s)) (b_pubs s) body qs.
Definition bound (s : broker) (n : nat) : list nat := map snd (filter (fun p => Nat.eqb (fst p) n) (b_bind s)).
Definition has (n : nat) (l : list nat) : bool := existsb (Nat.eqb n) l.

(** One broker operation of connection [c]. *)
Definition do_op (s : broker) (c : nat) (o : bop) : broker :=
  match o with
  | OExchange n =>
      mkB (b_map s) (b_made s) (if has n (b_exch s) then b_exch s else n :: b_exch s) (b_bind s) (b_ready s) (b_flight s) (b_cons s) (b_dead s) (b_calls s)
        (b_pubs s) (b_next s) (b_log s)
  | OQueue n =>
      match lookup n (b_map s) with
      | Some _ => s
      | None => mkB ((n, b_made s) :: b_map s) (S (b_made s)) (b_exch s) (b_bind s) (b_ready s) (b_flight s) (b_cons s) (b_dead s) (b_calls s) (b_pubs s) (b_next s) (b_log s)
      end
  | OBind n =>
      match has n (b_exch s), lookup n (b_map s) with
      | true, Some q =>
          mkB (b_map s) (b_made s) (b_exch s) (if existsb (fun p => Nat.eqb (fst p) n && Nat.eqb (snd p) q) (b_bind s) then b_bind s else (n, q) :: b_bind s)
            (b_ready s) (b_flight s) (b_cons s) (b_dead s) (b_calls s) (b_pubs s) (b_next s) (b_log s)
      | _, _ => close s c
      end
  | OQueueDelete n => match lookup n (b_map s) with Some q => gone s n q | None => s end
  | OExchangeDelete n =>
      mkB (b_map s) (b_made s) (filter (fun x => negb (Nat.eqb x n)) (b_exch s)) (filter (fun p => negb (Nat.eqb (fst p) n)) (b_bind s))
        (b_ready s) (b_flight s) (b_cons s) (b_dead s) (b_calls s) (b_pubs s) (b_next s) (b_log s)
  | OPublish Single n body => publish s Single n body (match lookup n (b_map s) with Some q => [q] | None => [] end)
  | OPublish Broadcast n body => if has n (b_exch s) then publish s Broadcast n body (bound s n) else close (publish s Broadcast n body []) c
  | OConsume n =>
      match lookup n (b_map s) with
      | Some q =>
          mkB (b_map s) (b_made s) (b_exch s) (b_bind s) (b_ready s) (b_flight s) (b_cons s ++ [mkK c q true true]) (b_dead s) (b_calls s) (b_pubs s) (b_next s)
            (BCons (length (b_cons s)) c q :: b_log s)
      | None => close s c
      end
  end.

Inductive b_event : Type :=
| ECall (c : nat) (ops : list bop)     (* a connection method is called *)
| EOp (i : nat)                        (* the next operation of a call *)
| EDeliver (k : nat)
| EPoll (k : nat)                      (* the task that was woken polls the consumer, 512-536 *)
| EWake (k : nat)                      (* something else makes that task poll *)
| EAck (id : nat) | ENack (id : nat)   (* 546-554 *)
| ECrash (c : nat)                     (* the connection is lost or closed, or its process dies *)
| EExpire (n : nat).                   (* x-expires: unused for 30 minutes, 99-107 *)

Definition held (s : broker) (k : nat) : nat := length (filter (fun f => Nat.eqb (f_cons f) k) (b_flight s)).
Definition set_flight (s : broker) (l : list flight) (ks : list kons) (a : list bact) : broker :=
  mkB (b_map s) (b_made s) (b_exch s) (b_bind s) (b_ready s) l ks (b_dead s) (b_calls s) (b_pubs s) (b_next s) (a ++ b_log s).
Definition awake (b : bool) (x : kons) : kons := mkK (k_conn x) (k_q x) (k_live x) b.
Definition in_buffer (k : nat) (f : flight) : bool := Nat.eqb (f_cons f) k && match f_at f with InBuffer => true | _ => false end.
Definition in_hand (id : nat) (f : flight) : bool := Nat.eqb (m_id (f_msg f)) id && match f_at f with InHand => true | _ => false end.
Definition move (f : flight) (p : place) : flight := mkF (f_msg f) (f_q f) (f_cons f) p.

Definition b_step (s : broker) (e : b_event) : option broker :=
  match e with
  | ECall c ops =>
      if has c (b_dead s) then None
      else Some (mkB (b_map s) (b_made s) (b_exch s) (b_bind s) (b_ready s) (b_flight s) (b_cons s) (b_dead s) (b_calls s ++ [(c, ops)]) (b_pubs s) (b_next s) (b_log s))
  | EOp i =>
      match nth_error (b_calls s) i with
      | Some (c, o :: ops) =>
          Some (do_op (mkB (b_map s) (b_made s) (b_exch s) (b_bind s) (b_ready s) (b_flight s) (b_cons s) (b_dead s) (upd i (c, ops) (b_calls s)) (b_pubs s) (b_next s) (b_log s)) c o)
      | _ => None
      end
  | EDeliver k =>
      match nth_error (b_cons s) k with
      | Some x =>
          if k_live x && ((qos (k_conn x) =? 0) || (held s k <? qos (k_conn x))) then
            match cut (fun p => Nat.eqb (fst p) (k_q x)) (b_ready s) with
            | Some (a, (q, m), b) =>
                Some (mkB (b_map s) (b_made s) (b_exch s) (b_bind s) (a ++ b) (b_flight s ++ [mkF m q k InBuffer]) (upd k (awake true x) (b_cons s)) (b_dead s) (b_calls s)
                        (b_pubs s) (b_next s) (BGive (m_id m) k (k_conn x) :: b_log s))
            | None => None
            end
          else None
      | None => None
      end
  | EPoll k =>
      match nth_error (b_cons s) k with
      | Some x =>
          if k_awake x then
            match cut (in_buffer k) (b_flight s) with
            | Some (a, f, b) =>
                match decode (m_body (f_msg f)) with
                | Some y => Some (set_flight s (a ++ move f InHand :: b) (b_cons s) [BYield k (m_pub (f_msg f)) y])
                | None => Some (set_flight s (a ++ move f Dropped :: b) (upd k (awake false x) (b_cons s)) [])
                end
            | None => Some (set_flight s (b_flight s) (upd k (awake false x) (b_cons s)) [])
            end
          else None
      | None => None
      end
  | EWake k =>
      match nth_error (b_cons s) k with
      | Some x => Some (set_flight s (b_flight s) (upd k (awake true x) (b_cons s)) [])
      | None => None
      end
  | EAck id =>
      match cut (in_hand id) (b_flight s) with
      | Some (a, _, b) => Some (set_flight s (a ++ b) (b_cons s) [BAck id])
      | None => None
      end
  | ENack id =>
      match cut (in_hand id) (b_flight s) with
      | Some (a, _, b) => Some (set_flight s (a ++ b) (b_cons s) [BNack id])
      | None => None
      end
  | ECrash c => if has c (b_dead s) then None else Some (close s c)
  | EExpire n =>
      match lookup n (b_map s) with
      | Some q => if existsb (fun x => k_live x && Nat.eqb (k_q x) q) (b_cons s) then None else Some (gone s n q)
      | None => None
      end
  end.
End Amqp.
