(** Durability over AMQP: what the options of queues mean when the broker restarts (paladin-core/src/queue/mod.rs, 18-61;
    paladin-core/src/queue/amqp.rs, 68-120, 191-263, 303-324 and 328-362; paladin-core/src/channel/queue.rs, 101-117).

    The broker is modelled from the documentation of AMQP 0-9-1 and RabbitMQ:
    - a restart closes all connections, deletes the exchanges and queues that are not durable and the bindings of either, and the
      messages without delivery mode 2; a message that was delivered and not answered is back in its queue;
    - declaring an exchange or queue that exists with other properties closes the channel of the caller, and so does binding or
      publishing to an exchange that does not exist; a message for a queue that does not exist is dropped;
    - a queue with x-expires is deleted when nobody used it for that long; on an exchange the argument has no effect.
    Restarts are orderly: what the broker accepted it has stored. The crate does not ask for publisher confirms, so a crash of the broker may
    lose more. Consumers, delivery and prefetch are in AmqpModel; here [q_msgs] holds the messages that were not answered yet. *)
From Coq Require Import List Arith Bool.
From Verif Require Import Base.
Import ListNotations.

(** queue/mod.rs, 20-30, 34-40, 44-50, 54-61 *)
Inductive dmode : Type := Persistent | Ephemeral.
Inductive smode : Type := ExactlyOnce | Broadcast.
Inductive qdur : Type := NonDurable | Durable.
Record qopts : Type := mkO { o_del : dmode; o_syn : smode; o_dur : qdur }.

(** channel/mod.rs, ChannelType, and its conversion, channel/queue.rs, 102-117 *)
Inductive ctype : Type := ChExactlyOnce | ChBroadcast.
Definition channel_options (t : ctype) : qopts :=
  match t with
  | ChExactlyOnce => mkO Persistent ExactlyOnce NonDurable
  | ChBroadcast => mkO Persistent Broadcast NonDurable
  end.

(** amqp.rs, 68-75, into_message_properties: is delivery mode 2 set? *)
Definition message_properties (m : dmode) : bool := match m with Persistent => true | Ephemeral => false end.
(** What a queue or exchange is declared with. *)
Record bargs : Type := mkA { a_durable : bool; a_expires : option nat }.
(** 77-97, into_queue_declare_options and into_exchange_declare_options *)
Definition declare_durable (d : qdur) : bool := match d with NonDurable => false | Durable => true end.
(** 100-107, into_declare_arguments: x-expires in minutes *)
Definition declare_expires (d : qdur) : option nat := match d with NonDurable => Some 30 | Durable => None end.
Definition declare_args (o : qopts) : bargs := mkA (declare_durable (o_dur o)) (declare_expires (o_dur o)).

Definition bargs_eqb (a b : bargs) : bool :=
  Bool.eqb (a_durable a) (a_durable b) &&
  match a_expires a, a_expires b with Some x, Some y => Nat.eqb x y | None, None => true | _, _ => false end.

(** Broker operations; the options are those of the caller. *)
Inductive dop : Type :=
| OExchange (n : nat) (o : qopts) | OQueue (n : nat) (o : qopts) | OBind (n : nat)
| OPublish (n : nat) (o : qopts)
| OQueueDelete (n : nat) | OExchangeDelete (n : nat).

(** amqp.rs, declare_single, 244-263, and declare_broadcast, 191-230, chosen by declare_queue, 303-308 *)
Definition declare_ops (n : nat) (o : qopts) : list dop :=
  match o_syn o with
  | ExactlyOnce => [OQueue n o]
  | Broadcast => [OExchange n o; OQueue n o; OBind n]
  end.
(** 310-324; queue_options is never written, so each deletion is delete_broadcast, 232-242 *)
Definition delete_ops (n : nat) : list dop := [OQueueDelete n; OExchangeDelete n].

(** What happened, newest first, as the caller sees it. *)
Inductive dact : Type :=
| LMade (n : nat) (d : qdur)            (* a queue was made *)
| LIn (n id : nat) (m : dmode)          (* a message was put in queue [n] *)
| LOut (n id : nat)                     (* acked or nacked *)
| LDel (n : nat)                        (* the queue was deleted by a call *)
| LExp (n : nat)                        (* it expired *)
| LClose (c : nat)                      (* the broker closed the channel of [c] because an operation failed *)
| LRestart.

Record dqueue : Type := mkQ { q_name : nat; q_args : bargs; q_msgs : list (nat * bool) }.
(** [dc_handle]: the name and options of the handle that a declaration returns. *)
Record dcall : Type := mkCall { dc_conn : nat; dc_handle : option (nat * qopts); dc_ops : list dop; dc_failed : bool }.
Record dst : Type := mkD {
  d_ex : list (nat * bargs);
  d_qs : list dqueue;
  d_bind : list nat;        (* the exchange and the queue of this name are bound *)
  d_up : list nat;          (* open connections *)
  d_calls : list dcall;     (* the calls ever made; a call without operations left and not failed has returned *)
  d_next : nat;
  d_log : list dact
}.
Definition d_init : dst := mkD [] [] [] [] [] 0 [].

Definition find_q (n : nat) (l : list dqueue) : option dqueue := find (fun q => Nat.eqb (q_name q) n) l.
Definition find_ex (n : nat) (l : list (nat * bargs)) : option bargs := option_map snd (find (fun p => Nat.eqb (fst p) n) l).
Definition has (n : nat) (l : list nat) : bool := existsb (Nat.eqb n) l.
Definition without (n : nat) (l : list nat) : list nat := filter (fun x => negb (Nat.eqb x n)) l.
Definition fail (c : nat) (k : dcall) : dcall :=
  if Nat.eqb (dc_conn k) c then match dc_ops k with [] => k | _ => mkCall (dc_conn k) (dc_handle k) (dc_ops k) true end else k.
(** Connection [c] is over: its calls under way fail. *)
Definition hang_up (s : dst) (c : nat) (l : list dact) : dst :=
  mkD (d_ex s) (d_qs s) (d_bind s) (without c (d_up s)) (map (fail c) (d_calls s)) (d_next s) (l ++ d_log s).
Definition put (n id : nat) (m : dmode) (q : dqueue) : dqueue :=
  if Nat.eqb (q_name q) n then mkQ (q_name q) (q_args q) (q_msgs q ++ [(id, message_properties m)]) else q.
(** The message, numbered, reaches queue [n] or no queue. *)
Definition accept (s : dst) (n : nat) (m : dmode) (there : bool) : dst :=
  if there then mkD (d_ex s) (map (put n (d_next s) m) (d_qs s)) (d_bind s) (d_up s) (d_calls s) (S (d_next s)) (LIn n (d_next s) m :: d_log s)
  else mkD (d_ex s) (d_qs s) (d_bind s) (d_up s) (d_calls s) (S (d_next s)) (d_log s).
Definition drop_queue (s : dst) (n : nat) (a : dact) : dst :=
  mkD (d_ex s) (filter (fun q => negb (Nat.eqb (q_name q) n)) (d_qs s)) (without n (d_bind s)) (d_up s) (d_calls s) (d_next s) (a :: d_log s).
Definition some {A : Type} (o : option A) : bool := match o with Some _ => true | None => false end.

Definition do_op (s : dst) (c : nat) (o : dop) : dst :=
  match o with
  | OExchange n o =>
      match find_ex n (d_ex s) with
      | Some a => if bargs_eqb a (declare_args o) then s else hang_up s c [LClose c]
      | None => mkD ((n, declare_args o) :: d_ex s) (d_qs s) (d_bind s) (d_up s) (d_calls s) (d_next s) (d_log s)
      end
  | OQueue n o =>
      match find_q n (d_qs s) with
      | Some q => if bargs_eqb (q_args q) (declare_args o) then s else hang_up s c [LClose c]
      | None => mkD (d_ex s) (mkQ n (declare_args o) [] :: d_qs s) (d_bind s) (d_up s) (d_calls s) (d_next s) (LMade n (o_dur o) :: d_log s)
      end
  | OBind n =>
      if some (find_ex n (d_ex s)) && some (find_q n (d_qs s))
      then mkD (d_ex s) (d_qs s) (if has n (d_bind s) then d_bind s else n :: d_bind s) (d_up s) (d_calls s) (d_next s) (d_log s)
      else hang_up s c [LClose c]
  | OPublish n o =>   (* 356-361: through the default exchange or through the exchange of the name *)
      match o_syn o with
      | ExactlyOnce => accept s n (o_del o) (some (find_q n (d_qs s)))
      | Broadcast => if some (find_ex n (d_ex s)) then accept s n (o_del o) (has n (d_bind s)) else hang_up s c [LClose c]
      end
  | OQueueDelete n => if some (find_q n (d_qs s)) then drop_queue s n (LDel n) else s
  | OExchangeDelete n =>
      mkD (filter (fun p => negb (Nat.eqb (fst p) n)) (d_ex s)) (d_qs s) (without n (d_bind s)) (d_up s) (d_calls s) (d_next s) (d_log s)
  end.

Definition keep_msgs (q : dqueue) : dqueue := mkQ (q_name q) (q_args q) (filter snd (q_msgs q)).
Definition restart (s : dst) : dst :=
  mkD (filter (fun p => a_durable (snd p)) (d_ex s))
      (map keep_msgs (filter (fun q => a_durable (q_args q)) (d_qs s)))
      (filter (fun n => match find_ex n (d_ex s), find_q n (d_qs s) with Some a, Some q => a_durable a && a_durable (q_args q) | _, _ => false end) (d_bind s))
      [] (map (fun k => fail (dc_conn k) k) (d_calls s)) (d_next s) (LRestart :: d_log s).

Inductive d_event : Type :=
| EConnect (c : nat)
| EDeclare (c n : nat) (o : qopts)     (* declare_queue is called *)
| EPublish (c n : nat) (o : qopts)     (* publish is called on a handle made with these options *)
| EDelete (c n : nat)
| EOp (i : nat)                        (* the next operation of call [i] *)
| ESettle (n id : nat)                 (* a consumer of the queue acks or nacks *)
| EExpire (n : nat)
| ECrash (c : nat)
| ERestart.

Definition call (s : dst) (c : nat) (h : option (nat * qopts)) (ops : list dop) : option dst :=
  if has c (d_up s)
  then Some (mkD (d_ex s) (d_qs s) (d_bind s) (d_up s) (d_calls s ++ [mkCall c h ops false]) (d_next s) (d_log s))
  else None.
Definition qopts_dec : forall a b : qopts, {a = b} + {a <> b}.
Proof. decide equality; decide equality. Defined.
(** The call was a declaration by [c] that returned this handle. *)
Definition handle_of (c n : nat) (o : qopts) (k : dcall) : bool :=
  Nat.eqb (dc_conn k) c && negb (dc_failed k) &&
  match dc_handle k, dc_ops k with Some (n', o'), [] => Nat.eqb n' n && (if qopts_dec o' o then true else false) | _, _ => false end.
Definition settle (n id : nat) (q : dqueue) : dqueue :=
  if Nat.eqb (q_name q) n then mkQ (q_name q) (q_args q) (filter (fun p => negb (Nat.eqb (fst p) id)) (q_msgs q)) else q.

Definition d_step (s : dst) (e : d_event) : option dst :=
  match e with
  | EConnect c => if has c (d_up s) || existsb (fun k => Nat.eqb (dc_conn k) c) (d_calls s) then None else Some (mkD (d_ex s) (d_qs s) (d_bind s) (c :: d_up s) (d_calls s) (d_next s) (d_log s))
  | EDeclare c n o => call s c (Some (n, o)) (declare_ops n o)
  | EPublish c n o => if existsb (handle_of c n o) (d_calls s) then call s c None [OPublish n o] else None
  | EDelete c n => call s c None (delete_ops n)
  | EOp i =>
      match nth_error (d_calls s) i with
      | Some (mkCall c h (o :: ops) false) =>
          let s' := do_op s c o in
          Some (mkD (d_ex s') (d_qs s') (d_bind s') (d_up s')
                    (match nth_error (d_calls s') i with Some (mkCall _ _ _ true) => d_calls s' | _ => upd i (mkCall c h ops false) (d_calls s') end)
                    (d_next s') (d_log s'))
      | _ => None
      end
  | ESettle n id =>
      match find_q n (d_qs s) with
      | Some q => if existsb (fun p => Nat.eqb (fst p) id) (q_msgs q)
                  then Some (mkD (d_ex s) (map (settle n id) (d_qs s)) (d_bind s) (d_up s) (d_calls s) (d_next s) (LOut n id :: d_log s))
                  else None
      | None => None
      end
  | EExpire n =>
      match find_q n (d_qs s) with
      | Some q => match a_expires (q_args q) with Some _ => Some (drop_queue s n (LExp n)) | None => None end
      | None => None
      end
  | ECrash c => if has c (d_up s) then Some (hang_up s c []) else None
  | ERestart => Some (restart s)
  end.
