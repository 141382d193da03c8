(** The fold directive with its suspension points (paladin-core/src/directive/indexed_stream/foldable.rs, [f_fold], 133-297).

    FoldModel takes the handling of an input, of a result and of a publication as one step each. Here each of them is what it is in the code: a future that
    can be suspended while it waits for the broker or for room in the channel.
    - [init], 171-201: try_for_each_concurrent first takes an item and then polls its future, in the order of arrival; the future may be suspended at 115
      when the channel is full.
    - [result_processor], 242-268: the same; the future of a final result waits for its ack before it sends the value (255-261), that of any other
      result waits for the ack and for room in the channel at once (265). An error of the ack is seen when the ack ends.
    - [task_handler], 276-285: publish_all (queue/publisher.rs) has a number of publications under way; the broker may have accepted a message whose
      publication has not returned or returns an error later.
    - the channel, 142: futures::channel::mpsc. Each [try_dispatch] uses a clone of the sender (114), which may always enqueue one message; if then there are
      more than [cap] messages in the channel, the sender is parked and its [send] waits. Each message taken from the channel lets one parked sender, the
      one parked longest, go on.
    [lim] is MAX_CONCURRENCY_PER_TASK (130), which is also the capacity [cap] of the channel (142). The branches of [select!] (287-296) run in one task. *)
From Coq Require Import List NArith Bool.
From Verif Require Import Base ContiguousModel FoldModel.
Import ListNotations.

Section Fine.
  Variables A E O : Type.
  Variable comb : O -> A -> A -> res E A.
  Variable empty : A.
  Variables lim cap : nat.

  (** The future of a result that was looked at, 249-268: its number (as sender), the result, whether it is the final one, whether the ack has ended. *)
  Record handler : Type := mkHd { hd_id : nat; hd_item : item A; hd_final : bool; hd_acked : bool }.

  Record fine : Type := mkG {
    g_s : fstate A E;                      (* the variables of [f_fold] and the broker, as in FoldModel; [f_chan] is the mpsc channel *)
    g_got : list (N * A);                  (* items whose futures in [init] were not polled yet *)
    g_init : list nat;                     (* futures of [init] suspended at 115 *)
    g_taken : list (res E (item A));       (* results whose futures were not polled yet *)
    g_hands : list handler;                (* futures of [result_processor] under way *)
    g_parked : list nat;                   (* parked senders, the longest parked first *)
    g_pubs : list (ftask A * bool);        (* publications under way; has the broker accepted the message? *)
    g_next : nat                           (* the number of the next future *)
  }.
  Definition g_start (inp : list (res E (N * A))) : fine := mkG (fold_init inp) [] [] [] [] [] [] 0.

  Inductive g_event : Type :=
  | GPull                        (* [init] polls the stream and gets an item or an error *)
  | GInput                       (* the future of the oldest item is polled, 178-199 *)
  | GInitDone (i : nat)          (* a suspended future of [init] ends *)
  | GInputEnd                    (* the stream has ended and so have the futures, 202-230 *)
  | GPublish                     (* publish_all takes a task from the channel and starts its publication *)
  | GAccept (i : nat)            (* the broker accepts the message *)
  | GReply (i : nat) (ok : bool) (* the publication returns *)
  | GWork (i : nat) (o : O)      (* a worker executes a task *)
  | GTake (i : nat)              (* [result_processor] gets a result from the receiver *)
  | GResult                      (* the future of the oldest of these is polled, 250-265 *)
  | GAck (i : nat) (ok : bool)   (* the ack of a result ends *)
  | GHandled (i : nat)           (* the future of a result ends, 263 or 267 *)
  | GFinal (ok : bool)           (* the oneshot branch of [select!] *)
  | GEnv (e : fevent O).         (* the broker loses or repeats a message *)

  Definition with_s (g : fine) (s : fstate A E) : fine := mkG s (g_got g) (g_init g) (g_taken g) (g_hands g) (g_parked g) (g_pubs g) (g_next g).
  (** 112-115: was a task put in the channel, and is its sender parked? *)
  Definition park (s s' : fstate A E) (id : nat) (l : list nat) : list nat :=
    if Nat.ltb (f_disp s) (f_disp s') && Nat.ltb cap (length (f_chan s')) then l ++ [id] else l.
  Definition waits (id : nat) (l : list nat) : bool := existsb (Nat.eqb id) l.

  Definition g_step (g : fine) (e : g_event) : option fine :=
    let s := g_s g in
    match f_ret s with
    | Some _ => None
    | None =>
        match e with
        | GPull =>
            if Nat.ltb (length (g_got g) + length (g_init g)) lim then
              match f_inp s with
              | [] => None
              | RErr x :: r => Some (with_s g (f_return (set_inp s r) (RetErr (ErrInput x))))
              | ROk it :: r => Some (mkG (set_inp s r) (g_got g ++ [it]) (g_init g) (g_taken g) (g_hands g) (g_parked g) (g_pubs g) (g_next g))
              end
            else None
        | GInput =>
            match g_got g with
            | [] => None
            | it :: r =>
                let s' := on_input s it in
                let parked := park s s' (g_next g) (g_parked g) in
                Some (mkG s' r (if waits (g_next g) parked then g_init g ++ [g_next g] else g_init g) (g_taken g) (g_hands g) parked (g_pubs g) (S (g_next g)))
            end
        | GInitDone i =>
            match pick i (g_init g) with
            | None => None
            | Some (id, r) => if waits id (g_parked g) then None else Some (mkG s (g_got g) r (g_taken g) (g_hands g) (g_parked g) (g_pubs g) (g_next g))
            end
        | GInputEnd =>
            match f_inp s, g_got g, g_init g with
            | [], [], [] => if f_ended s then None else Some (with_s g (on_input_end empty s))
            | _, _, _ => None
            end
        | GPublish =>
            if Nat.ltb (length (g_pubs g)) lim then
              match f_chan s with
              | [] => None
              | t :: c => Some (mkG (set_chan s c) (g_got g) (g_init g) (g_taken g) (g_hands g) (tl (g_parked g)) (g_pubs g ++ [(t, false)]) (g_next g))
              end
            else None
        | GAccept i =>
            match nth_error (g_pubs g) i with
            | Some (t, false) => Some (mkG (set_tasks s (f_tasks s ++ [t])) (g_got g) (g_init g) (g_taken g) (g_hands g) (g_parked g) (upd i (t, true) (g_pubs g)) (g_next g))
            | _ => None
            end
        | GReply i ok =>
            match pick i (g_pubs g) with
            | None => None
            | Some ((t, accepted), r) =>
                if ok then if accepted then Some (mkG s (g_got g) (g_init g) (g_taken g) (g_hands g) (g_parked g) r (g_next g)) else None
                else Some (with_s g (f_return s (RetErr ErrPublish)))
            end
        | GTake i =>
            if (2 <=? f_count s)%N && Nat.ltb (length (g_taken g) + length (g_hands g)) lim then
              match pick i (f_results s) with
              | None => None
              | Some (r, rs) => Some (mkG (set_results s rs) (g_got g) (g_init g) (g_taken g ++ [r]) (g_hands g) (g_parked g) (g_pubs g) (g_next g))
              end
            else None
        | GResult =>
            match g_taken g with
            | [] => None
            | RErr x :: r => Some (with_s g (f_return s (RetErr (ErrWorker x))))
            | ROk it :: r =>
                if f_ended s && is_final it (f_count s) then
                  Some (mkG s (g_got g) (g_init g) r (g_hands g ++ [mkHd (g_next g) it true false]) (g_parked g) (g_pubs g) (S (g_next g)))
                else
                  let s' := try_dispatch s it in
                  Some (mkG s' (g_got g) (g_init g) r (g_hands g ++ [mkHd (g_next g) it false false]) (park s s' (g_next g) (g_parked g)) (g_pubs g) (S (g_next g)))
            end
        | GAck i ok =>
            match nth_error (g_hands g) i with
            | Some (mkHd id it final false) =>
                if ok then
                  let g' := mkG s (g_got g) (g_init g) (g_taken g) (upd i (mkHd id it final true) (g_hands g)) (g_parked g) (g_pubs g) (g_next g) in
                  if final then
                    match f_final s with
                    | None => Some (with_s g' (set_final s (Some it)))                    (* 256-261 *)
                    | Some _ => Some (with_s g (f_return s (RetErr ErrTxTaken)))
                    end
                  else Some g'
                else Some (with_s g (f_return s (RetErr ErrAck)))
            | _ => None
            end
        | GHandled i =>
            match pick i (g_hands g) with
            | Some (mkHd id _ _ true, r) => if waits id (g_parked g) then None else Some (mkG s (g_got g) (g_init g) (g_taken g) r (g_parked g) (g_pubs g) (g_next g))
            | _ => None
            end
        | GWork i o => option_map (with_s g) (fold_step comb empty s (EvWork i o))
        | GFinal ok => option_map (with_s g) (fold_step comb empty s (EvFinal ok))
        | GEnv e => match e with EvDropTask _ | EvDropResult _ | EvDupTask _ | EvDupResult _ => option_map (with_s g) (fold_step comb empty s e) | _ => None end
        end
    end.
  Definition g_run (inp : list (res E (N * A))) (tr : list g_event) : option fine := run_from g_step (g_start inp) tr.
End Fine.
Arguments mkHd {A}. Arguments hd_id {A}. Arguments hd_item {A}. Arguments hd_final {A}. Arguments hd_acked {A}.
Arguments mkG {A E}. Arguments g_s {A E}. Arguments g_got {A E}. Arguments g_init {A E}. Arguments g_taken {A E}. Arguments g_hands {A E}.
Arguments g_parked {A E}. Arguments g_pubs {A E}. Arguments g_next {A E}. Arguments g_start {A E}. Arguments with_s {A E}. Arguments park {A E}.
Arguments GPull {O}. Arguments GInput {O}. Arguments GInitDone {O}. Arguments GInputEnd {O}. Arguments GPublish {O}. Arguments GAccept {O}. Arguments GReply {O}.
Arguments GWork {O}. Arguments GTake {O}. Arguments GResult {O}. Arguments GAck {O}. Arguments GHandled {O}. Arguments GFinal {O}. Arguments GEnv {O}.
Arguments g_step {A E O}. Arguments g_run {A E O}.
