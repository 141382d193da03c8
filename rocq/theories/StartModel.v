(** Starting a leader or a worker from a configuration (paladin-core/src/config/mod.rs, paladin-core/src/runtime/dynamic_channel.rs, [from_config] in
    paladin-core/src/runtime/mod.rs).

    The command line is clap's derive on [Config]. clap 4 is modelled from its documentation and code: an environment variable counts as given explicitly, a value
    on the command line wins over the environment, and [required_if_eq] looks only at explicit values, not at [default_value_t]. *)
From Coq Require Import List NArith Bool String.
From Verif Require Import KeyModel.
Import ListNotations.
Local Open Scope N_scope.

(** config/mod.rs:50-64. *)
Inductive serializer : Type := Postcard | Cbor.
Inductive environment : Type := Amqp | InMemory.
(** config/mod.rs:24-48, [Config]. *)
Record config : Type := mkConfig {
  g_serializer : serializer;
  g_runtime : environment;
  g_workers : option N;
  g_uri : option string;
  g_key : option string
}.
(** The derived [Default] of [Config] and of the two enumerations, config/mod.rs:25, 53, 61. *)
Definition default_config : config := mkConfig Postcard Amqp None None None.

(** What the user gave for an option: on the command line, in the environment. *)
Record given (A : Type) : Type := mkGiven { v_arg : option A; v_env : option A }.
Arguments mkGiven {A} v_arg v_env.
Arguments v_arg {A} _.
Arguments v_env {A} _.
Definition explicit {A : Type} (g : given A) : option A := match v_arg g with Some x => Some x | None => v_env g end.
Record cli : Type := mkCli {
  c_serializer : given serializer;
  c_runtime : given environment;
  c_workers : given N;
  c_uri : given string;
  c_key : given string
}.
Definition or_default {A : Type} (o : option A) (d : A) : A := match o with Some x => x | None => d end.
(** [Config::parse] with the attributes of config/mod.rs:28-47; [None]: clap reports a missing argument and the process exits. *)
Definition parse (l : cli) : option config :=
  match explicit (c_runtime l), explicit (c_uri l) with
  | Some Amqp, None => None
  | r, u => Some (mkConfig (or_default (explicit (c_serializer l)) Postcard) (or_default r Amqp) (explicit (c_workers l)) u (explicit (c_key l)))
  end.

(** A connection: to the broker at an address, or the in-memory connection that a process made. Clones of an in-memory connection share its queues. *)
Inductive connection : Type := Remote (uri : string) | Local (made_by : nat).
(** [QueueChannel], channel/queue.rs:135-140: a lazily declared queue. The mode is [ChannelType]. *)
Inductive mode : Type := Single | Broadcast.
Record channel : Type := mkChannel { ch_conn : connection; ch_serializer : serializer; ch_name : string; ch_mode : mode }.

Inductive outcome (A : Type) : Type := Panics | Fails | Starts (x : A).
Arguments Panics {A}.
Arguments Fails {A}.
Arguments Starts {A} x.

(** dynamic_channel.rs:126-145, [DynamicChannelFactory::from_config]: the connection and its serializer. [up]: whether connecting to the address works. *)
Definition factory (up : string -> bool) (me : nat) (g : config) : outcome (connection * serializer) :=
  match g_runtime g with
  | Amqp => match g_uri g with
            | None => Panics                    (* [expect], 131 *)
            | Some u => if up u then Starts (Remote u, g_serializer g) else Fails
            end
  | InMemory => Starts (Local me, g_serializer g)
  end.
(** [get] does not talk to the broker, channel/queue.rs:199-207. *)
Definition get (f : connection * serializer) (n : string) (m : mode) : channel := mkChannel (fst f) (snd f) n m.

(** A worker, main loop about to start, runtime/mod.rs:401-405: where it takes tasks and where it listens for commands (478-484). *)
Record worker : Type := mkWorker { w_tasks : channel; w_commands : channel }.
Definition worker_of (f : connection * serializer) (tasks : channel) : worker := mkWorker tasks (get f command_ipc_routing_key Broadcast).
(** runtime/mod.rs:428-445, [WorkerRuntime::from_config]. *)
Definition start_worker (up : string -> bool) (me : nat) (g : config) : outcome worker :=
  match factory up me g with
  | Panics => Panics
  | Fails => Fails
  | Starts f => Starts (worker_of f (get f (task_bus_key (g_key g)) Single))
  end.
(** A leader: where it puts tasks and commands (219-232, 373-379), and the workers it emulates. *)
Record leader : Type := mkLeader { l_tasks : channel; l_commands : channel; l_emulated : list worker }.
(** runtime/mod.rs:131-161, [Runtime::from_config] with [spawn_emulator], 175-195. *)
Definition start_leader (up : string -> bool) (me : nat) (g : config) : outcome leader :=
  match factory up me g with
  | Panics => Panics
  | Fails => Fails
  | Starts f =>
      let tasks := get f (task_bus_key (g_key g)) Single in
      Starts (mkLeader tasks (get f command_ipc_routing_key Broadcast)
        (match g_runtime g with
         | InMemory => repeat (worker_of f tasks) (N.to_nat (or_default (g_workers g) 3))
         | Amqp => []
         end))
  end.
(** runtime/mod.rs:164-170, [Runtime::in_memory]. *)
Definition in_memory (up : string -> bool) (me : nat) : outcome leader := start_leader up me (mkConfig Postcard InMemory None None None).
