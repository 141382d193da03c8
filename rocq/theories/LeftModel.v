(** What a worker leaves behind when its loop is over (paladin-core/src/runtime/mod.rs, [main_loop] 662-813, [spawn_emulator] 175-196 and [Drop for Runtime] 383-391).

    The loop spawns two tasks: the reaper, 673, and the listener for commands, 692. It aborts them at its end, 808-809, but only where it gets there: not when it
    returns early by [?] (663, 691, 736, 781, 794), not when it panics (756, 744-747), and not when its own future is dropped, which is how the runtime
    ends the workers it emulates. Dropping a JoinHandle detaches the task. A worker whose process ends with the loop takes its tasks with it; here the process goes on,
    as that of an emulator does, or of a program that runs several workers or calls main_loop again.
    The loop and its tasks are those of WorkerModel. *)
From Coq Require Import List Arith NArith Bool.
From Verif Require Import Base WorkerModel SystemModel FleetModel.
Import ListNotations.
Open Scope nat_scope.

Inductive stage : Type :=
| SgTasks             (* 663: about to get the task receiver *)
| SgCommands          (* 691: the reaper was spawned, about to get the command receiver *)
| SgLoop              (* the listener was spawned, 692 *)
| SgFailed (reaper : bool).
Record proc : Type := mkP { p_stage : stage; p_w : wstate; p_dropped : bool }.
Definition p_init (ident : nat) : proc := mkP SgTasks (w_init ident) false.

Inductive p_event : Type :=
| PTick (d : N)
| PBegin (ok : bool)       (* 663 *)
| PSubscribe (ok : bool)   (* 691 *)
| PLoop (e : w_event)      (* a step of the loop or of its tasks while it runs *)
| PDrop                    (* the future of main_loop is dropped, 387 *)
| PTask (e : w_event).     (* a step of the reaper or of the listener otherwise *)

Definition stopped (s : wstate) : bool := match w_main s with WpStop _ => true | _ => false end.
(** 808-809 was reached *)
Definition aborted (s : wstate) : bool := match w_main s with WpStop EndOk => true | _ => false end.
(** main_loop has returned, panicked or was dropped. *)
Definition over (p : proc) : bool :=
  p_dropped p || match p_stage p with SgFailed _ => true | SgLoop => stopped (p_w p) | _ => false end.
Definition reaper_there (p : proc) : bool :=
  match p_stage p with SgTasks => false | SgCommands => true | SgFailed r => r | SgLoop => negb (aborted (p_w p)) end.
Definition listener_there (p : proc) : bool := match p_stage p with SgLoop => negb (aborted (p_w p)) | _ => false end.
(** What the tasks do does not depend on the loop. *)
Definition task_step (s : wstate) (e : w_event) : option wstate := option_map (fun s' => set_main s' (w_main s)) (w_step (set_main s WpWait) e).
Definition with_w (p : proc) (s : wstate) : proc := mkP (p_stage p) s (p_dropped p).
Definition to_stage (p : proc) (g : stage) : proc := mkP g (p_w p) (p_dropped p).

Definition p_step (p : proc) (e : p_event) : option proc :=
  match e with
  | PTick d => option_map (with_w p) (w_step (p_w p) (WTick d))
  | PBegin ok => match p_stage p with SgTasks => if over p then None else Some (to_stage p (if ok then SgCommands else SgFailed false)) | _ => None end
  | PSubscribe ok => match p_stage p with SgCommands => if over p then None else Some (to_stage p (if ok then SgLoop else SgFailed true)) | _ => None end
  | PLoop (WTick _) => None
  | PLoop e => match p_stage p with SgLoop => if over p then None else option_map (with_w p) (w_step (p_w p) e) | _ => None end
  | PDrop => if over p then None else Some (mkP (p_stage p) (p_w p) true)
  | PTask WReap =>
      if reaper_there p && (over p || match p_stage p with SgCommands => true | _ => false end) then option_map (with_w p) (task_step (p_w p) WReap) else None
  | PTask (WCommand k) => if listener_there p && over p then option_map (with_w p) (task_step (p_w p) (WCommand k)) else None
  | PTask WSend => if listener_there p && over p then option_map (with_w p) (task_step (p_w p) WSend) else None
  | PTask WHangUp => if listener_there p && over p then option_map (with_w p) (task_step (p_w p) WHangUp) else None
  | PTask _ => None
  end.

(** Workers that share the queue for commands of an AMQP broker (FleetModel, [Shared]): a listener that was left behind takes commands as well, 695-704. *)
Inductive x_event : Type :=
| XFleet (e : f_event)
| XLeft (w : nat)                  (* a listener that was left behind takes a command *)
| XLeftSend (w : nat).             (* ... and sends it to the watch *)
Definition left_behind (s : wstate) : bool := stopped s && negb (aborted s).
Definition x_step (s : fleet) (e : x_event) : option fleet :=
  match e with
  | XFleet e => f_step Shared s e
  | XLeft w =>
      match nth_error (fl_mem s) w, fl_queue s with
      | Some m, k :: q =>
          if m_up m && left_behind (m_w m)
          then option_map (fun ws => mkFl (upd w (set_w m ws) (fl_mem s)) q (fl_pub s)) (task_step (m_w m) (WCommand k))
          else None
      | _, _ => None
      end
  | XLeftSend w =>
      match nth_error (fl_mem s) w with
      | Some m =>
          if m_up m && left_behind (m_w m)
          then option_map (fun ws => mkFl (upd w (set_w m ws) (fl_mem s)) (fl_queue s) (fl_pub s)) (task_step (m_w m) WSend)
          else None
      | None => None
      end
  end.
