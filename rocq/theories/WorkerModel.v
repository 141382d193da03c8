(** The worker (paladin-core/src/runtime/mod.rs, [main_loop] 662-813 with dispatch_fatal 556-587 and dispatch_ok 594-605).

    Three tokio tasks run concurrently: the main loop, the command listener and the reaper. Their steps interleave freely. Broker
    operations (ack, nack, publish) are split into taking effect at the broker and returning; they may fail either way. An operation that is
    dropped takes effect before that or not at all. Time is in milliseconds.

    Keys and messages are numbers. What an execution does is not modelled here (see ExecModel): its outcome arrives with the poll that
    finds it ready. *)
From Coq Require Import List NArith Bool.
From Verif Require Import Base RetryModel.
Import ListNotations.

(** COMMAND_IPC_ABORT_ALL_KEY, 127. *)
Definition abort_all : nat := 0.
(** TERMINATION_CLEAR_INTERVAL, 665, and ABORT_SIGNAL_SHUTDOWN_INTERVAL, 667. *)
Definition clear_interval : N := 60000.
Definition shutdown_interval : N := 10000.

Record wtask : Type := mkT { t_key : nat; t_body : nat }.
(** What [remote_execute] comes to, 744-747. *)
Inductive outcome : Type :=
| OcOk (y : nat)
| OcErr (fs : fatal_strategy) (msg : nat)
| OcPanic.

(** A broker operation: called, in effect, returned Ok. *)
Inductive io : Type := IoOpen | IoEffect | IoOk.
(** dispatch_ok, 601-603 *)
Inductive okpos : Type := ODecl | OPub (p : io) | OClose | ODone.
(** dispatch_fatal: [FDone] at once for Ignore, 568; else 571-574, 581, 582 *)
Inductive failpos : Type := FDecl | FPub (ab er : io) | FClose | FDone.
Inductive wend : Type := EndOk | EndErr | EndPanic.

Inductive wphase : Type :=
| WpWait                                           (* 726: awaiting a task *)
| WpFlag (t : wtask)                               (* 728 *)
| WpCheck (t : wtask)                              (* 734 *)
| WpSkip (t : wtask) (a : io)                      (* 736 *)
| WpRun (t : wtask) (seen : nat) (started : bool)  (* 771: [seen] is the watch version that the waiter has seen *)
| WpOk (t : wtask) (y : nat) (a : io) (d : okpos)  (* 775-781 *)
| WpFail (t : wtask) (fs : fatal_strategy) (msg : nat) (a : io) (d : failpos)  (* 785-794 *)
| WpTerm (t : wtask) (a : io)                      (* 799 *)
| WpSleep (t : wtask) (until : N)                  (* 801 *)
| WpStop (e : wend).

(** What happened, for stating properties; [i] numbers the tasks taken. *)
Inductive wact : Type :=
| ATake (i : nat) (t : wtask)
| ASkip (i : nat)                  (* found to belong to a terminated job *)
| AStart (i : nat)                 (* execution started *)
| AFinish (i : nat) (o : outcome)  (* its outcome reached the loop *)
| ASignal (i : nat)                (* the waiter saw abort-all *)
| AAck (i : nat)
| ANack (i : nat)
| AOk (i k y : nat)                (* Ok result published on key [k] *)
| AErr (i k msg : nat)
| AAbortAll (i : nat)              (* abort-all published to the command channel *)
| AMark (k : nat)                  (* job marked terminated: the entry was vacant *)
| ACommand (k : nat).              (* the listener received Abort *)

Inductive listener : Type :=
| LisIdle
| LisSend (k : nat)          (* has marked this job and is about to send it, 702 *)
| LisGone.                   (* the command stream ended; the sender of the watch is dropped *)

Record wstate : Type := mkW {
  w_now : N;
  w_jobs : list (nat * N);   (* terminated_jobs *)
  w_reap : N;                (* when the reaper's sleep is over *)
  w_lis : listener;
  w_ver : nat;               (* version and value of the watch channel *)
  w_val : nat;
  w_flag : bool;             (* abort_worker_execution *)
  w_main : wphase;
  w_taken : nat;
  w_log : list (N * wact)    (* newest first, with the time *)
}.
(** 663-692; the watch starts with the worker's random identifier, which is none of the commands' keys that matter (C50). The reaper's
    first sweep is at once. *)
Definition w_init (ident : nat) : wstate := mkW 0 [] 0 LisIdle 0 ident false WpWait 0 [].

Definition set_main (s : wstate) (p : wphase) : wstate :=
  mkW (w_now s) (w_jobs s) (w_reap s) (w_lis s) (w_ver s) (w_val s) (w_flag s) p (w_taken s) (w_log s).
Definition log (s : wstate) (a : wact) : wstate :=
  mkW (w_now s) (w_jobs s) (w_reap s) (w_lis s) (w_ver s) (w_val s) (w_flag s) (w_main s) (w_taken s) ((w_now s, a) :: w_log s).
Definition cur (s : wstate) : nat := pred (w_taken s).

Definition marked (k : nat) (m : list (nat * N)) : bool := existsb (fun p => Nat.eqb (fst p) k) m.
(** 715-724, [mark_terminated]; an entry that is there keeps its time. *)
Definition mark (s : wstate) (k : nat) : wstate * bool :=
  if marked k (w_jobs s) then (s, false)
  else (log (mkW (w_now s) ((k, w_now s) :: w_jobs s) (w_reap s) (w_lis s) (w_ver s) (w_val s) (w_flag s) (w_main s) (w_taken s) (w_log s)) (AMark k), true).

Inductive slot : Type := SAck | SResult | SAbort.
Inductive w_event : Type :=
| WTick (d : N)
| WReap                                                 (* 673-681 *)
| WCommand (k : nat)                                    (* the listener receives Abort and marks the job, 696-700 *)
| WSend                                                 (* ... and sends it to the watch, 702 *)
| WHangUp                                               (* the command stream ends *)
| WTake (t : wtask) | WEnd                              (* the task stream yields, or ends, 726 *)
| WFlag | WCheck                                        (* 728-731, 734-739 *)
| WPoll (signal_first : bool) (ready : option outcome)  (* a poll of the select, 771 *)
| WEffect (sl : slot) | WReturn (sl : slot) (ok : bool) (* a broker operation *)
| WDeclare (ok : bool) | WClose (ok : bool)             (* getting the sender(s), closing them *)
| WJoin                                                 (* try_join is complete *)
| WWake.                                                (* the sleep is over, 801-803 *)

(** The waiter, 750-768: [changed] and [borrow] in one step. A send between the two has the same effect as one before both: the value
    read is the latest, and the loop reads it once more. [changed] fails if there is no new version and the sender is gone; [expect]
    then panics. *)
Definition poll_signal (s : wstate) (t : wtask) (seen : nat) (started : bool) : wstate :=
  if negb (Nat.eqb seen (w_ver s)) && Nat.eqb (w_val s) abort_all
  then log (mkW (w_now s) (w_jobs s) (w_reap s) (w_lis s) (w_ver s) (w_val s) true (WpTerm t IoOpen) (w_taken s) (w_log s)) (ASignal (cur s))
  else match w_lis s with
       | LisGone => set_main s (WpStop EndPanic)
       | _ => set_main s (WpRun t (w_ver s) started)
       end.
(** The first poll of the execution starts it: it is spawned onto the thread pool. *)
Definition start (s : wstate) (t : wtask) (seen : nat) (started : bool) : wstate :=
  if started then s else log (set_main s (WpRun t seen true)) (AStart (cur s)).
(** 772-797 *)
Definition finish (s : wstate) (t : wtask) (o : outcome) : wstate :=
  let s := log s (AFinish (cur s) o) in
  match o with
  | OcOk y => set_main s (WpOk t y IoOpen ODecl)
  | OcErr fs msg =>
      set_main (fst (mark s (t_key t))) (WpFail t fs msg IoOpen (match fs with FsIgnore => FDone | FsTerminate => FDecl end))
  | OcPanic => set_main s (WpStop EndPanic)
  end.
Definition poll_exec (s : wstate) (t : wtask) (seen : nat) (started : bool) (ready : option outcome) : wstate :=
  let s1 := start s t seen started in
  match ready with
  | Some o => finish s1 t o
  | None => s1
  end.
(** 771, tokio::select!: the branches are polled in either order until one is ready. *)
Definition poll_select (s : wstate) (t : wtask) (seen : nat) (started signal_first : bool) (ready : option outcome) : wstate :=
  if signal_first
  then let s1 := poll_signal s t seen started in
       match w_main s1 with
       | WpRun t seen started => poll_exec s1 t seen started ready
       | _ => s1
       end
  else let s1 := poll_exec s t seen started ready in
       match w_main s1 with
       | WpRun t seen started => poll_signal s1 t seen started
       | _ => s1
       end.

Definition io_effect (p : io) : option io := match p with IoOpen => Some IoEffect | _ => None end.
Definition io_return (p : io) : option io := match p with IoEffect => Some IoOk | _ => None end.
Definition stop_err (s : wstate) : wstate := set_main s (WpStop EndErr).

Definition w_step (s : wstate) (e : w_event) : option wstate :=
  match e, w_main s with
  | WTick d, _ => Some (mkW (w_now s + d) (w_jobs s) (w_reap s) (w_lis s) (w_ver s) (w_val s) (w_flag s) (w_main s) (w_taken s) (w_log s))
  (* the helper tasks run until the main loop is over *)
  | WReap, p =>
      match p with
      | WpStop _ => None
      | _ =>
          if (w_reap s <=? w_now s)%N
          then Some (mkW (w_now s) (filter (fun p => (w_now s - snd p <? clear_interval)%N) (w_jobs s)) (w_now s + clear_interval)
                       (w_lis s) (w_ver s) (w_val s) (w_flag s) (w_main s) (w_taken s) (w_log s))
          else None
      end
  | WCommand k, p =>
      match p, w_lis s with
      | WpStop _, _ | _, LisSend _ | _, LisGone => None
      | _, LisIdle =>
          let '(s1, fresh) := mark (log s (ACommand k)) k in
          Some (if fresh then mkW (w_now s1) (w_jobs s1) (w_reap s1) (LisSend k) (w_ver s1) (w_val s1) (w_flag s1) (w_main s1) (w_taken s1) (w_log s1)
                else s1)
      end
  | WSend, p =>
      match p, w_lis s with
      | WpStop _, _ | _, LisIdle | _, LisGone => None
      | _, LisSend k => Some (mkW (w_now s) (w_jobs s) (w_reap s) LisIdle (S (w_ver s)) k (w_flag s) (w_main s) (w_taken s) (w_log s))
      end
  | WHangUp, p =>
      match p, w_lis s with
      | WpStop _, _ | _, LisSend _ | _, LisGone => None
      | _, LisIdle => Some (mkW (w_now s) (w_jobs s) (w_reap s) LisGone (w_ver s) (w_val s) (w_flag s) (w_main s) (w_taken s) (w_log s))
      end
  | WTake t, WpWait =>
      Some (mkW (w_now s) (w_jobs s) (w_reap s) (w_lis s) (w_ver s) (w_val s) (w_flag s) (WpFlag t) (S (w_taken s))
              ((w_now s, ATake (w_taken s) t) :: w_log s))
  | WEnd, WpWait => Some (set_main s (WpStop EndOk))
  | WFlag, WpFlag t => Some (set_main s (if w_flag s then WpStop EndOk else WpCheck t))
  (* the receiver is a clone of one that never saw a change: its version is the initial one, 751 *)
  | WCheck, WpCheck t =>
      Some (if marked (t_key t) (w_jobs s) then set_main (log s (ASkip (cur s))) (WpSkip t IoOpen) else set_main s (WpRun t 0 false))
  | WPoll signal_first ready, WpRun t seen started =>
      Some (poll_select s t seen started signal_first ready)
  (* ack and nack *)
  | WEffect SAck, WpSkip t a => option_map (fun a' => set_main (log s (ANack (cur s))) (WpSkip t a')) (io_effect a)
  | WEffect SAck, WpOk t y a d => option_map (fun a' => set_main (log s (AAck (cur s))) (WpOk t y a' d)) (io_effect a)
  | WEffect SAck, WpFail t fs msg a d => option_map (fun a' => set_main (log s (ANack (cur s))) (WpFail t fs msg a' d)) (io_effect a)
  | WEffect SAck, WpTerm t a => option_map (fun a' => set_main (log s (ANack (cur s))) (WpTerm t a')) (io_effect a)
  | WReturn SAck ok, WpSkip t a =>
      if ok then option_map (fun _ => set_main s WpWait) (io_return a) else Some (stop_err s)
  | WReturn SAck ok, WpOk t y a d =>
      match a with
      | IoOk => None
      | _ => if ok then option_map (fun a' => set_main s (WpOk t y a' d)) (io_return a) else Some (stop_err s)
      end
  | WReturn SAck ok, WpFail t fs msg a d =>
      match a with
      | IoOk => None
      | _ => if ok then option_map (fun a' => set_main s (WpFail t fs msg a' d)) (io_return a) else Some (stop_err s)
      end
  (* 799: the result of nack is ignored *)
  | WReturn SAck ok, WpTerm t a =>
      if ok then option_map (fun _ => set_main s (WpSleep t (w_now s + shutdown_interval))) (io_return a)
      else Some (set_main s (WpSleep t (w_now s + shutdown_interval)))
  (* dispatch_ok *)
  | WDeclare ok, WpOk t y a ODecl => Some (if ok then set_main s (WpOk t y a (OPub IoOpen)) else stop_err s)
  | WEffect SResult, WpOk t y a (OPub p) => option_map (fun p' => set_main (log s (AOk (cur s) (t_key t) y)) (WpOk t y a (OPub p'))) (io_effect p)
  | WReturn SResult ok, WpOk t y a (OPub p) => if ok then option_map (fun _ => set_main s (WpOk t y a OClose)) (io_return p) else Some (stop_err s)
  | WClose ok, WpOk t y a OClose => Some (if ok then set_main s (WpOk t y a ODone) else stop_err s)
  | WJoin, WpOk t y IoOk ODone => Some (set_main s WpWait)
  (* dispatch_fatal *)
  | WDeclare ok, WpFail t fs msg a FDecl => Some (if ok then set_main s (WpFail t fs msg a (FPub IoOpen IoOpen)) else stop_err s)
  | WEffect SAbort, WpFail t fs msg a (FPub ab er) =>
      option_map (fun ab' => set_main (log s (AAbortAll (cur s))) (WpFail t fs msg a (FPub ab' er))) (io_effect ab)
  | WEffect SResult, WpFail t fs msg a (FPub ab er) =>
      option_map (fun er' => set_main (log s (AErr (cur s) (t_key t) msg)) (WpFail t fs msg a (FPub ab er'))) (io_effect er)
  | WReturn SAbort ok, WpFail t fs msg a (FPub ab er) =>
      match ab with
      | IoOk => None
      | _ => if ok then option_map (fun ab' => set_main s (WpFail t fs msg a (match er with IoOk => FClose | _ => FPub ab' er end))) (io_return ab)
             else Some (stop_err s)
      end
  | WReturn SResult ok, WpFail t fs msg a (FPub ab er) =>
      match er with
      | IoOk => None
      | _ => if ok then option_map (fun er' => set_main s (WpFail t fs msg a (match ab with IoOk => FClose | _ => FPub ab er' end))) (io_return er)
             else Some (stop_err s)
      end
  | WClose ok, WpFail t fs msg a FClose => Some (if ok then set_main s (WpFail t fs msg a FDone) else stop_err s)
  | WJoin, WpFail t fs msg IoOk FDone => Some (set_main s WpWait)
  | WWake, WpSleep t until => if (until <=? w_now s)%N then Some (set_main s (WpStop EndOk)) else None
  | _, _ => None
  end.
