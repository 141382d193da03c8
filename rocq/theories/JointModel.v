(** Directives and the system together: mapped streams (MapModel) and folds (FoldModel) whose tasks are executed by the system of SystemModel.

    In MapModel and FoldModel the queues are inside the directive's state and workers are events. Here publishing a task is a dispatch of the system
    (paladin-core/src/directive/indexed_stream/functor.rs:40-51 and foldable.rs:276-284, both through [lease_coordinated_task_channel],
    runtime/mod.rs:318-366), receiving a result is a reception, and workers are those of SystemModel. The directive's own copies of the queues only follow what
    happens in the system.
    - A payload of SystemModel is the code of a task: a map's (index and input) or a fold's (range and two operands), each with the number of the operation.
    - Result queues are read in the order of publication by a map (C24, C55); in any order by a fold, as in FoldModel.
    - Elements are numbers; [f] and [g] are what the operations compute. Executions may also fail, panic or never end. *)
From Coq Require Import List Arith NArith Bool Cantor.
From Verif Require Import Base PublishModel MapModel ContiguousModel FoldModel WorkerModel SystemModel.
Import ListNotations.
Open Scope nat_scope.

(** paladin-core/src/task/mod.rs:31-43 and 63-80: a task's operation, input and metadata. *)
Inductive job : Type :=
| JobMap (op : nat) (i : N) (a : nat)
| JobFold (op : nat) (t : ftask nat).
Definition code (j : job) : nat :=
  match j with
  | JobMap op i a => 2 * to_nat (op, to_nat (N.to_nat i, a))
  | JobFold op t => S (2 * to_nat (op, to_nat (to_nat (N.to_nat (ft_lo t), N.to_nat (ft_hi t)), to_nat (ft_l t, ft_r t))))
  end.
Definition decode (x : nat) : job :=
  let (op, c) := of_nat (Nat.div2 x) in
  if Nat.even x then let (i, a) := of_nat c in JobMap op (N.of_nat i) a
  else let (r, v) := of_nat c in
       let (lo, hi) := of_nat r in let (l, rr) := of_nat v in JobFold op (mkTask (N.of_nat lo) (N.of_nat hi) l rr).

Inductive client : Type :=
| CMap (op : nat) (arr late : list (Base.res nat (N * nat))) (ended : bool) (m : mstate nat nat nat)
| CFold (op : nat) (inp : list (Base.res nat (N * nat))) (s : fstate nat nat).
Record joint : Type := mkJ { j_sys : sys; j_cl : list client }.
Definition j_init : joint := mkJ y_init [].

Inductive j_event : Type :=
| JMap (op k : nat) (arr late : list (Base.res nat (N * nat))) (ended : bool)   (* a map starts, functor.rs:28-51 *)
| JFold (op k : nat) (inp : list (Base.res nat (N * nat)))                      (* a fold starts, foldable.rs:133-157 *)
| JOfMap (d : nat) (e : m_event (option nat))
| JOfFold (d : nat) (e : fevent (option nat))
| JSys (e : y_event).                                                      (* workers, redeliveries, the end of a lease *)

Section Joint.
Variable f : nat -> nat -> nat.          (* what a map's operation computes *)
Variable g : nat -> nat -> nat -> nat.   (* what a fold's monoid computes *)
Variable empty : nat -> nat.

(** What an execution may come to. *)
Definition value (j : job) : nat := match j with JobMap op _ a => f op a | JobFold op t => g op (ft_l t) (ft_r t) end.
Definition may (x : nat) (o : outcome) : bool := match o with OcOk y => Nat.eqb y (value (decode x)) | _ => true end.
(** The same for MapModel and FoldModel. *)
Definition exec (op : nat) (o : option nat) (a : nat) : Base.res nat nat := match o with None => ROk (f op a) | Some e => RErr e end.
Definition comb (op : nat) (o : option nat) (a b : nat) : Base.res nat nat := match o with None => ROk (g op a b) | Some e => RErr e end.

Definition answer_of (o : nat + nat) : Base.res nat nat := match o with inl y => ROk y | inr e => RErr e end.
Definition is_task (i : N) (a : nat) (t : N * nat) : bool := N.eqb (fst t) i && Nat.eqb (snd t) a.
Fixpoint drop_first {A : Type} (p : A -> bool) (l : list A) : list A :=
  match l with [] => [] | x :: r => if p x then r else x :: drop_first p r end.
(** A result arrives in the client's result queue. *)
Definition answer (c : client) (j : job) (o : nat + nat) : client :=
  match c, j with
  | CMap op arr late en m, JobMap _ i a =>
      CMap op arr late en (deliver (set_queues m (drop_first (is_task i a) (m_tasks m)) (m_results m) (m_lost m)) ((i, a), answer_of o))
  | CFold op inp s, JobFold _ t =>
      match f_ret s with
      | Some _ => c
      | None => CFold op inp (set_results s (f_results s ++ [match answer_of o with ROk v => ROk (mkItem (ft_lo t) (ft_hi t) v) | RErr e => RErr e end]))
      end
  | _, _ => c
  end.
(** The job of a dispatch. *)
Definition job_of (y : sys) (n : nat) : job := match nth_error (y_sent y) n with Some (_, x) => decode x | None => JobMap 0 0 0 end.
Definition arrive (y : sys) (cl : list client) (r : res) : list client :=
  match nth_error (y_sent y) (r_n r) with
  | Some (d, x) =>
      match nth_error (y_dirs y) d, nth_error cl d with
      | Some dd, Some c => if d_open dd then upd d (answer c (decode x) (r_out r)) cl else cl
      | _, _ => cl
      end
  | None => cl
  end.
(** The place in the system's results of the [i]-th one on channel [k]. *)
Fixpoint place (k i : nat) (l : list res) : option nat :=
  match l with
  | [] => None
  | r :: l' => if Nat.eqb (r_key r) k then match i with O => Some 0 | S i' => option_map S (place k i' l') end else option_map S (place k i l')
  end.

Definition open_dir (y : sys) (d : nat) : option dir := match nth_error (y_dirs y) d with Some dd => if d_open dd then Some dd else None | None => None end.
Definition send (y : sys) (d : nat) (c : client) (cl : list client) (j : job) : option joint :=
  option_map (fun y' => mkJ y' (upd d c cl)) (y_step may y (YSend d (code j))).
Definition recv (y : sys) (d : nat) (dd : dir) (c : client) (cl : list client) (i : nat) : option joint :=
  match place (d_key dd) i (y_results y) with
  | Some j => option_map (fun y' => mkJ y' (upd d c cl)) (y_step may y (YRecv d j))
  | None => None
  end.

Definition j_step (s : joint) (e : j_event) : option joint :=
  let y := j_sys s in
  match e with
  | JMap op k arr late en => option_map (fun y' => mkJ y' (j_cl s ++ [CMap op arr late en (m_init arr late en)])) (y_step may y (YLease k))
  | JFold op k inp => option_map (fun y' => mkJ y' (j_cl s ++ [CFold op inp (fold_init inp)])) (y_step may y (YLease k))
  | JOfMap d e =>
      match open_dir y d, nth_error (j_cl s) d with
      | Some dd, Some (CMap op arr late en m) =>
          match m_step (exec op) m e with
          | Some m' =>
              let c' := CMap op arr late en m' in
              match e with
              | MEnv (PaAccept _) | MEnv (PaAcceptDropped _) =>
                  match skipn (length (m_tasks m)) (m_tasks m') with
                  | [(i, a)] => send y d c' (j_cl s) (JobMap op i a)
                  | _ => None
                  end
              | MTake => recv y d dd c' (j_cl s) 0
              | MEmpty => match place (d_key dd) 0 (y_results y) with None => Some (mkJ y (upd d c' (j_cl s))) | Some _ => None end
              | MWork _ _ | MLose _ | MLoseResult _ | MDupTask _ | MDupResult _ => None
              | _ => Some (mkJ y (upd d c' (j_cl s)))
              end
          | None => None
          end
      | _, _ => None
      end
  | JOfFold d e =>
      match open_dir y d, nth_error (j_cl s) d with
      | Some dd, Some (CFold op inp x) =>
          match fold_step (comb op) (empty op) x e with
          | Some x' =>
              let c' := CFold op inp x' in
              match e with
              | EvPublish i true => match pick i (f_chan x) with Some (t, _) => send y d c' (j_cl s) (JobFold op t) | None => None end
              | EvResult i _ => recv y d dd c' (j_cl s) i
              | EvInput | EvInputEnd | EvPublish _ false | EvFinal _ => Some (mkJ y (upd d c' (j_cl s)))
              | _ => None
              end
          | None => None
          end
      | _, _ => None
      end
  | JSys (YWork w e) =>
      match y_step may y (YWork w e) with
      | Some y' => Some (mkJ y' (fold_left (arrive y') (skipn (length (y_results y)) (y_results y')) (j_cl s)))
      | None => None
      end
  | JSys (YLease _) | JSys (YSend _ _) | JSys (YRecv _ _) => None
  | JSys e => option_map (fun y' => mkJ y' (j_cl s)) (y_step may y e)
  end.
Definition j_run (tr : list j_event) : option joint := run_from j_step j_init tr.
End Joint.
