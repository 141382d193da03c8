(** Where values are during concurrent calls of ContiguousQueue. *)
From Coq Require Import List NArith.
From Verif Require Import Base ContiguousModel ContigConcModel.
Import ListNotations.
Open Scope N_scope.

Section Places.
  Context {T : Type}.
  (** Values submitted by the calls of a history. *)
  Definition submitted_by (e : cevent T) : list T := match e with CAcquire v | CQueue v => [v] | _ => [] end.
  Definition submitted (tr : list (cevent T)) : list T := flat_map submitted_by tr.

  (** Values in the hands of a call that has not returned. *)
  Definition hand (p : phase T) : list T :=
    match p with
    | PFindR v | PReadR v _ _ | PTakeR v _ _ | PFindL v | PReadL v _ _ | PTakeL v _ _ | PQueue v => [v]
    | PRem v w _ _ => [v; w]
    | PDeq _ | PDeqTake _ | PDone _ => []
    end.
  (** Values given back by a call that has returned. *)
  Definition given (p : phase T) : list T :=
    match p with
    | PDone (RetPair l r) => [l; r]
    | PDone (RetDeq (Some v)) => [v]
    | _ => []
    end.
  Definition opt_list (o : option T) : list T := match o with Some v => [v] | None => [] end.
  (** Values in memory cells, linked or not. *)
  Definition in_cells (s : cstate T) : list T := flat_map opt_list (c_cells s).
  (** Values that a later call can find: in the cell of a linked entry. *)
  Definition queued (s : cstate T) : list T := flat_map (fun e => opt_list (cell s (snd e))) (c_map s).
  Definition held_by_calls (s : cstate T) : list T := flat_map hand (c_thr s).
  Definition given_back (s : cstate T) : list T := flat_map given (c_thr s).
  Definition all_returned (s : cstate T) : Prop := forall p, In p (c_thr s) -> exists r, p = PDone r.

  (** Values still inside: held by a call or in a cell. *)
  Definition inside (s : cstate T) : list T := held_by_calls s ++ in_cells s.
End Places.

(** A history in which no value is submitted while another value that conflicts with it is inside. *)
Section Fresh.
  Variable T : Type.
  Variable key : T -> N.
  Variable contig : T -> T -> bool.
  Variable ok : T -> T -> Prop.
  Inductive fresh_run : cstate T -> list (cevent T) -> Prop :=
  | FreshNil s : fresh_run s []
  | FreshCons s e s' tr : (forall v w, In v (submitted_by e) -> In w (inside s) -> ok v w) ->
      conc_step key contig s e = Some s' -> fresh_run s' tr -> fresh_run s (e :: tr).
End Fresh.
Arguments fresh_run {T}.
