(** Words used to speak about [publish_all]. *)
From Coq Require Import List Arith Bool.
From Verif Require Import Base PublishModel.
Import ListNotations.

(** The items of a list with their positions. *)
Definition numbered {T : Type} (l : list T) : list (nat * T) := combine (seq 0 (length l)) l.

(** The values a stream yields before its first error. *)
Fixpoint before_error {E T : Type} (l : list (res E T)) : list T :=
  match l with
  | ROk x :: r => x :: before_error r
  | _ => []
  end.

(** A publish answers with an error (or refuses at once). *)
Definition is_failure (e : pa_event) : bool :=
  match e with PaReply _ false | PaRefuse _ => true | _ => false end.

(** Publish calls that were begun and have not returned. *)
Definition running {T : Type} (l : list (nat * T * fut)) : nat :=
  length (filter (fun f => match snd f with FNew => false | _ => true end) l).

(** Polls of the stream that find nothing new do not count as progress. *)
Definition idle_pull {T E : Type} (s : pall T E) (e : pa_event) : bool :=
  match e with
  | PaPull => match pa_arr s with [] => negb (pa_end s) | _ => false end
  | _ => false
  end.
Fixpoint idle_pulls {T E : Type} (s : pall T E) (tr : list pa_event) : nat :=
  match tr with
  | [] => 0
  | e :: tr' => (if idle_pull s e then 1 else 0)
                + match pa_step s e with Some s' => idle_pulls s' tr' | None => 0 end
  end.
