(** Words used to speak about a mapped stream. *)
From Coq Require Import List Arith NArith Bool.
From Verif Require Import Base PublishModel MapModel.
Import ListNotations.

(** Where an input ends up: the operation applied, under the same index. *)
Definition image {A B : Type} (f : A -> B) (t : N * A) : N * B := (fst t, f (snd t)).

(** The items polls have returned so far (latest first). *)
Fixpoint yielded {B E : Type} (log : list (mret B E)) : list (N * B) :=
  match log with
  | [] => []
  | MItem i y :: r => (i, y) :: yielded r
  | _ :: r => yielded r
  end.

(** Some poll has returned an error; some poll has returned the end of the stream. *)
Definition failed {B E : Type} (log : list (mret B E)) : bool :=
  existsb (fun r => match r with MErr _ => true | _ => false end) log.
Definition ended {B E : Type} (log : list (mret B E)) : bool :=
  existsb (fun r => match r with MNone => true | _ => false end) log.

(** Restrictions on the environment. *)
Definition duplicates {O : Type} (e : m_event O) : bool := match e with MDupTask _ | MDupResult _ => true | _ => false end.
Definition loses {O : Type} (e : m_event O) : bool := match e with MLose _ | MLoseResult _ => true | _ => false end.
Definition fails {O : Type} (e : m_event O) : bool := match e with MEnv (PaReply _ false) | MAckReply false => true | _ => false end.
Definition no_dup {O : Type} (tr : list (m_event O)) : Prop := forall e, In e tr -> duplicates e = false.
Definition no_fault {O : Type} (tr : list (m_event O)) : Prop := forall e, In e tr -> duplicates e = false /\ loses e = false /\ fails e = false.
