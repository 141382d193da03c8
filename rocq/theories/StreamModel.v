(** Building an indexed stream and collecting it (paladin-core/src/directive/indexed_stream/mod.rs), and how directives are chained
    (paladin-core/src/directive/mod.rs:309-311 and 366-368). *)
From Coq Require Import List Arith NArith Bool Permutation Sorted.
From Verif Require Import Base MapModel MapSpec MapProps.
Import ListNotations.

Section Stream.
Context {T E : Type}.

(** [Iterator::enumerate]: indices from 0 up. The counter is a usize; lists longer than that are left out. *)
Fixpoint enumerate_from (n : N) (l : list T) : list (N * T) :=
  match l with
  | [] => []
  | x :: r => (n, x) :: enumerate_from (n + 1) r
  end.
(** mod.rs:152-157: [from_into_iterator]. [stream::iter] has every item ready at once. *)
Definition from_into_iterator (l : list T) : list (res E (N * T)) := map ROk (enumerate_from 0 l).
(** mod.rs:166-177: [try_from_into_iterator]; an error keeps its position but carries no index. *)
Fixpoint try_from (n : N) (l : list (res E T)) : list (res E (N * T)) :=
  match l with
  | [] => []
  | ROk x :: r => ROk (n, x) :: try_from (n + 1) r
  | RErr e :: r => RErr e :: try_from (n + 1) r
  end.
Definition try_from_into_iterator (l : list (res E T)) : list (res E (N * T)) := try_from 0 l.

(** mod.rs:140: what [sort_unstable_by] guarantees: a rearrangement with non-decreasing keys. Which of several items with the same index
    comes first is not specified. *)
Definition key_le (a b : N * T) : Prop := (fst a <= fst b)%N.
Definition sorts_to (v w : list (N * T)) : Prop := Permutation v w /\ StronglySorted key_le w.
(** mod.rs:138-142: [into_values_sorted], given what [try_collect] returned. *)
Inductive into_values_sorted : res (merr E) (list (N * T)) -> res (merr E) (list T) -> Prop :=
| IvsErr e : into_values_sorted (RErr e) (RErr e)
| IvsOk v w : sorts_to v w -> into_values_sorted (ROk v) (ROk (map snd w)).

(** One algorithm with that guarantee, to show it can be met. *)
Fixpoint insert (x : N * T) (l : list (N * T)) : list (N * T) :=
  match l with
  | [] => [x]
  | y :: r => if N.leb (fst x) (fst y) then x :: l else y :: insert x r
  end.
Definition isort (l : list (N * T)) : list (N * T) := fold_right insert [] l.
End Stream.

(** What a stream that returned [log] (oldest first) up to its end hands to its consumer. Errors are all [anyhow::Error]: [inj] turns the
    ones made here into that type. *)
Fixpoint stream_items {B E : Type} (inj : merr E -> E) (log : list (mret B E)) : list (res E (N * B)) :=
  match log with
  | [] => []
  | MItem i y :: r => ROk (i, y) :: stream_items inj r
  | MErr e :: r => RErr (inj e) :: stream_items inj r
  | MPending :: r => stream_items inj r
  | MNone :: _ => []
  end.

(** directive/mod.rs:309-311, [Map::run]: the output stream of one directive is the input of the next map. The stages run concurrently; a
    joint run consists of a run of each in which the items of one arrive at the other in order, at whatever times. [exec] is what
    workers answer for the operation. Streams with more items than a usize counts are left out. *)
Definition mapped {A B E O : Type} (inj : merr E -> E) (exec : O -> A -> res E B) (inp : list (res E (N * A))) (out : list (res E (N * B))) : Prop :=
  exists arr late en tr s,
    (N.of_nat (length inp) < usize_max)%N /\ arr ++ late = inp /\ no_dup tr /\ run_from (m_step exec) (m_init arr late en) tr = Some s /\ ended (m_log s) = true /\
    out = stream_items inj (rev (m_log s)).

(** Any number of maps one after the other; [h] is the composition of the operations. *)
Inductive chained {E : Type} (inj : merr E -> E) : forall (A B : Type) (h : A -> B) (inp : list (res E (N * A))) (out : list (res E (N * B))), Prop :=
| ChNone (A : Type) (inp : list (res E (N * A))) : chained inj A A (fun x => x) inp inp
| ChMap (A B C O : Type) (h : A -> B) (g : B -> C) (exec : O -> B -> res E C) inp mid out :
    chained inj A B h inp mid ->
    (forall o x y, exec o x = ROk y -> y = g x) ->
    mapped inj exec mid out ->
    chained inj A C (fun x => g (h x)) inp out.
