(** The program of examples/hello-world-rabbitmq: its operation, its monoid and its main function. *)
From Coq Require Import List Arith NArith Bool.
From Verif Require Import Base FoldModel.
Import ListNotations.
Open Scope nat_scope.

(** A [char] is its code point, a [String] the list of its characters: UTF-8 encodes a concatenation as the concatenation of the encodings. *)
Definition text : Type := list N.

(** The abort signal as the operation sees it: not given, or what the [i]-th load of the flag returns. *)
Definition signal : Type := option (nat -> bool).
(** The test of the flag, ops/src/lib.rs:26-31. *)
Definition aborted (sg : signal) (i : nat) : bool := match sg with Some load => load i | None => false end.
(** The error carries the iteration at which the flag was seen, ops/src/lib.rs:32-35. The sleeping and the logging are left out. *)
Fixpoint char_loop (sg : signal) (i n : nat) (c : N) : res nat text :=
  match n with
  | O => ROk [c]
  | S n' => if aborted sg i then RErr i else char_loop sg (S i) n' c
  end.
(** [CharToString::execute], ops/src/lib.rs:17-40: [for i in 1..10]. *)
Definition char_to_string (sg : signal) (c : N) : res nat text := char_loop sg 1 9 c.
(** [StringConcat], ops/src/lib.rs:46-61: it never fails. *)
Definition concat_empty : text := [].
Definition string_concat (_ : signal) (a b : text) : res nat text := ROk (a ++ b).

(** The end of [main], leader/src/main.rs:67-79. A panic in [run] ends the program there; otherwise the runtime is closed, and [assert_eq!] panics if the texts differ. *)
Inductive main_end : Type := MainOk | MainErr | MainPanic.
Definition text_eqb (a b : text) : bool := if list_eq_dec N.eq_dec a b then true else false.
Definition main_returns (input : text) (result : foutcome text nat) (close_ok : bool) : main_end :=
  match result with
  | Panicked => MainPanic
  | RetErr _ => MainErr
  | RetOk v => if close_ok then if text_eqb v input then MainOk else MainPanic else MainErr
  end.
