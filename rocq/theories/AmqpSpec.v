(** What the broker's history (newest first) must satisfy. *)
From Coq Require Import List Arith Bool.
From Verif Require Import AmqpModel.
Import ListNotations.

(** The consumer that holds copy [id], with its connection: the one it was last delivered to, until it answers or its connection closes. *)
Fixpoint holder (id : nat) (l : list bact) : option (nat * nat) :=
  match l with
  | [] => None
  | BGive i k c :: r => if Nat.eqb i id then Some (k, c) else holder id r
  | BAck i :: r | BNack i :: r => if Nat.eqb i id then None else holder id r
  | BClose c :: r => match holder id r with Some (k, c') => if Nat.eqb c' c then None else Some (k, c') | None => None end
  | _ :: r => holder id r
  end.
(** A copy is delivered only while nobody holds it. *)
Definition one_holder (l : list bact) : Prop := forall l1 id k c l2, l = l1 ++ BGive id k c :: l2 -> holder id l2 = None.
(** A copy that was acked or nacked is never delivered, acked or nacked again. *)
Definition about (id : nat) (a : bact) : Prop := match a with BGive i _ _ | BAck i | BNack i => i = id | _ => False end.
Definition answers (id : nat) (a : bact) : Prop := a = BAck id \/ a = BNack id.
Definition settled (l : list bact) : Prop := forall l1 id a l2, l = l1 ++ a :: l2 -> answers id a -> forall b, In b l1 -> ~ about id b.
(** Between two deliveries of a copy, the connection of the first closed. *)
Definition again_after_close (l : list bact) : Prop :=
  forall l1 id k c l2 k' c' l3, l = l1 ++ BGive id k c :: l2 ++ BGive id k' c' :: l3 -> In (BClose c') l2.
(** A copy is delivered after it was put in a queue, to a consumer of that queue. *)
Definition from_queue (l : list bact) : Prop :=
  forall l1 id k c l2, l = l1 ++ BGive id k c :: l2 -> exists p q, In (BRoute p id q) l2 /\ In (BCons k c q) l2.
(** Publication [p] was delivered to consumer [k]. *)
Definition got (l : list bact) (p k : nat) : Prop := exists id q c, In (BRoute p id q) l /\ In (BGive id k c) l.
(** First deliveries follow the order of publishing. *)
Definition first_in_first_out (l : list bact) : Prop :=
  forall l1 id k c l2 l3 p q l4 p' id', l = l1 ++ BGive id k c :: l2 -> l2 = l3 ++ BRoute p id q :: l4 -> In (BRoute p' id' q) l4 -> exists k' c', In (BGive id' k' c') l2.
