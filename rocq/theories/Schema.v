(** The types that can be sent: a universe of descriptions of serde types, and the values of each.

    Serde's data model (serde 1.0) as used by [#[derive(Serialize, Deserialize)]]: integers, floats (as bit patterns), characters,
    strings, byte strings ([Bytes]), unit (also unit structs and [PhantomData]), options, sequences ([Vec] and the like), maps (as
    the list of their entries in iteration order), tuples (also tuple structs and arrays), structs with named fields, and enums
    whose variants are units or carry a payload (newtype variants; tuple and struct variants carry a tuple or struct).
    A newtype struct is its content. Recursive types are covered only through their finite unfoldings. *)
From Coq Require Import List NArith ZArith.
From Verif Require Import Utf8.
Import ListNotations.
Open Scope N_scope.

Inductive width : Type := W8 | W16 | W32 | W64 | W128.
Definition bits (w : width) : N := match w with W8 => 8 | W16 => 16 | W32 => 32 | W64 => 64 | W128 => 128 end.

Inductive ty : Type :=
| TBool
| TUint (w : width)               (* usize is W64 *)
| TInt (w : width)
| TFloat (w : width)              (* W32 and W64 are Rust's; the others are bit patterns of that size *)
| TChar
| TStr
| TBytes
| TUnit
| TOpt (t : ty)
| TSeq (t : ty)
| TMap (k v : ty)
| TTup (ts : tys)
| TStruct (ts : tys)
| TEnum (vs : vars)
with tys : Type :=                (* the field name is used by structs only *)
| FNil
| FCons (name : list N) (t : ty) (r : tys)
with vars : Type :=
| VNil
| VUnit (name : list N) (r : vars)
| VPay (name : list N) (t : ty) (r : vars).

Fixpoint den (t : ty) : Type :=
  match t with
  | TBool => bool
  | TUint _ => N
  | TInt _ => Z
  | TFloat _ => N
  | TChar => N
  | TStr => list N
  | TBytes => list N
  | TUnit => unit
  | TOpt t => option (den t)
  | TSeq t => list (den t)
  | TMap k v => list (den k * den v)
  | TTup ts => dens ts
  | TStruct ts => dens ts
  | TEnum vs => denv vs
  end
with dens (ts : tys) : Type :=
  match ts with
  | FNil => unit
  | FCons _ t r => (den t * dens r)%type
  end
with denv (vs : vars) : Type :=
  match vs with
  | VNil => Empty_set
  | VUnit _ r => (unit + denv r)%type
  | VPay _ t r => (den t + denv r)%type
  end.

(** The values Rust can hold: integers in range, characters that are scalar values, bytes below 256, lengths below 2^64. *)
Definition len_ok {A : Type} (l : list A) : Prop := N.of_nat (length l) < 2 ^ 64.
Definition str_ok (s : list N) : Prop := forallb is_scalar s = true /\ len_ok (utf8_enc s).

Fixpoint ok (t : ty) : den t -> Prop :=
  match t with
  | TBool => fun _ => True
  | TUint w => fun v => v < 2 ^ bits w
  | TInt w => fun v => (- 2 ^ (Z.of_N (bits w) - 1) <= v < 2 ^ (Z.of_N (bits w) - 1))%Z
  | TFloat w => fun v => v < 2 ^ bits w
  | TChar => fun c => is_scalar c = true
  | TStr => str_ok
  | TBytes => fun b => Forall (fun x => x < 256) b /\ len_ok b
  | TUnit => fun _ => True
  | TOpt t => fun o => match o with Some v => ok t v | None => True end
  | TSeq t => fun l => Forall (ok t) l /\ len_ok l
  | TMap k v => fun l => Forall (fun p => ok k (fst p) /\ ok v (snd p)) l /\ len_ok l
  | TTup ts => oks ts
  | TStruct ts => oks ts
  | TEnum vs => okv vs
  end
with oks (ts : tys) : dens ts -> Prop :=
  match ts with
  | FNil => fun _ => True
  | FCons _ t r => fun p => ok t (fst p) /\ oks r (snd p)
  end
with okv (vs : vars) : denv vs -> Prop :=
  match vs with
  | VNil => fun _ => True
  | VUnit _ r => fun x => match x with inl _ => True | inr y => okv r y end
  | VPay _ t r => fun x => match x with inl v => ok t v | inr y => okv r y end
  end.

Fixpoint nvars (vs : vars) : N :=
  match vs with VNil => 0 | VUnit _ r => 1 + nvars r | VPay _ _ r => 1 + nvars r end.

(** An enum has fewer than 2^32 variants (its discriminant in serde is a u32). *)
Fixpoint wf (t : ty) : Prop :=
  match t with
  | TOpt t | TSeq t => wf t
  | TMap k v => wf k /\ wf v
  | TTup ts | TStruct ts => wfs ts
  | TEnum vs => nvars vs < 2 ^ 32 /\ wfv vs
  | _ => True
  end
with wfs (ts : tys) : Prop := match ts with FNil => True | FCons _ t r => wf t /\ wfs r end
with wfv (vs : vars) : Prop := match vs with VNil => True | VUnit _ r => wfv r | VPay _ t r => wf t /\ wfv r end.

Scheme ty_ind3 := Induction for ty Sort Prop
with tys_ind3 := Induction for tys Sort Prop
with vars_ind3 := Induction for vars Sort Prop.
Combined Scheme schema_ind from ty_ind3, tys_ind3, vars_ind3.
