(** CBOR as written and read by ciborium 0.2 (used by paladin-core/src/serializer/mod.rs, 83-86 and 94).

    The library itself is not part of /repo; this follows RFC 8949 and the choices of ciborium's serde front end: options are
    transparent ([None] is null, [Some v] is [v]), unit is null, structs are maps from field names, a unit variant is its name and
    any other variant a map of one entry, 128-bit integers beyond 64 bits are bignums, floats are shortened when that is exact,
    and the decoder refuses more than 256 nested arrays, maps and enums.
    Simplifications of the decoder, none of which concerns what the encoder writes: definite lengths only, tags other than bignums
    are refused (the library skips them), struct fields are expected in declaration order, a tuple needs exactly its length, byte
    strings are not accepted for sequences. *)
From Coq Require Import List NArith ZArith Bool.
From Verif Require Import Utf8 Schema PostcardModel.
Import ListNotations.
Open Scope N_scope.

Definition be_enc (k : nat) (n : N) : list N := rev (le_enc k n).
Definition be_dec (l : list N) : N := le_dec (rev l).

(** The head of an item: major type and argument, as short as possible. *)
Definition head (mj n : N) : list N :=
  if n <? 24 then [mj * 32 + n]
  else if n <? 2 ^ 8 then mj * 32 + 24 :: be_enc 1 n
  else if n <? 2 ^ 16 then mj * 32 + 25 :: be_enc 2 n
  else if n <? 2 ^ 32 then mj * 32 + 26 :: be_enc 4 n
  else mj * 32 + 27 :: be_enc 8 n.

(** Major type, minor type, argument, rest. *)
Definition dec_head (bs : list N) : option (N * N * N * list N) :=
  match bs with
  | [] => None
  | b :: r =>
      let mj := b / 32 in
      let mn := b mod 32 in
      if mn <? 24 then Some (mj, mn, mn, r)
      else if mn <? 28 then match take (2 ^ (mn - 24)) r with
                            | Some (x, r') => Some (mj, mn, be_dec x, r')
                            | None => None
                            end
      else None
  end.

(** A head of major type [mj]; its argument. *)
Definition expect (mj : N) (bs : list N) : option (N * list N) :=
  match dec_head bs with Some (m, _, n, r) => if m =? mj then Some (n, r) else None | None => None end.

(** A simple value (major type 7, not a float). *)
Definition dec_simple (bs : list N) : option (N * list N) :=
  match dec_head bs with Some (m, mn, n, r) => if (m =? 7) && (mn <? 25) then Some (n, r) else None | None => None end.
Definition is_null (n : N) : bool := (n =? 22) || (n =? 23).

Fixpoint strip0 (l : list N) : list N := match l with [] => [] | x :: r => if x =? 0 then strip0 r else l end.

(** Integers: [neg] for values below zero, of which [raw] is the absolute value minus one. *)
Definition enc_integer (neg : bool) (raw : N) : list N :=
  if raw <? 2 ^ 64 then head (if neg then 1 else 0) raw
  else let b := strip0 (be_enc 16 raw) in (if neg then 0xC3 else 0xC2) :: head 2 (N.of_nat (length b)) ++ b.
Definition dec_integer (bs : list N) : option (bool * N * list N) :=
  match dec_head bs with
  | Some (m, _, n, r) =>
      if m =? 0 then Some (false, n, r)
      else if m =? 1 then Some (true, n, r)
      else if (m =? 6) && ((n =? 2) || (n =? 3)) then
        match expect 2 r with
        | Some (len, r1) =>
            match take len r1 with
            | Some (b, r2) =>
                let s := strip0 b in
                if 16 <? N.of_nat (length s) then None else Some (n =? 3, be_dec s, r2)
            | None => None
            end
        | None => None
        end
      else None
  | None => None
  end.

Definition cenc_uint (n : N) : list N := enc_integer false n.
Definition cenc_int (z : Z) : list N := if (z <? 0)%Z then enc_integer true (Z.to_N (- z - 1)) else enc_integer false (Z.to_N z).
Definition cdec_uint (w : width) (bs : list N) : option (N * list N) :=
  match dec_integer bs with
  | Some (false, n, r) => if n <? 2 ^ bits w then Some (n, r) else None
  | _ => None
  end.
Definition cdec_int (w : width) (bs : list N) : option (Z * list N) :=
  match dec_integer bs with
  | Some (neg, n, r) =>
      if n <? 2 ^ (bits w - 1) then Some ((if neg : bool then - Z.of_N n - 1 else Z.of_N n)%Z, r) else None
  | None => None
  end.

Definition enc_text (s : list N) : list N := let b := utf8_enc s in head 3 (N.of_nat (length b)) ++ b.
Definition dec_text (bs : list N) : option (list N * list N) :=
  match expect 3 bs with
  | Some (n, r) => match take n r with
                   | Some (b, r') => match utf8_dec b with Some s => Some (s, r') | None => None end
                   | None => None
                   end
  | None => None
  end.
(** Names of fields and variants are read into a buffer of 4096 bytes. *)
Definition dec_name (bs : list N) : option (list N * list N) :=
  match expect 3 bs with
  | Some (n, r) => if 4096 <? n then None else dec_text bs
  | None => None
  end.

Fixpoint ntys (ts : tys) : N := match ts with FNil => 0 | FCons _ _ r => 1 + ntys r end.

(** Conversions between the floating point formats, on bit patterns. They are left arbitrary: the encoder shortens a number only
    if converting back gives the very same bits. *)
Section Cbor.
Variables widen16 widen32 narrow16 narrow32 : N -> N.

Definition enc_f64 (x : N) : list N :=
  let n16 := narrow16 x mod 2 ^ 16 in
  let n32 := narrow32 x mod 2 ^ 32 in
  if widen16 n16 =? x then 0xF9 :: be_enc 2 n16
  else if widen32 n32 =? x then 0xFA :: be_enc 4 n32
  else 0xFB :: be_enc 8 x.
Definition dec_f64 (bs : list N) : option (N * list N) :=
  match dec_head bs with
  | Some (m, mn, n, r) =>
      if m =? 7 then
        if mn =? 25 then Some (widen16 n, r)
        else if mn =? 26 then Some (widen32 n, r)
        else if mn =? 27 then Some (n, r)
        else None
      else None
  | None => None
  end.

Fixpoint cenc (t : ty) : den t -> list N :=
  match t with
  | TBool => fun b => [if b : bool then 0xF5 else 0xF4]
  | TUint w => cenc_uint
  | TInt w => cenc_int
  | TFloat W64 => enc_f64
  | TFloat _ => fun v => enc_f64 (widen32 v)
  | TChar => fun c => enc_text [c]
  | TStr => enc_text
  | TBytes => fun b => head 2 (N.of_nat (length b)) ++ b
  | TUnit => fun _ => [0xF6]
  | TOpt t => fun o => match o with None => [0xF6] | Some v => cenc t v end
  | TSeq t => fun l => head 4 (N.of_nat (length l)) ++ flat_map (cenc t) l
  | TMap k v => fun l => head 5 (N.of_nat (length l)) ++ flat_map (fun p => cenc k (fst p) ++ cenc v (snd p)) l
  | TTup ts => fun v => head 4 (ntys ts) ++ cencs false ts v
  | TStruct ts => fun v => head 5 (ntys ts) ++ cencs true ts v
  | TEnum vs => cencv vs
  end
with cencs (named : bool) (ts : tys) : dens ts -> list N :=
  match ts with
  | FNil => fun _ => []
  | FCons n t r => fun p => (if named then enc_text n else []) ++ cenc t (fst p) ++ cencs named r (snd p)
  end
with cencv (vs : vars) : denv vs -> list N :=
  match vs with
  | VNil => fun x => match x : Empty_set with end
  | VUnit n r => fun x => match x with inl _ => enc_text n | inr y => cencv r y end
  | VPay n t r => fun x => match x with inl v => head 5 1 ++ enc_text n ++ cenc t v | inr y => cencv r y end
  end.

Definition str_eqb (a b : list N) : bool := if list_eq_dec N.eq_dec a b then true else false.

(** [d] is how many more arrays, maps and enums may be entered. *)
Fixpoint cdec (t : ty) (d : nat) : list N -> option (den t * list N) :=
  match t return list N -> option (den t * list N) with
  | TBool => fun bs => match dec_simple bs with
                       | Some (n, r) => if n =? 20 then Some (false, r) else if n =? 21 then Some (true, r) else None
                       | None => None
                       end
  | TUint w => cdec_uint w
  | TInt w => cdec_int w
  | TFloat W64 => dec_f64
  | TFloat _ => fun bs => match dec_f64 bs with Some (x, r) => Some (narrow32 x, r) | None => None end
  | TChar => fun bs => match expect 3 bs with
                       | Some (n, _) =>
                           if 4 <? n then None
                           else match dec_text bs with Some ([c], r) => Some (c, r) | _ => None end
                       | None => None
                       end
  | TStr => dec_text
  | TBytes => fun bs => match expect 2 bs with Some (n, r) => take n r | None => None end
  | TUnit => fun bs => match dec_simple bs with
                       | Some (n, r) => if is_null n then Some (tt, r) else None
                       | None => None
                       end
  | TOpt t => fun bs => match dec_simple bs with
                        | Some (n, r) => if is_null n then Some (None, r)
                                         else match cdec t d bs with Some (v, r) => Some (Some v, r) | None => None end
                        | None => match cdec t d bs with Some (v, r) => Some (Some v, r) | None => None end
                        end
  | TSeq t => fun bs => match expect 4 bs, d with
                        | Some (n, r), S d' => rep (N.to_nat n) (cdec t d') r
                        | _, _ => None
                        end
  | TMap k v => fun bs => match expect 5 bs, d with
                          | Some (n, r), S d' =>
                              rep (N.to_nat n) (fun bs => match cdec k d' bs with
                                                          | Some (x, r) => match cdec v d' r with
                                                                           | Some (y, r') => Some ((x, y), r')
                                                                           | None => None
                                                                           end
                                                          | None => None
                                                          end) r
                          | _, _ => None
                          end
  | TTup ts => fun bs => match expect 4 bs, d with
                         | Some (n, r), S d' => if n =? ntys ts then cdecs false ts d' r else None
                         | _, _ => None
                         end
  | TStruct ts => fun bs => match expect 5 bs, d with
                            | Some (n, r), S d' => if n =? ntys ts then cdecs true ts d' r else None
                            | _, _ => None
                            end
  | TEnum vs => fun bs =>
      let bs' := match expect 5 bs with Some (1, r) => Some r
                                      | _ => match expect 3 bs with Some _ => Some bs | None => None end
                 end in
      match bs', d with
      | Some b, S d' => match dec_name b with Some (n, r) => cdecv vs d' n r | None => None end
      | _, _ => None
      end
  end
with cdecs (named : bool) (ts : tys) (d : nat) : list N -> option (dens ts * list N) :=
  match ts return list N -> option (dens ts * list N) with
  | FNil => fun bs => Some (tt, bs)
  | FCons n t r => fun bs =>
      match (if named then match dec_name bs with
                           | Some (n', b) => if str_eqb n' n then Some b else None
                           | None => None
                           end
             else Some bs) with
      | Some b0 => match cdec t d b0 with
                   | Some (v, b1) => match cdecs named r d b1 with Some (vs, b2) => Some ((v, vs), b2) | None => None end
                   | None => None
                   end
      | None => None
      end
  end
with cdecv (vs : vars) (d : nat) (n : list N) : list N -> option (denv vs * list N) :=
  match vs return list N -> option (denv vs * list N) with
  | VNil => fun _ => None
  | VUnit n' r => fun bs => if str_eqb n n' then Some (inl tt, bs)
                            else match cdecv r d n bs with Some (v, b) => Some (inr v, b) | None => None end
  | VPay n' t r => fun bs => if str_eqb n n' then match cdec t d bs with Some (v, b) => Some (inl v, b) | None => None end
                             else match cdecv r d n bs with Some (v, b) => Some (inr v, b) | None => None end
  end.

(** paladin-core/src/serializer/mod.rs, 77-88 and 91-96, Cbor; [ciborium::from_reader] allows 256 levels. *)
Definition cbor_to_bytes (t : ty) (v : den t) : list N := cenc t v.
Definition cbor_from_bytes (t : ty) (bs : list N) : option (den t) := option_map fst (cdec t 256 bs).
End Cbor.
