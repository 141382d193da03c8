(** The postcard wire format (postcard 1.0, used by paladin-core/src/serializer/mod.rs, 77-82 and 92).

    The library itself is not part of /repo; this follows its published wire format and the decoder's documented behaviour:
    little-endian base-128 varints with a bound on the number of bytes and on the last byte, zigzag for signed integers, lengths
    before sequences, strings and maps, no framing for tuples and structs, a varint discriminant for enums. Trailing bytes are
    ignored by [from_bytes]. *)
From Coq Require Import List NArith ZArith.
From Verif Require Import Utf8 Schema.
Import ListNotations.
Open Scope N_scope.

(** Number of bytes of a varint of [b] bits, and the largest last byte. *)
Definition varint_max (b : N) : nat := N.to_nat ((b + 6) / 7).
Definition varint_last (b : N) : N := 2 ^ (b - 7 * (N.of_nat (varint_max b) - 1)) - 1.

Fixpoint venc (k : nat) (n : N) : list N :=
  match k with
  | O => []
  | S k' => if n <? 128 then [n] else (128 + n mod 128) :: venc k' (n / 128)
  end.
Definition varint (b n : N) : list N := venc (varint_max b) n.

(** [k]: bytes still allowed; [sh]: position of the next 7 bits. Bits shifted beyond the type are lost. *)
Fixpoint vdec (b : N) (k : nat) (sh acc : N) (bs : list N) : option (N * list N) :=
  match k with
  | O => None
  | S k' =>
      match bs with
      | [] => None
      | x :: r =>
          let out := acc + (x mod 128 * 2 ^ sh) mod 2 ^ b in
          if x <? 128 then
            if match k' with O => varint_last b <? x | _ => false end then None else Some (out, r)
          else vdec b k' (sh + 7) out r
      end
  end.
Definition unvarint (b : N) (bs : list N) : option (N * list N) := vdec b (varint_max b) 0 0 bs.

Definition zigzag (z : Z) : N := Z.to_N (if (z <? 0)%Z then -2 * z - 1 else 2 * z)%Z.
Definition unzigzag (n : N) : Z := if N.even n then Z.of_N (n / 2) else (- Z.of_N (n / 2) - 1)%Z.

Fixpoint le_enc (k : nat) (n : N) : list N := match k with O => [] | S k' => n mod 256 :: le_enc k' (n / 256) end.
Fixpoint le_dec (l : list N) : N := match l with [] => 0 | x :: r => x + 256 * le_dec r end.

Definition take (n : N) (bs : list N) : option (list N * list N) :=
  if N.of_nat (length bs) <? n then None else Some (firstn (N.to_nat n) bs, skipn (N.to_nat n) bs).

Definition wbytes (w : width) : N := bits w / 8.

Definition enc_uint (w : width) (n : N) : list N := match w with W8 => [n] | _ => varint (bits w) n end.
Definition dec_uint (w : width) (bs : list N) : option (N * list N) :=
  match w with W8 => match bs with [] => None | x :: r => Some (x, r) end | _ => unvarint (bits w) bs end.
Definition enc_int (w : width) (z : Z) : list N :=
  match w with W8 => [Z.to_N (z mod 256)] | _ => varint (bits w) (zigzag z) end.
Definition dec_int (w : width) (bs : list N) : option (Z * list N) :=
  match w with
  | W8 => match bs with [] => None | x :: r => Some ((if (x <? 128)%N then Z.of_N x else Z.of_N x - 256)%Z, r) end
  | _ => match unvarint (bits w) bs with Some (n, r) => Some (unzigzag n, r) | None => None end
  end.

Definition enc_len {A : Type} (l : list A) : list N := varint 64 (N.of_nat (length l)).
Definition enc_blob (b : list N) : list N := enc_len b ++ b.
Definition dec_blob (bs : list N) : option (list N * list N) :=
  match unvarint 64 bs with Some (n, r) => take n r | None => None end.

(** [n] elements, one after the other. *)
Fixpoint rep {A : Type} (n : nat) (d : list N -> option (A * list N)) (bs : list N) : option (list A * list N) :=
  match n with
  | O => Some ([], bs)
  | S m => match d bs with
           | Some (x, r) => match rep m d r with Some (l, r') => Some (x :: l, r') | None => None end
           | None => None
           end
  end.

Fixpoint penc (t : ty) : den t -> list N :=
  match t with
  | TBool => fun b => [if b : bool then 1 else 0]
  | TUint w => enc_uint w
  | TInt w => enc_int w
  | TFloat w => fun v => le_enc (N.to_nat (wbytes w)) v
  | TChar => fun c => enc_blob (enc_char c)
  | TStr => fun s => enc_blob (utf8_enc s)
  | TBytes => enc_blob
  | TUnit => fun _ => []
  | TOpt t => fun o => match o with None => [0] | Some v => 1 :: penc t v end
  | TSeq t => fun l => enc_len l ++ flat_map (penc t) l
  | TMap k v => fun l => enc_len l ++ flat_map (fun p => penc k (fst p) ++ penc v (snd p)) l
  | TTup ts => pencs ts
  | TStruct ts => pencs ts
  | TEnum vs => pencv vs 0
  end
with pencs (ts : tys) : dens ts -> list N :=
  match ts with
  | FNil => fun _ => []
  | FCons _ t r => fun p => penc t (fst p) ++ pencs r (snd p)
  end
with pencv (vs : vars) : N -> denv vs -> list N :=
  match vs with
  | VNil => fun _ x => match x : Empty_set with end
  | VUnit _ r => fun i x => match x with inl _ => varint 32 i | inr y => pencv r (i + 1) y end
  | VPay _ t r => fun i x => match x with inl v => varint 32 i ++ penc t v | inr y => pencv r (i + 1) y end
  end.

Fixpoint pdec (t : ty) : list N -> option (den t * list N) :=
  match t with
  | TBool => fun bs => match bs with 0 :: r => Some (false, r) | 1 :: r => Some (true, r) | _ => None end
  | TUint w => dec_uint w
  | TInt w => dec_int w
  | TFloat w => fun bs => match take (wbytes w) bs with Some (b, r) => Some (le_dec b, r) | None => None end
  | TChar => fun bs =>
      match unvarint 64 bs with
      | Some (n, r) =>
          if 4 <? n then None
          else match take n r with
               | Some (b, r') => match utf8_dec b with Some (c :: _) => Some (c, r') | _ => None end
               | None => None
               end
      | None => None
      end
  | TStr => fun bs => match dec_blob bs with
                      | Some (b, r) => match utf8_dec b with Some s => Some (s, r) | None => None end
                      | None => None
                      end
  | TBytes => dec_blob
  | TUnit => fun bs => Some (tt, bs)
  | TOpt t => fun bs => match bs with
                        | 0 :: r => Some (None, r)
                        | 1 :: r => match pdec t r with Some (v, r') => Some (Some v, r') | None => None end
                        | _ => None
                        end
  | TSeq t => fun bs => match unvarint 64 bs with Some (n, r) => rep (N.to_nat n) (pdec t) r | None => None end
  | TMap k v => fun bs => match unvarint 64 bs with
                          | Some (n, r) =>
                              rep (N.to_nat n) (fun bs => match pdec k bs with
                                                          | Some (x, r) => match pdec v r with
                                                                           | Some (y, r') => Some ((x, y), r')
                                                                           | None => None
                                                                           end
                                                          | None => None
                                                          end) r
                          | None => None
                          end
  | TTup ts => pdecs ts
  | TStruct ts => pdecs ts
  | TEnum vs => fun bs => match unvarint 32 bs with Some (i, r) => pdecv vs i r | None => None end
  end
with pdecs (ts : tys) : list N -> option (dens ts * list N) :=
  match ts with
  | FNil => fun bs => Some (tt, bs)
  | FCons _ t r => fun bs => match pdec t bs with
                             | Some (v, b1) => match pdecs r b1 with Some (vs, b2) => Some ((v, vs), b2) | None => None end
                             | None => None
                             end
  end
with pdecv (vs : vars) : N -> list N -> option (denv vs * list N) :=
  match vs with
  | VNil => fun _ _ => None
  | VUnit _ r => fun i bs => if i =? 0 then Some (inl tt, bs)
                             else match pdecv r (i - 1) bs with Some (v, b) => Some (inr v, b) | None => None end
  | VPay _ t r => fun i bs => if i =? 0 then match pdec t bs with Some (v, b) => Some (inl v, b) | None => None end
                              else match pdecv r (i - 1) bs with Some (v, b) => Some (inr v, b) | None => None end
  end.

(** paladin-core/src/serializer/mod.rs, 77-88 and 91-96, Postcard. *)
Definition postcard_to_bytes (t : ty) (v : den t) : list N := penc t v.
Definition postcard_from_bytes (t : ty) (bs : list N) : option (den t) := option_map fst (pdec t bs).
