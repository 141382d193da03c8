(** Rust's conversions between f32 and f64, on bit patterns (IEEE 754 binary32 and binary64), as used by
    paladin-core/src/serializer/mod.rs:81 (into_writer) and :94 (from_reader): ciborium serializes an f32 as [f64::from] and serde's visitor for f32 reads
    an f64 with [as f32]; the payload of a NaN is the one that x86-64 and AArch64 produce: the quiet bit is set, the rest kept. *)
From Coq Require Import NArith Bool.
Local Open Scope N_scope.

(** Round to nearest, ties to even: [n / 2^k] (IEEE 754 4.3.1; serializer/mod.rs:94 through [as f32]). *)
Definition rne (n k : N) : N :=
  let q := n / 2 ^ k in
  let r := n mod 2 ^ k in
  if (2 ^ k <? 2 * r) || ((2 * r =? 2 ^ k) && N.odd q) then q + 1 else q.

(** A NaN's payload with its quiet bit set (serializer/mod.rs:81 and :94). *)
Definition quiet (bit m : N) : N := if m <? bit then m + bit else m.

(** [f64::from(f32)]: always exact (serializer/mod.rs:81, ciborium's serialize_f32). *)
Definition widen32 (v : N) : N :=
  let s := v / 2 ^ 31 in
  let e := v / 2 ^ 23 mod 2 ^ 8 in
  let m := v mod 2 ^ 23 in
  s * 2 ^ 63 +
  (if e =? 255 then 2047 * 2 ^ 52 + (if m =? 0 then 0 else quiet (2 ^ 22) m) * 2 ^ 29
   else if e =? 0 then if m =? 0 then 0 else (N.log2 m + 874) * 2 ^ 52 + (m - 2 ^ N.log2 m) * 2 ^ (52 - N.log2 m)
   else (e + 896) * 2 ^ 52 + m * 2 ^ 29).

(** [f64 as f32]: rounds to nearest, overflows to infinity (serializer/mod.rs:94, serde's visitor for f32). *)
Definition narrow32 (x : N) : N :=
  let s := x / 2 ^ 63 in
  let e := x / 2 ^ 52 mod 2 ^ 11 in
  let m := x mod 2 ^ 52 in
  s * 2 ^ 31 +
  (if e =? 2047 then 255 * 2 ^ 23 + (if m =? 0 then 0 else quiet (2 ^ 22) (m / 2 ^ 29))
   else if e =? 0 then 0
   else if e <=? 896 then rne (2 ^ 52 + m) (29 + (897 - e))
   else if 1151 <=? e then 255 * 2 ^ 23
   else rne ((e - 896) * 2 ^ 52 + m) 29).
