(** Float.v -- the conversions between integers and IEEE 754 numbers which the JSON part performs,
    on bit patterns (binary64: [n < 2^64], binary32: [n < 2^32]). *)
From Coq Require Import List NArith ZArith Bool Lia.
From Verif Require Import Base Types.
Import ListNotations.
Local Open Scope N_scope.

(** parts of a binary64 *)
Definition f64_sign (n : N) : bool := negb (n / 2 ^ 63 =? 0).
Definition f64_exp (n : N) : N := (n / 2 ^ 52) mod 2 ^ 11.
Definition f64_mant (n : N) : N := n mod 2 ^ 52.
Definition f64_finite (n : N) : bool := negb (f64_exp n =? 2047).

(** [a / 2^sh], rounded to nearest, ties to even *)
Definition rne (a sh : N) : N :=
  let q := a / 2 ^ sh in
  let r := a mod 2 ^ sh in
  let half := 2 ^ sh / 2 in
  if (half <? r) || ((r =? half) && negb (sh =? 0) && N.odd q) then q + 1 else q.

(** truncation towards zero, the integer [static_cast<T>(double)] converts to (undefined behaviour if [T]
    cannot represent it); [None] for NaN and infinity *)
Definition f64_trunc (n : N) : option Z :=
  if f64_finite n then
    let e := f64_exp n in
    let a := if e =? 0 then 0
             else if e <? 1075 then (2 ^ 52 + f64_mant n) / 2 ^ (1075 - e)
             else (2 ^ 52 + f64_mant n) * 2 ^ (e - 1075) in
    Some (if f64_sign n then - Z.of_N a else Z.of_N a)%Z
  else None.

(** conversion of a 64-bit integer to double (rapidjson GenericValue::GetDouble for integers);
    the carry of the rounding propagates into the exponent *)
Definition f64_of_Z (z : Z) : N :=
  let a := Z.to_N (Z.abs z) in
  if a =? 0 then 0
  else
    let k := N.log2 a in
    let m := if k <=? 52 then a * 2 ^ (52 - k) else rne a (k - 52) in
    (if (z <? 0)%Z then 2 ^ 63 else 0) + (k + 1022) * 2 ^ 52 + m.

(** parts of a binary32 *)
Definition f32_exp (n : N) : N := (n / 2 ^ 23) mod 2 ^ 8.
Definition f32_mant (n : N) : N := n mod 2 ^ 23.
(** signalling NaNs become quiet NaNs when converted *)
Definition f32_snan (n : N) : bool := (f32_exp n =? 255) && negb (f32_mant n =? 0) && (f32_mant n <? 2 ^ 22).

(** [static_cast<double>(float)] (rapidjson GenericValue::SetFloat) *)
Definition f64_of_f32 (n : N) : N :=
  let s := n / 2 ^ 31 in
  let e := f32_exp n in
  let m := f32_mant n in
  s * 2 ^ 63 +
  (if e =? 255 then 2047 * 2 ^ 52 + (if m =? 0 then 0 else N.lor (m * 2 ^ 29) (2 ^ 51))
   else if e =? 0 then
     (if m =? 0 then 0 else let k := N.log2 m in (k + 874) * 2 ^ 52 + (m * 2 ^ (52 - k) - 2 ^ 52))
   else (e + 896) * 2 ^ 52 + m * 2 ^ 29).

(** [static_cast<float>(double)]; doubles beyond the range of float become infinity (as with IEC 60559
    arithmetic; C++ leaves this undefined) *)
Definition f32_of_f64 (n : N) : N :=
  let s := n / 2 ^ 63 in
  let e := f64_exp n in
  let m := f64_mant n in
  s * 2 ^ 31 +
  (if e =? 2047 then 255 * 2 ^ 23 + (if m =? 0 then 0 else N.lor (m / 2 ^ 29) (2 ^ 22))
   else
     let M := if e =? 0 then m else 2 ^ 52 + m in
     let e1 := N.max e 1 in
     let r := if 897 <=? e1 then (e1 - 897) * 2 ^ 23 + rne M 29 else rne M (926 - e1) in
     if 255 * 2 ^ 23 <=? r then 255 * 2 ^ 23 else r).
