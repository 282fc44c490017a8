(** JsonNumber.v -- how RapidJSON converts the text of a number to a double unless kParseFullPrecisionFlag is set (it is
    not, lib/json/reflector.h:76): GenericReader::ParseNumber and internal::StrtodNormalPrecision.  Not part of the
    repository; modelled with Coq's binary64 arithmetic (Coq.Floats.SpecFloat, rounding to nearest, ties to even). *)
From Coq Require Import String List NArith ZArith Bool Lia Floats.SpecFloat.
From Verif Require Import Base Types Float JsonModel GenModel JsonText.
Import ListNotations.
Local Open Scope list_scope.
Local Open Scope Z_scope.

Definition dbl := spec_float.
Definition of_Z (z : Z) : dbl := binary_normalize 53 1024 z 0 false.
Definition dmul : dbl -> dbl -> dbl := SFmul 53 1024.
Definition ddiv : dbl -> dbl -> dbl := SFdiv 53 1024.
Definition dadd : dbl -> dbl -> dbl := SFadd 53 1024.

(** bit pattern; [None]: infinity or NaN *)
Definition bits (d : dbl) : option N :=
  match d with
  | S754_zero s => Some (if s then 2 ^ 63 else 0)%N
  | S754_infinity _ | S754_nan => None
  | S754_finite s m e =>
      Some ((if s then 2 ^ 63 else 0) + (if (Npos m <? 2 ^ 52) then Npos m else Z.to_N (e + 1075) * 2 ^ 52 + (Npos m - 2 ^ 52)))%N
  end.

Definition digit (b : Byte.byte) : Z := Z.of_N (bval b) - 48.

(** integral part: 64-bit integer as long as it fits (below [lim]: 2^64, or 2^63 + 1 after a minus), then a double *)
Fixpoint int_digits (lim : Z) (ds : bytes) (acc : Z + dbl) : Z + dbl :=
  match ds with
  | [] => acc
  | b :: ds' =>
      int_digits lim ds' (match acc with
        | inl i => if i * 10 + digit b <? lim then inl (i * 10 + digit b) else inr (dadd (dmul (of_Z i) (of_Z 10)) (of_Z (digit b)))
        | inr d => inr (dadd (dmul d (of_Z 10)) (of_Z (digit b)))
        end)
  end.

(** digits after the point which still go into the integer (while it is below 2^53) *)
Fixpoint frac_int (ds : bytes) (i expFrac sig : Z) : bytes * Z * Z * Z :=
  match ds with
  | [] => ([], i, expFrac, sig)
  | b :: ds' => if 2 ^ 53 - 1 <? i then (ds, i, expFrac, sig)
                else let i' := i * 10 + digit b in frac_int ds' i' (expFrac - 1) (if i' =? 0 then sig else sig + 1)
  end.
(** further digits, as long as there are less than 17 significant ones *)
Fixpoint frac_dbl (ds : bytes) (d : dbl) (expFrac sig : Z) : dbl * Z :=
  match ds with
  | [] => (d, expFrac)
  | b :: ds' => if sig <? 17
                then let d' := dadd (dmul d (of_Z 10)) (of_Z (digit b)) in
                     frac_dbl ds' d' (expFrac - 1) (match d' with S754_finite false _ _ => sig + 1 | _ => sig end)
                else frac_dbl ds' d expFrac sig
  end.

(** Pow10 (a table), FastPath, StrtodNormalPrecision *)
Definition pow10 (n : Z) : dbl := of_Z (10 ^ n).
Definition fastPath (d : dbl) (e : Z) : dbl := if e <? -308 then of_Z 0 else if 0 <=? e then dmul d (pow10 e) else ddiv d (pow10 (- e)).
Definition strtodNormalPrecision (d : dbl) (p : Z) : dbl :=
  if p <? -308 then fastPath (fastPath d (-308)) (p + 308) else fastPath d p.

(** a number with the given digits (the leading zero of "0.5" counts as none) and exponent *)
Definition double_of (neg : bool) (ip fp : bytes) (e : option Z) : option N :=
  let i := int_digits (if neg then 2 ^ 63 + 1 else 2 ^ 64) ip (inl 0) in
  let sig0 := match ip with [Byte.x30] => 0 | _ => Z.of_nat (length ip) - 1 end in
  let '(d, expFrac) :=
    match fp with
    | [] => (match i with inl z => of_Z z | inr d => d end, 0)
    | _ => match i with
           | inl z => let '(ds, z', ef, sig) := frac_int fp z 0 sig0 in frac_dbl ds (of_Z z') ef sig
           | inr d => frac_dbl fp d 0 sig0
           end
    end in
  let ex := match e with Some x => x | None => 0 end in
  if 308 - expFrac <? ex then None
  else match bits (strtodNormalPrecision d (ex + expFrac)) with
       | Some n => Some (if neg then (2 ^ 63 + n)%N else n)
       | None => None
       end.

(** the same, given the text of the number *)
Definition strtod_normal (s : bytes) : option N :=
  let '(neg, s0) := match s with Byte.x2d :: s' => (true, s') | _ => (false, s) end in
  let '(ip, s1) := digits s0 in
  let '(fp, s2) := match s1 with Byte.x2e :: s' => digits s' | _ => ([], s1) end in
  let e := match s2 with
           | (Byte.x65 | Byte.x45) :: Byte.x2d :: s' => Some (- Z.of_N (dval s'))
           | (Byte.x65 | Byte.x45) :: Byte.x2b :: s' => Some (Z.of_N (dval s'))
           | (Byte.x65 | Byte.x45) :: s' => Some (Z.of_N (dval s'))
           | _ => None
           end in
  double_of neg ip fp e.
