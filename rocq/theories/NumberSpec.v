(** NumberSpec.v -- vocabulary for the accuracy of numbers in JSON texts (property C74), with real numbers.
    Nothing here is used by the model itself. *)
From Coq Require Import String List NArith ZArith Bool Reals.
From Verif Require Import Base Float JsonModel JsonText GrammarSpec.
Import ListNotations.
Local Open Scope list_scope.

(** the real number a finite binary64 stands for (IEEE 754, 3.4): (-1)^sign * mantissa * 2^exponent *)
Definition f64_value (n : N) : R :=
  let a := if (f64_exp n =? 0)%N then (IZR (Z.of_N (f64_mant n)) * powerRZ 2 (-1074))%R
           else (IZR (2 ^ 52 + Z.of_N (f64_mant n)) * powerRZ 2 (Z.of_N (f64_exp n) - 1075))%R in
  if f64_sign n then (- a)%R else a.
Definition is_double (n : N) : Prop := (n < 2 ^ 64)%N /\ f64_finite n = true.
(** no finite double is nearer to [x] than [n]; if another one is as near the last bit of [n] is 0 *)
Definition nearest (x : R) (n : N) : Prop :=
  is_double n /\ forall n', is_double n' ->
    (Rabs (f64_value n - x) < Rabs (f64_value n' - x))%R
    \/ (Rabs (f64_value n - x) = Rabs (f64_value n' - x) /\ (f64_value n' = f64_value n \/ N.even n = true)).

(** the exponent of a number *)
Inductive exponent : bytes -> Z -> Prop :=
| ex_none : exponent [] 0
| ex_plus e sign ds n : e = chr "e" \/ e = chr "E" -> sign = [] \/ sign = chr "+" -> ds <> [] -> decimal ds n -> exponent (e ++ sign ++ ds) (Z.of_N n)
| ex_minus e ds n : e = chr "e" \/ e = chr "E" -> ds <> [] -> decimal ds n -> exponent (e ++ chr "-" ++ ds) (- Z.of_N n).
(** [denotes m i f e n p]: the text of a number with sign [m], digits [i], fraction [f] and exponent [e] (RFC 8259, section 6) denotes [n * 10^p] or [- n * 10^p] *)
Definition denotes (m i f e : bytes) (n : N) (p : Z) : Prop :=
  number_text m i f e /\ exists ds k, (f = [] /\ ds = [] \/ f = chr "." ++ ds) /\ decimal (i ++ ds) n /\ exponent e k /\ p = (k - Z.of_nat (length ds))%Z.
Definition magnitude (n : N) (p : Z) : R := (IZR (Z.of_N n) * powerRZ 10 p)%R.
Definition signed (m : bytes) (x : R) : R := match m with [] => x | _ => (- x)%R end.

(** [v] differs from [x] by at most [k] roundings *)
Definition roundings (k : nat) (v x : R) : Prop := (x / (1 + powerRZ 2 (-53)) ^ k <= v <= x * (1 + powerRZ 2 (-53)) ^ k)%R.

(** a text a double may be printed as: it denotes a number [n * 10^p] (or its negation) with [n < 2^53] and a small exponent, and no double is nearer to this number than [d] *)
Definition short_text (text : bytes) (d : N) : Prop := exists m i f e n p, text = m ++ i ++ f ++ e /\ denotes m i f e n p /\ (n < 2 ^ 53)%N /\ (-22 <= p <= 22)%Z
  /\ nearest (signed m (magnitude n p)) d /\ f64_sign d = match m with [] => false | _ => true end.

(** the same for binary32 *)
Definition f32_sign (n : N) : bool := negb (n / 2 ^ 31 =? 0)%N.
Definition f32_finite (n : N) : bool := negb (f32_exp n =? 255)%N.
Definition f32_value (n : N) : R :=
  let a := if (f32_exp n =? 0)%N then (IZR (Z.of_N (f32_mant n)) * powerRZ 2 (-149))%R
           else (IZR (2 ^ 23 + Z.of_N (f32_mant n)) * powerRZ 2 (Z.of_N (f32_exp n) - 150))%R in
  if f32_sign n then (- a)%R else a.
Definition is_single (n : N) : Prop := (n < 2 ^ 32)%N /\ f32_finite n = true.
Definition nearest_single (x : R) (n : N) : Prop :=
  is_single n /\ forall n', is_single n' ->
    (Rabs (f32_value n - x) < Rabs (f32_value n' - x))%R
    \/ (Rabs (f32_value n - x) = Rabs (f32_value n' - x) /\ (f32_value n' = f32_value n \/ N.even n = true)).
