(** JsonTextSpec.v -- vocabulary for the properties of texts of JSON documents *)
From Coq Require Import String List NArith ZArith Bool Lia.
From Verif Require Import Base Types GenModel Float JsonModel JsonSafeSpec JsonText.
Import ListNotations.
Local Open Scope list_scope.
Local Open Scope N_scope.

(** nonempty sequence of digits *)
Definition digit_seq (s : bytes) : Prop := s <> [] /\ Forall (fun b => is_digit b = true) s.

(** the JSON grammar's text of a number with a fraction or an exponent (RFC 8259, section 6) *)
Definition double_text (s : bytes) : Prop :=
  exists m ip fp ep, s = m ++ ip ++ fp ++ ep
    /\ (m = [] \/ m = bs "-")
    /\ (ip = bs "0" \/ (digit_seq ip /\ hd Byte.x30 ip <> Byte.x30))
    /\ (fp = [] \/ exists d, fp = bs "." ++ d /\ digit_seq d)
    /\ (ep = [] \/ exists e g d, ep = e ++ g ++ d /\ (e = bs "e" \/ e = bs "E") /\ (g = [] \/ g = bs "+" \/ g = bs "-") /\ digit_seq d)
    /\ fp ++ ep <> [].

(** assumption about RapidJSON's dtoa: every finite double is written as such a number, which can be read *)
Definition dtoa_ok (T : tenv) : Prop :=
  forall n, f64_finite n = true -> double_text (te_dtoa T n) /\ exists m, te_strtod T (te_dtoa T n) = Some m.

(** [n] is read as what has been written *)
Definition survives (T : tenv) (n : N) : Prop := te_strtod T (te_dtoa T n) = Some n.

(** the same document, but every double went through the conversion to a decimal number and back *)
Inductive reparsed (T : tenv) : json -> json -> Prop :=
| rp_null : reparsed T JNull JNull
| rp_bool b : reparsed T (JBool b) (JBool b)
| rp_int z : reparsed T (JInt z) (JInt z)
| rp_dbl n m : te_strtod T (te_dtoa T n) = Some m -> reparsed T (JDbl n) (JDbl m)
| rp_str s : reparsed T (JStr s) (JStr s)
| rp_arr l l' : Forall2 (reparsed T) l l' -> reparsed T (JArr l) (JArr l')
| rp_obj ms ms' : Forall2 (fun x y => fst x = fst y /\ reparsed T (snd x) (snd y)) ms ms' -> reparsed T (JObj ms) (JObj ms').

(** all integers are 64-bit integers *)
Definition ints_ok : json -> Prop := everywhere (fun j => match j with JInt z => (- 2 ^ 63 <= z < 2 ^ 64)%Z | _ => True end).
(** all doubles are finite *)
Definition finite : json -> Prop := everywhere (fun j => match j with JDbl n => f64_finite n = true | _ => True end).
(** all doubles fulfil [P] *)
Definition doubles (P : N -> Prop) : json -> Prop := everywhere (fun j => match j with JDbl n => P n | _ => True end).

(** the document with null in place of each NaN and infinity *)
Fixpoint nulled (j : json) : json :=
  match j with
  | JDbl n => if f64_finite n then j else JNull
  | JArr l => JArr (map nulled l)
  | JObj ms => JObj (map (fun '(n, x) => (n, nulled x)) ms)
  | _ => j
  end.

(** the text has no control characters (in particular no NUL) *)
Definition no_control (t : bytes) : Prop := Forall (fun b => 32 <= bval b) t.
