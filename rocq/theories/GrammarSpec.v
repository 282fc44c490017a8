(** GrammarSpec.v -- the grammar of JSON texts (RFC 8259) and the documents they denote (property C62).
    Written from the RFC, independent of the parser of JsonText.v; only the value of numbers which are no 64-bit integers is taken
    from the parameter [te_strtod]. *)
From Coq Require Import String List NArith ZArith Bool.
From Verif Require Import Base JsonModel JsonText.
Import ListNotations.
Local Open Scope list_scope.
Local Open Scope N_scope.

Definition chr (s : string) : bytes := list_byte_of_string s.

(** section 2: insignificant whitespace *)
Definition blanks (w : bytes) : Prop := Forall (fun b => In b [Byte.x20; Byte.x09; Byte.x0a; Byte.x0d]) w.

(** section 6: numbers; [decimal ds n]: the digits [ds] denote [n] *)
Inductive decimal : bytes -> N -> Prop :=
| dc_none : decimal [] 0
| dc_digit ds n b d : decimal ds n -> d <= 9 -> bval b = 48 + d -> decimal (ds ++ [b]) (10 * n + d).
Definition digit_run (ds : bytes) : Prop := ds <> [] /\ exists n, decimal ds n.
Record number_text (minus int frac exp : bytes) : Prop := {
  nt_minus : minus = [] \/ minus = chr "-";
  nt_int : int = chr "0" \/ (digit_run int /\ hd_error int <> Some Byte.x30);
  nt_frac : frac = [] \/ exists ds, frac = chr "." ++ ds /\ digit_run ds;
  nt_exp : exp = [] \/ exists e sign ds, exp = e ++ sign ++ ds /\ (e = chr "e" \/ e = chr "E") /\ (sign = [] \/ sign = chr "+" \/ sign = chr "-") /\ digit_run ds }.
(** the integer denoted by sign and digits *)
Definition integer (minus int : bytes) (z : Z) : Prop := exists n, decimal int n /\ z = (if match minus with [] => true | _ => false end then Z.of_N n else - Z.of_N n)%Z.
Definition fits64 (z : Z) : Prop := (- 2 ^ 63 <= z < 2 ^ 64)%Z.
Inductive number (T : tenv) : bytes -> json -> Prop :=
| nm_integer m i z : number_text m i [] [] -> integer m i z -> fits64 z -> number T (m ++ i) (JInt z)
| nm_large m i z d : number_text m i [] [] -> integer m i z -> ~ fits64 z -> te_strtod T (m ++ i) = Some d -> number T (m ++ i) (JDbl d)
| nm_double m i f e d : number_text m i f e -> f ++ e <> [] -> te_strtod T (m ++ i ++ f ++ e) = Some d -> number T (m ++ i ++ f ++ e) (JDbl d).

(** section 7: strings *)
Definition hex_digits : list (Byte.byte * N) :=
  [(Byte.x30, 0); (Byte.x31, 1); (Byte.x32, 2); (Byte.x33, 3); (Byte.x34, 4); (Byte.x35, 5); (Byte.x36, 6); (Byte.x37, 7); (Byte.x38, 8); (Byte.x39, 9);
   (Byte.x41, 10); (Byte.x42, 11); (Byte.x43, 12); (Byte.x44, 13); (Byte.x45, 14); (Byte.x46, 15);
   (Byte.x61, 10); (Byte.x62, 11); (Byte.x63, 12); (Byte.x64, 13); (Byte.x65, 14); (Byte.x66, 15)].
Definition hex_code (h : list Byte.byte) (c : N) : Prop := exists h1 h2 h3 h4 a1 a2 a3 a4, h = [h1; h2; h3; h4]
  /\ In (h1, a1) hex_digits /\ In (h2, a2) hex_digits /\ In (h3, a3) hex_digits /\ In (h4, a4) hex_digits /\ c = a1 * 4096 + a2 * 256 + a3 * 16 + a4.
(** the short escape sequences (quotation mark, solidus, reverse solidus, b, f, n, r, t) *)
Definition short_escapes : list (Byte.byte * Byte.byte) :=
  [(Byte.x22, Byte.x22); (Byte.x2f, Byte.x2f); (Byte.x5c, Byte.x5c); (Byte.x62, Byte.x08); (Byte.x66, Byte.x0c); (Byte.x6e, Byte.x0a); (Byte.x72, Byte.x0d); (Byte.x74, Byte.x09)].
(** UTF-8 (RFC 3629) *)
Inductive utf8_of : N -> bytes -> Prop :=
| u8_1 c : c < 0x80 -> utf8_of c [mkb c]
| u8_2 a b : a < 32 -> b < 64 -> 0x80 <= a * 64 + b -> utf8_of (a * 64 + b) [mkb (0xC0 + a); mkb (0x80 + b)]
| u8_3 a b c : a < 16 -> b < 64 -> c < 64 -> 0x800 <= (a * 64 + b) * 64 + c -> utf8_of ((a * 64 + b) * 64 + c) [mkb (0xE0 + a); mkb (0x80 + b); mkb (0x80 + c)]
| u8_4 a b c d : a < 8 -> b < 64 -> c < 64 -> d < 64 -> 0x10000 <= ((a * 64 + b) * 64 + c) * 64 + d <= 0x10FFFF ->
    utf8_of (((a * 64 + b) * 64 + c) * 64 + d) [mkb (0xF0 + a); mkb (0x80 + b); mkb (0x80 + c); mkb (0x80 + d)].
(** [chars text s]: the characters [text] between the quotes denote the bytes [s] (which need not be UTF-8) *)
Inductive chars : bytes -> bytes -> Prop :=
| ch_none : chars [] []
| ch_plain b t s : 0x20 <= bval b -> b <> Byte.x22 -> b <> Byte.x5c -> chars t s -> chars (b :: t) (b :: s)
| ch_short e c t s : In (e, c) short_escapes -> chars t s -> chars (Byte.x5c :: e :: t) (c :: s)
| ch_code h c u t s : hex_code h c -> ~ (0xD800 <= c <= 0xDFFF) -> utf8_of c u -> chars t s -> chars (chr "\u" ++ h ++ t) (u ++ s)
| ch_pair h1 h2 hi lo u t s : hex_code h1 hi -> hex_code h2 lo -> 0xD800 <= hi <= 0xDBFF -> 0xDC00 <= lo <= 0xDFFF ->
    utf8_of (0x10000 + (hi - 0xD800) * 0x400 + (lo - 0xDC00)) u -> chars t s -> chars (chr "\u" ++ h1 ++ chr "\u" ++ h2 ++ t) (u ++ s).
Definition quoted (text s : bytes) : Prop := exists t, text = [Byte.x22] ++ t ++ [Byte.x22] /\ chars t s.

(** sections 3, 4 and 5: values, objects and arrays *)
Inductive value_text (T : tenv) : bytes -> json -> Prop :=
| vt_null : value_text T (chr "null") JNull
| vt_true : value_text T (chr "true") (JBool true)
| vt_false : value_text T (chr "false") (JBool false)
| vt_number t j : number T t j -> value_text T t j
| vt_string t s : quoted t s -> value_text T t (JStr s)
| vt_no_items w : blanks w -> value_text T (chr "[" ++ w ++ chr "]") (JArr [])
| vt_array w t l : blanks w -> items_text T t l -> value_text T (chr "[" ++ w ++ t ++ chr "]") (JArr l)
| vt_no_members w : blanks w -> value_text T (chr "{" ++ w ++ chr "}") (JObj [])
| vt_object w t ms : blanks w -> members_text T t ms -> value_text T (chr "{" ++ w ++ t ++ chr "}") (JObj ms)
with items_text (T : tenv) : bytes -> list json -> Prop :=
| it_last t j w : value_text T t j -> blanks w -> items_text T (t ++ w) [j]
| it_more t j w w' r l : value_text T t j -> blanks w -> blanks w' -> items_text T r l -> items_text T (t ++ w ++ chr "," ++ w' ++ r) (j :: l)
with members_text (T : tenv) : bytes -> list (bytes * json) -> Prop :=
| mt_last n s w1 w2 t j w : quoted n s -> blanks w1 -> blanks w2 -> value_text T t j -> blanks w ->
    members_text T (n ++ w1 ++ chr ":" ++ w2 ++ t ++ w) [(s, j)]
| mt_more n s w1 w2 t j w w' r ms : quoted n s -> blanks w1 -> blanks w2 -> value_text T t j -> blanks w -> blanks w' -> members_text T r ms ->
    members_text T (n ++ w1 ++ chr ":" ++ w2 ++ t ++ w ++ chr "," ++ w' ++ r) ((s, j) :: ms).
(** section 2: a text is one value.  Beyond the RFC: (parts of) a byte order mark may precede it, and a NUL character ends it. *)
Definition mark (m : bytes) : Prop := exists a b c, m = a ++ b ++ c /\ (a = [] \/ a = [Byte.xef]) /\ (b = [] \/ b = [Byte.xbb]) /\ (c = [] \/ c = [Byte.xbf]).
Definition json_text (T : tenv) (text : bytes) (j : json) : Prop := exists m w t w' rest, text = m ++ w ++ t ++ w' ++ rest
  /\ mark m /\ blanks w /\ value_text T t j /\ blanks w' /\ (rest = [] \/ hd_error rest = Some Byte.x00).
