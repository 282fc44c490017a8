(** JsonText.v -- the text of JSON documents: serializeJsonDocToString and parseJsonDocFromString
    (lib/json/reflector.h:62-82).

    Both call RapidJSON, which is not part of the repository; what they call is modelled here with the flags the repository
    uses (none): rapidjson::Writer<StringBuffer>, rapidjson::Document::Parse(const char *, size_t).  The conversions between
    doubles and decimal numbers (rapidjson::internal::dtoa, the accumulation of digits in ParseNumber, StrtodNormalPrecision)
    are parameters. *)
From Coq Require Import String List NArith ZArith Bool Lia.
From Verif Require Import Base Types GenModel BinModel Float JsonModel.
Import ListNotations.
Local Open Scope list_scope.
Local Open Scope N_scope.

(** dtoa of a finite double; value of the text of a number which is no 64-bit integer ([None]: kParseErrorNumberTooBig) *)
Record tenv := { te_dtoa : N -> bytes; te_strtod : bytes -> option N }.

(* ------------------------------------------------------------------ *)
(** * Writer *)

(** i32toa, u32toa, i64toa, u64toa *)
Definition itoa (z : Z) : bytes := if (z <? 0)%Z then Byte.x2d :: dec (Z.to_N (- z)) else dec (Z.to_N z).

(** hexDigits of Writer::WriteString *)
Definition hex_digit (n : N) : Byte.byte := if n <? 10 then mkb (48 + n) else mkb (55 + n).

(** Writer::WriteString without kWriteValidateEncodingFlag: bytes are copied or escaped one by one *)
Definition escape (b : Byte.byte) : bytes :=
  match b with
  | Byte.x22 => [Byte.x5c; Byte.x22]
  | Byte.x5c => [Byte.x5c; Byte.x5c]
  | Byte.x08 => [Byte.x5c; Byte.x62]
  | Byte.x0c => [Byte.x5c; Byte.x66]
  | Byte.x0a => [Byte.x5c; Byte.x6e]
  | Byte.x0d => [Byte.x5c; Byte.x72]
  | Byte.x09 => [Byte.x5c; Byte.x74]
  | _ => if bval b <? 32 then [Byte.x5c; Byte.x75; Byte.x30; Byte.x30; hex_digit (bval b / 16); hex_digit (bval b mod 16)] else [b]
  end.
Definition write_string (s : bytes) : bytes := quote ++ flat_map escape s ++ quote.

(** text and whether the handler accepted everything *)
Definition wbind (a : bytes * bool) (b : bytes * bool) : bytes * bool := if snd a then (fst a ++ fst b, snd b) else a.

(** GenericValue::Accept with a Writer; Writer::Prefix writes the separators.  As soon as one event is refused (a double
    which is no finite number; the separator before it is already written), Accept returns false.
    serializeJsonDocToString ignores that (lib/json/reflector.h:66). *)
Fixpoint write (T : tenv) (j : json) : bytes * bool :=
  match j with
  | JNull => (bs "null", true)
  | JBool true => (bs "true", true)
  | JBool false => (bs "false", true)
  | JInt z => (itoa z, true)
  | JDbl n => if f64_finite n then (te_dtoa T n, true) else ([], false)
  | JStr s => (write_string s, true)
  | JArr l =>
      wbind (bs "[", true)
        ((fix items (first : bool) (l : list json) :=
            match l with
            | [] => (bs "]", true)
            | x :: l' => wbind (if first then [] else bs ",", true) (wbind (write T x) (items false l'))
            end) true l)
  | JObj ms =>
      wbind (bs "{", true)
        ((fix members (first : bool) (ms : list (bytes * json)) :=
            match ms with
            | [] => (bs "}", true)
            | (n, x) :: ms' => wbind ((if first then [] else bs ",") ++ write_string n ++ bs ":", true) (wbind (write T x) (members false ms'))
            end) true ms)
  end.

(** serializeJsonDocToString (lib/json/reflector.h:62-68) *)
Definition serializeJsonDocToString (T : tenv) (j : json) : bytes := fst (write T j).

(* ------------------------------------------------------------------ *)
(** * Parser *)

Inductive tres (A : Type) : Type :=
| TOk (a : A) (rest : bytes)
| TErr                       (** parse error *)
| TFuel.                     (** model ran out of fuel *)
Arguments TOk {A} a rest.
Arguments TErr {A}.
Arguments TFuel {A}.
Definition tbind {A B} (m : tres A) (k : A -> bytes -> tres B) : tres B :=
  match m with TOk a r => k a r | TErr => TErr | TFuel => TFuel end.

Definition is_ws (b : Byte.byte) : bool := match b with Byte.x20 | Byte.x0a | Byte.x0d | Byte.x09 => true | _ => false end.
(** SkipWhitespace *)
Fixpoint skip_ws (s : bytes) : bytes := match s with b :: s' => if is_ws b then skip_ws s' else s | [] => [] end.

(** Consume of each character of [w] *)
Fixpoint consume (w s : bytes) : option bytes :=
  match w, s with
  | [], _ => Some s
  | c :: w', b :: s' => if beqb c b then consume w' s' else None
  | _ :: _, [] => None
  end.

Definition hex_val (b : Byte.byte) : option N :=
  let n := bval b in
  if (48 <=? n) && (n <=? 57) then Some (n - 48)
  else if (65 <=? n) && (n <=? 70) then Some (n - 55)
  else if (97 <=? n) && (n <=? 102) then Some (n - 87)
  else None.
(** ParseHex4 *)
Definition hex4 (a b c d : Byte.byte) : option N :=
  match hex_val a, hex_val b, hex_val c, hex_val d with
  | Some w, Some x, Some y, Some z => Some (((w * 16 + x) * 16 + y) * 16 + z)
  | _, _, _, _ => None
  end.

(** UTF8<>::Encode *)
Definition utf8 (c : N) : bytes :=
  if c <=? 127 then [mkb c]
  else if c <=? 2047 then [mkb (192 + c / 64); mkb (128 + c mod 64)]
  else if c <=? 65535 then [mkb (224 + c / 4096); mkb (128 + c / 64 mod 64); mkb (128 + c mod 64)]
  else [mkb (240 + c / 262144); mkb (128 + c / 4096 mod 64); mkb (128 + c / 64 mod 64); mkb (128 + c mod 64)].

(** escape table of ParseStringToStream *)
Definition unescape (b : Byte.byte) : option Byte.byte :=
  match b with
  | Byte.x22 => Some Byte.x22 | Byte.x2f => Some Byte.x2f | Byte.x5c => Some Byte.x5c
  | Byte.x62 => Some Byte.x08 | Byte.x66 => Some Byte.x0c | Byte.x6e => Some Byte.x0a | Byte.x72 => Some Byte.x0d | Byte.x74 => Some Byte.x09
  | _ => None
  end.

Definition put (a : bytes) (m : tres bytes) : tres bytes := tbind m (fun s r => TOk (a ++ s) r).

(** ParseStringToStream after the opening quote, without kParseValidateEncodingFlag *)
Fixpoint parse_string (s : bytes) : tres bytes :=
  match s with
  | [] => TErr
  | b :: s1 =>
      if beqb b Byte.x5c then
        match s1 with
        | [] => TErr
        | e :: s2 =>
            match unescape e with
            | Some c => put [c] (parse_string s2)
            | None =>
                if beqb e Byte.x75 then
                  match s2 with
                  | h1 :: h2 :: h3 :: h4 :: s3 =>
                      match hex4 h1 h2 h3 h4 with
                      | None => TErr
                      | Some c =>
                          if (55296 <=? c) && (c <=? 57343) then
                            if c <=? 56319 then
                              match s3 with
                              | k1 :: k2 :: l1 :: l2 :: l3 :: l4 :: s4 =>
                                  if beqb k1 Byte.x5c && beqb k2 Byte.x75 then
                                    match hex4 l1 l2 l3 l4 with
                                    | None => TErr
                                    | Some d => if (56320 <=? d) && (d <=? 57343)
                                                then put (utf8 ((c - 55296) * 1024 + (d - 56320) + 65536)) (parse_string s4) else TErr
                                    end
                                  else TErr
                              | _ => TErr
                              end
                            else TErr
                          else put (utf8 c) (parse_string s3)
                      end
                  | _ => TErr
                  end
                else TErr
            end
        end
      else if beqb b Byte.x22 then TOk [] s1
      else if bval b <? 32 then TErr
      else put [b] (parse_string s1)
  end.

Definition is_digit (b : Byte.byte) : bool := (48 <=? bval b) && (bval b <=? 57).
(** the longest prefix of digits *)
Fixpoint digits (s : bytes) : bytes * bytes :=
  match s with
  | b :: s' => if is_digit b then let (d, r) := digits s' in (b :: d, r) else ([], s)
  | [] => ([], [])
  end.
Definition dval (ds : bytes) : N := fold_left (fun a b => a * 10 + (bval b - 48)) ds 0.

(** integral part: "0" or digits which do not start with 0 *)
Definition int_part (s : bytes) : option (bytes * bytes) :=
  match s with
  | b :: s' => if beqb b Byte.x30 then Some ([b], s') else if is_digit b then Some (digits s) else None
  | [] => None
  end.
Definition frac_part (s : bytes) : option (bytes * bytes) :=
  match s with
  | Byte.x2e :: s' => match digits s' with ([], _) => None | (d, r) => Some (Byte.x2e :: d, r) end
  | _ => Some ([], s)
  end.
Definition exp_part (s : bytes) : option (bytes * bytes) :=
  match s with
  | (Byte.x65 | Byte.x45) as e :: s' =>
      let '(g, s2) := match s' with (Byte.x2b | Byte.x2d) as c :: s'' => ([c], s'') | _ => ([], s') end in
      match digits s2 with ([], _) => None | (d, r) => Some (e :: g ++ d, r) end
  | _ => Some ([], s)
  end.

(** ParseNumber: integers which fit 64 bits are integers (also "-0"), all other numbers are doubles *)
Definition parse_number (T : tenv) (s : bytes) : tres json :=
  let '(m, s0) := match s with Byte.x2d :: s' => ([Byte.x2d], s') | _ => ([], s) end in
  match int_part s0 with
  | None => TErr
  | Some (ip, s1) =>
      match frac_part s1 with
      | None => TErr
      | Some (fp, s2) =>
          match exp_part s2 with
          | None => TErr
          | Some (ep, s3) =>
              let v := dval ip in
              if match fp ++ ep with [] => true | _ => false end && (v <? (match m with [] => 2 ^ 64 | _ => 2 ^ 63 + 1 end))
              then TOk (JInt (match m with [] => Z.of_N v | _ => - Z.of_N v end)) s3
              else match te_strtod T (m ++ ip ++ fp ++ ep) with Some n => TOk (JDbl n) s3 | None => TErr end
          end
      end
  end.

(** ParseValue, ParseArray, ParseObject *)
Fixpoint parse_value (T : tenv) (fuel : nat) (s : bytes) {struct fuel} : tres json :=
  match fuel with
  | O => TFuel
  | S f =>
      match s with
      | [] => TErr
      | b :: s1 =>
          if beqb b Byte.x6e then match consume (bs "ull") s1 with Some r => TOk JNull r | None => TErr end
          else if beqb b Byte.x74 then match consume (bs "rue") s1 with Some r => TOk (JBool true) r | None => TErr end
          else if beqb b Byte.x66 then match consume (bs "alse") s1 with Some r => TOk (JBool false) r | None => TErr end
          else if beqb b Byte.x22 then tbind (parse_string s1) (fun x r => TOk (JStr x) r)
          else if beqb b Byte.x7b then
            match consume (bs "}") (skip_ws s1) with
            | Some r => TOk (JObj []) r
            | None => tbind (parse_members T f (skip_ws s1)) (fun ms r => TOk (JObj ms) r)
            end
          else if beqb b Byte.x5b then
            match consume (bs "]") (skip_ws s1) with
            | Some r => TOk (JArr []) r
            | None => tbind (parse_items T f (skip_ws s1)) (fun l r => TOk (JArr l) r)
            end
          else parse_number T s
      end
  end
with parse_items (T : tenv) (fuel : nat) (s : bytes) {struct fuel} : tres (list json) :=
  match fuel with
  | O => TFuel
  | S f =>
      tbind (parse_value T f s) (fun x r =>
        match consume (bs ",") (skip_ws r) with
        | Some r' => tbind (parse_items T f (skip_ws r')) (fun l r'' => TOk (x :: l) r'')
        | None => match consume (bs "]") (skip_ws r) with Some r' => TOk [x] r' | None => TErr end
        end)
  end
with parse_members (T : tenv) (fuel : nat) (s : bytes) {struct fuel} : tres (list (bytes * json)) :=
  match fuel with
  | O => TFuel
  | S f =>
      match consume quote s with
      | None => TErr
      | Some s1 =>
          tbind (parse_string s1) (fun n r =>
            match consume (bs ":") (skip_ws r) with
            | None => TErr
            | Some r1 =>
                tbind (parse_value T f (skip_ws r1)) (fun x r2 =>
                  match consume (bs ",") (skip_ws r2) with
                  | Some r3 => tbind (parse_members T f (skip_ws r3)) (fun ms r4 => TOk ((n, x) :: ms) r4)
                  | None => match consume (bs "}") (skip_ws r2) with Some r3 => TOk [(n, x)] r3 | None => TErr end
                  end)
            end)
      end
  end.

(** the stream ends at the end of the text or at a NUL character (MemoryStream::Peek returns '\0' at the end) *)
Definition at_end (s : bytes) : bool := match s with [] => true | b :: _ => beqb b Byte.x00 end.
(** EncodedInputStream<UTF8<>, MemoryStream> skips the bytes of a byte order mark (each of them if it is there) *)
Definition skip_byte (b : Byte.byte) (s : bytes) : bytes := match consume [b] s with Some s' => s' | None => s end.
Definition skip_bom (s : bytes) : bytes := skip_byte Byte.xbf (skip_byte Byte.xbb (skip_byte Byte.xef s)).

(** Document::Parse; parseJsonDocFromString (lib/json/reflector.h:73-81) returns the document or throws the parse result *)
Definition parseJsonDocFromString (T : tenv) (text : bytes) : tres json :=
  let s := skip_ws (skip_bom text) in
  if at_end s then TErr
  else tbind (parse_value T (S (2 * length s)) s) (fun j r => if at_end (skip_ws r) then TOk j r else TErr).

(* ------------------------------------------------------------------ *)
(** * High-level functions (on texts) *)

(** toJson (lib/json/reflector.h:1084-1091), JsonSerializable::toJson (lib/json/serializable.h:60-63) *)
Definition toJson (T : tenv) (G : genv) (J : jenv) (H : heap) (fuel : nat) (t : ty) (v : val) : res bytes :=
  let! j := toJsonDocument G J H fuel t v in ROk (serializeJsonDocToString T j).

(** fromJson(const char *json, std::size_t jsonSize, errors) (lib/json/reflector.h:1098-1165); [None]: the
    rapidjson::ParseResult is thrown (nothing has been done with the error list before).  The overload for std::string
    (1178-1181) passes data() and size(). *)
Definition fromJsonText (T : tenv) (G : genv) (J : jenv) (fuel : nat) (t : ty) (text : bytes) (st : pst) : option (out val) :=
  match parseJsonDocFromString T text with
  | TOk j _ => Some (fromJson G J fuel t j st)
  | TErr => None
  | TFuel => Some PFuel
  end.
(** fromJson(const char *json, errors) (lib/json/reflector.h:1170-1173): the size is determined by strlen *)
Definition fromJsonCStr (T : tenv) (G : genv) (J : jenv) (fuel : nat) (t : ty) (memory : bytes) (st : pst) : option (out val) :=
  fromJsonText T G J fuel t (cstr memory) st.
