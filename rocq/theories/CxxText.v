(** CxxText.v -- reading generated code as C++: tokens, statements, and what the statements do.

    This is a specification: it says what a C++ compiler makes of the text which the generator writes,
    and does not use how the generator makes that text (GenModel.v).  Only the part of C++ which occurs
    in generated code is covered; all other text is rejected ([None] or [RStuck]/[PStuck]: "does not
    compile"). *)
From Coq Require Import String List NArith ZArith Bool Lia DecimalString.
From Verif Require Import Base Bytes Types BinModel GenModel GenSem GenSpec JsonModel.
Import ListNotations.
Local Open Scope list_scope.
Local Open Scope N_scope.

(* ------------------------------------------------------------------ *)
(** * Tokens *)

(** keywords, identifiers, numbers (as written), string literals (without the quotes) and punctuators *)
Inductive token := Key (s : bytes) | Id (s : bytes) | Num (s : bytes) | Str (s : bytes) | Punct (s : bytes).

Definition between (a b : N) (x : Byte.byte) : bool := (a <=? bval x) && (bval x <=? b).
Definition letter (x : Byte.byte) : bool := between 65 90 x || between 97 122 x || (bval x =? 95).
Definition digit (x : Byte.byte) : bool := between 48 57 x.
Definition blank (x : Byte.byte) : bool := match x with Byte.x20 | Byte.x0a | Byte.x09 => true | _ => false end.

(** the keywords of C++20 *)
Definition keywords : list bytes := map bs
  ["alignas"; "alignof"; "and"; "and_eq"; "asm"; "auto"; "bitand"; "bitor"; "bool"; "break"; "case"; "catch"; "char"; "char8_t";
   "char16_t"; "char32_t"; "class"; "compl"; "concept"; "const"; "consteval"; "constexpr"; "constinit"; "const_cast"; "continue";
   "co_await"; "co_return"; "co_yield"; "decltype"; "default"; "delete"; "do"; "double"; "dynamic_cast"; "else"; "enum";
   "explicit"; "export"; "extern"; "false"; "float"; "for"; "friend"; "goto"; "if"; "inline"; "int"; "long"; "mutable";
   "namespace"; "new"; "noexcept"; "not"; "not_eq"; "nullptr"; "operator"; "or"; "or_eq"; "private"; "protected"; "public";
   "register"; "reinterpret_cast"; "requires"; "return"; "short"; "signed"; "sizeof"; "static"; "static_assert"; "static_cast";
   "struct"; "switch"; "template"; "this"; "thread_local"; "throw"; "true"; "try"; "typedef"; "typeid"; "typename"; "union";
   "unsigned"; "using"; "virtual"; "void"; "volatile"; "wchar_t"; "while"; "xor"; "xor_eq"]%string.
Definition keyword (s : bytes) : bool := existsb (bytes_eqb s) keywords.
Definition word (s : bytes) : token := if keyword s then Key s else Id s.

(** punctuators of two characters; [>>] is left out: closing angle brackets of template arguments are tokens of their own *)
Definition pairs : list bytes := map bs ["::"; "->"; "&&"; "||"; ">="; "<="; "=="; "!="]%string.
Definition pair_of (a b : Byte.byte) : bool := existsb (bytes_eqb [a; b]) pairs.
Definition starts_pair (a : Byte.byte) : bool := match a with Byte.x2f => true | _ => existsb (fun p => beqb a (hd a p)) pairs end.

(** what has been read of the current token *)
Inductive pending := PNone | PWord (acc : bytes) | PNum (acc : bytes) | PSym (a : Byte.byte) | PComment | PStr (acc : bytes) | PBad.

Definition emit (t : token) (r : pending * list token) : pending * list token := (fst r, t :: snd r).

Definition begin_token (b : Byte.byte) : pending * list token :=
  if letter b then (PWord [b], [])
  else if digit b then (PNum [b], [])
  else if blank b then (PNone, [])
  else if beqb b Byte.x22 then (PStr [], [])
  else if starts_pair b then (PSym b, [])
  else (PNone, [Punct [b]]).

(** one character: new state, and the tokens which are complete now *)
Definition lex_char (p : pending) (b : Byte.byte) : pending * list token :=
  match p with
  | PNone => begin_token b
  | PWord acc => if letter b || digit b then (PWord (b :: acc), []) else emit (word (rev acc)) (begin_token b)
  | PNum acc => if letter b || digit b then (PNum (b :: acc), []) else emit (Num (rev acc)) (begin_token b)
  | PSym a =>
      if pair_of a b then (PNone, [Punct [a; b]])
      else if beqb a Byte.x2f && beqb b Byte.x2f then (PComment, [])   (* until the end of the line *)
      else if beqb a Byte.x2f && beqb b Byte.x2a then (PBad, [])       (* other comments are not covered *)
      else emit (Punct [a]) (begin_token b)
  | PComment => if beqb b Byte.x0a then (PNone, []) else (PComment, [])
  | PStr acc =>
      if beqb b Byte.x22 then (PNone, [Str (rev acc)])
      else if beqb b Byte.x5c || beqb b Byte.x0a then (PBad, [])       (* escape sequences are not covered *)
      else (PStr (b :: acc), [])
  | PBad => (PBad, [])
  end.

Fixpoint lex_text (p : pending) (s : bytes) : pending * list token :=
  match s with
  | [] => (p, [])
  | b :: s' => let (p1, t1) := lex_char p b in let (p2, t2) := lex_text p1 s' in (p2, t1 ++ t2)
  end.

Definition tokens (s : bytes) : option (list token) :=
  let (p, ts) := lex_text PNone s in
  match p with
  | PNone | PComment => Some ts
  | PWord acc => Some (ts ++ [word (rev acc)])
  | PNum acc => Some (ts ++ [Num (rev acc)])
  | PSym a => Some (ts ++ [Punct [a]])
  | PStr _ | PBad => None
  end.

Definition token_eqb (a b : token) : bool :=
  match a, b with
  | Key x, Key y | Id x, Id y | Num x, Num y | Str x, Str y | Punct x, Punct y => bytes_eqb x y
  | _, _ => false
  end.
Fixpoint tokens_eqb (a b : list token) : bool :=
  match a, b with
  | [], [] => true
  | x :: a', y :: b' => token_eqb x y && tokens_eqb a' b'
  | _, _ => false
  end.

(** the text of tokens which need no blanks in between *)
Definition spell (ts : list token) : bytes :=
  concat (map (fun t => match t with Key s | Id s | Num s | Str s | Punct s => s end) ts).

(* ------------------------------------------------------------------ *)
(** * Patterns *)

(** A pattern is C++ code with holes, which the characters [$ ~ @ %] stand for: an identifier, a string literal, a qualified
    name (identifiers separated by [::]), any tokens. *)
Definition pat (s : string) : list token := match tokens (bs s) with Some ts => ts | None => [] end.

(** longest qualified name the tokens begin with, and the other tokens *)
Fixpoint qualified (ts : list token) : list token * list token :=
  match ts with
  | Id a :: ts' =>
      match ts' with
      | Punct c :: ((Id _ :: _) as ts'') =>
          if bytes_eqb c (bs "::") then let (q, r) := qualified ts'' in (Id a :: Punct c :: q, r) else ([Id a], ts')
      | _ => ([Id a], ts')
      end
  | _ => ([], ts)
  end.

Inductive hole := HName | HString | HQualified | HAny.
Definition hole_of (t : token) : option hole :=
  match t with
  | Punct [Byte.x24] => Some HName
  | Punct [Byte.x7e] => Some HString
  | Punct [Byte.x40] => Some HQualified
  | Punct [Byte.x25] => Some HAny
  | _ => None
  end.

(** whether tokens are an instance of a pattern, and what the holes stand for *)
Fixpoint fits (p ts : list token) : option (list (list token)) :=
  match p with
  | [] => match ts with [] => Some [] | _ => None end
  | t :: p' =>
      match hole_of t with
      | Some HName => match ts with Id n :: ts' => option_map (cons [Id n]) (fits p' ts') | _ => None end
      | Some HString => match ts with Str s :: ts' => option_map (cons [Str s]) (fits p' ts') | _ => None end
      | Some HQualified =>
          let (q, ts') := qualified ts in match q with [] => None | _ => option_map (cons q) (fits p' ts') end
      | Some HAny =>
          (fix any (pre ts : list token) : option (list (list token)) :=
             match fits p' ts with
             | Some r => Some (rev pre :: r)
             | None => match ts with u :: ts' => any (u :: pre) ts' | [] => None end
             end) [] ts
      | None => match ts with u :: ts' => if token_eqb t u then fits p' ts' else None | [] => None end
      end
  end.

(** the first pattern which fits *)
Fixpoint choose {A} (l : list (string * (list (list token) -> option A))) (ts : list token) : option A :=
  match l with
  | [] => None
  | (p, f) :: l' => match fits (pat p) ts with Some c => f c | None => choose l' ts end
  end.

(* ------------------------------------------------------------------ *)
(** * Statements and blocks *)

(** tokens up to a semicolon; or tokens up to an opening brace, what follows, and the closing brace *)
Inductive node := Simple (ts : list token) | Block (head : list token) (body : list node).

(** tokens of the current statement, complete statements (both reversed), and the same for the enclosing blocks *)
Record gstack := { gs_cur : list token; gs_done : list node; gs_open : list (list token * list node) }.
Definition gs0 : gstack := {| gs_cur := []; gs_done := []; gs_open := [] |}.

Definition group_token (g : gstack) (t : token) : option gstack :=
  match t with
  | Punct [Byte.x3b] => Some {| gs_cur := []; gs_done := Simple (rev (gs_cur g)) :: gs_done g; gs_open := gs_open g |}
  | Punct [Byte.x7b] => Some {| gs_cur := []; gs_done := []; gs_open := (rev (gs_cur g), gs_done g) :: gs_open g |}
  | Punct [Byte.x7d] =>
      match gs_cur g, gs_open g with
      | [], (h, d) :: o => Some {| gs_cur := []; gs_done := Block h (rev (gs_done g)) :: d; gs_open := o |}
      | _, _ => None
      end
  | _ => Some {| gs_cur := t :: gs_cur g; gs_done := gs_done g; gs_open := gs_open g |}
  end.
Fixpoint group_tokens (g : gstack) (ts : list token) : option gstack :=
  match ts with
  | [] => Some g
  | t :: ts' => match group_token g t with Some g' => group_tokens g' ts' | None => None end
  end.
Definition group (ts : list token) : option (list node) :=
  match group_tokens gs0 ts with
  | Some g => match gs_cur g, gs_open g with [], [] => Some (rev (gs_done g)) | _, _ => None end
  | None => None
  end.

(* ------------------------------------------------------------------ *)
(** * Files and functions *)

(** The generated functions are explicit specialisations of the function templates
    - writeCustomType, readCustomType (lib/binary/reflector.h:62-70),
    - push, pull for objects (lib/json/reflector.h:134-135, 418-420). *)
Inductive fkind := FWrite | FRead | FPush | FPull.

(** kind and class of a function; the two mentions of the class have to agree *)
Definition same_class (k : fkind) (c : list (list token)) : option (fkind * bytes) :=
  match c with [q; q'] => if tokens_eqb q q' then Some (k, spell q) else None | _ => None end.
Definition signature (ts : list token) : option (fkind * bytes) := choose
  [("void writeCustomType<::@>(BinarySerializer &serializer, const ::@ &customObject, BinaryVersion version)"%string, same_class FWrite);
   ("BinaryVersion readCustomType<::@>(BinaryDeserializer &deserializer, ::@ &customObject, BinaryVersion version)"%string, same_class FRead);
   ("void push<::@>(const ::@ &reflectable, ::RAPIDJSON_NAMESPACE::Value::Object &value, ::RAPIDJSON_NAMESPACE::Document::AllocatorType &allocator)"%string,
     same_class FPush);
   ("void pull<::@>(::@ &reflectable, const ::RAPIDJSON_NAMESPACE::GenericValue<::RAPIDJSON_NAMESPACE::UTF8<char>>::ConstObject &value, JsonDeserializationErrors *errors)"%string,
     same_class FPull)] ts.
(** a macro or attribute (for the visibility of the symbol) may precede the return type *)
Definition function_head (h : list token) : option (fkind * bytes) :=
  match fits (pat "template <> %") h with
  | Some [ts] =>
      match ts with
      | Id v :: ((Id _ :: Id _ :: _ | Key _ :: _) as ts') => signature ts'
      | _ => signature ts
      end
  | _ => None
  end.

Record func := { f_kind : fkind; f_class : bytes; f_body : list node }.
Definition function (n : node) : option func :=
  match n with
  | Block h b => match function_head h with Some (k, q) => Some {| f_kind := k; f_class := q; f_body := b |} | None => None end
  | Simple _ => None
  end.
Fixpoint functions (l : list node) : option (list func) :=
  match l with
  | [] => Some []
  | n :: l' => match function n, functions l' with Some f, Some fs => Some (f :: fs) | _, _ => None end
  end.

(** the functions a generated file defines in the namespace [ReflectiveRapidJSON::ns] *)
Definition file (ns : string) (text : bytes) : option (list func) :=
  match tokens text with
  | None => None
  | Some ts =>
      match group ts with
      | Some [] => Some []
      | Some [Block h1 [Block h2 l]] =>
          if tokens_eqb h1 (pat "namespace ReflectiveRapidJSON") && tokens_eqb h2 (pat "namespace" ++ pat ns) then functions l else None
      | _ => None
      end
  end.

(* ------------------------------------------------------------------ *)
(** * What the statements of the binary functions do *)

(** value of an integer literal: decimal (a literal which begins with 0 is octal), and representable in a signed integer type *)
Definition literal (s : bytes) : option N :=
  match s with
  | Byte.x30 :: _ :: _ => None
  | _ => match NilZero.uint_of_string (string_of_list_byte s) with
         | Some u => let n := N.of_uint u in if n <? 2 ^ 63 then Some n else None
         | None => None
         end
  end.

(** comparisons of [version] with literals, joined by [&&] *)
Definition compare (op : bytes) (v n : N) : option bool :=
  if bytes_eqb op (bs ">=") then Some (n <=? v)
  else if bytes_eqb op (bs "<=") then Some (v <=? n)
  else if bytes_eqb op (bs ">") then Some (n <? v)
  else if bytes_eqb op (bs "<") then Some (v <? n)
  else if bytes_eqb op (bs "==") then Some (v =? n)
  else None.
Fixpoint comparisons (ver : N) (ts : list token) : option bool :=
  match ts with
  | Id x :: Punct op :: Num s :: ts' =>
      if bytes_eqb x (bs "version") then
        match literal s with
        | Some n =>
            match compare op ver n, ts' with
            | Some b, [] => Some b
            | Some b, Punct o :: ts'' =>
                if bytes_eqb o (bs "&&") then match comparisons ver ts'' with Some b' => Some (b && b') | None => None end else None
            | _, _ => None
            end
        | None => None
        end
      else None
  | _ => None
  end.

(** statements of writeCustomType and readCustomType *)
Inductive bstmt :=
| WriteBase (q : bytes) | WriteMember (n : bytes) | WriteVersion
| ReadBase (q : bytes) | ReadMember (n : bytes) | ReadVersion (cls : bytes)
| UsingVersioning (T : list token) | Discard (x : bytes) | ReturnVersion.
Definition one {A} (f : list token -> A) (c : list (list token)) : option A := match c with [x] => Some (f x) | _ => None end.
Definition none {A} (a : A) (c : list (list token)) : option A := match c with [] => Some a | _ => None end.
Definition bstatement (ts : list token) : option bstmt := choose
  [("serializer.write(static_cast<const ::@ &>(customObject), version)"%string, one (fun q => WriteBase (spell q)));
   ("serializer.write(customObject.$, version)"%string, one (fun n => WriteMember (spell n)));
   ("serializer.writeVariableLengthUIntBE(V::applyDefault(version))"%string, none WriteVersion);
   ("deserializer.read(static_cast<::@ &>(customObject), version)"%string, one (fun q => ReadBase (spell q)));
   ("deserializer.read(customObject.$, version)"%string, one (fun n => ReadMember (spell n)));
   ("V::assertVersion(version = deserializer.readVariableLengthUIntBE(), ~)"%string, one (fun c => ReadVersion (spell c)));
   ("using V = Versioning<%>"%string, one UsingVersioning);
   ("(void)$"%string, one (fun x => Discard (spell x)));
   ("return version"%string, none ReturnVersion)] ts.

(** Execution.  The local variables are [version] and the type [V] is an alias of ([Versioning<T>]); the function continues
    with the next statement or returns a version.  [vmax T] is the constant [T::version] (0: [T] has no versions,
    lib/versioning.h:34-42); [simple] says what a statement does. *)
Inductive flow (S : Type) := Continue (V : option (list token)) (ver : N) (s : S) | Return (ver : N) (s : S).
Arguments Continue {S}. Arguments Return {S}.

Section Binary.
  Context {S : Type}.
  Variable vmax : list token -> N.
  Variable simple : bstmt -> option (list token) -> N -> S -> res (flow S).

  Definition enabled (T : list token) : bool := negb (vmax T =? 0).
  (** condition of an if-statement *)
  Definition guard (h : list token) (V : option (list token)) (ver : N) : option bool :=
    match fits (pat "if constexpr (V::enabled)") h, V with
    | Some _, Some T => Some (enabled T)
    | Some _, None => None
    | None, _ => match fits (pat "if (%)") h with Some [c] => comparisons ver c | _ => None end
    end.

  Fixpoint run_node (n : node) (V : option (list token)) (ver : N) (s : S) {struct n} : res (flow S) :=
    match n with
    | Simple ts => match bstatement ts with Some st => simple st V ver s | None => RStuck end
    | Block h body =>
        match guard h V ver with
        | Some true =>
            let! f := (fix run (l : list node) V ver s : res (flow S) :=
               match l with
               | [] => ROk (Continue V ver s)
               | n' :: l' => let! f := run_node n' V ver s in
                             match f with Continue V' ver' s' => run l' V' ver' s' | Return v s' => ROk (Return v s') end
               end) body V ver s in
            match f with Continue _ ver' s' => ROk (Continue V ver' s') | Return v s' => ROk (Return v s') end
        | Some false => ROk (Continue V ver s)
        | None => RStuck
        end
    end.
  Fixpoint run_nodes (l : list node) (V : option (list token)) (ver : N) (s : S) : res (flow S) :=
    match l with
    | [] => ROk (Continue V ver s)
    | n :: l' => let! f := run_node n V ver s in
                 match f with Continue V' ver' s' => run_nodes l' V' ver' s' | Return v s' => ROk (Return v s') end
    end.
End Binary.

(** writeCustomType: [base q ver s] is [serializer.write] for the base class [q], [member n ver s] for the member [n],
    [varint] is writeVariableLengthUIntBE.  applyDefault assigns its argument (lib/versioning.h:42-46). *)
Section WriteFunction.
  Context {S : Type}.
  Variables (vmax : list token -> N) (base member : bytes -> N -> S -> res S) (varint : N -> S -> res S).
  Definition write_simple (st : bstmt) (V : option (list token)) (ver : N) (s : S) : res (flow S) :=
    match st, V with
    | WriteBase q, _ => let! s' := base q ver s in ROk (Continue V ver s')
    | WriteMember n, _ => let! s' := member n ver s in ROk (Continue V ver s')
    | UsingVersioning T, _ => ROk (Continue (Some T) ver s)
    | WriteVersion, Some T =>
        let ver' := if ver =? 0 then vmax T else ver in let! s' := varint ver' s in ROk (Continue V ver' s')
    | Discard x, _ =>
        if existsb (bytes_eqb x) [bs "serializer"; bs "customObject"; bs "version"] then ROk (Continue V ver s) else RStuck
    | _, _ => RStuck
    end.
  (** the function returns nothing *)
  Definition run_write (body : list node) (ver : N) (s : S) : res (N * S) :=
    let! f := run_nodes vmax write_simple body None ver s in
    match f with Continue _ ver' s' => ROk (ver', s') | Return _ _ => RStuck end.
End WriteFunction.

(** readCustomType: likewise; [varint] is readVariableLengthUIntBE, [refuse ver max cls] the exception assertVersion throws
    (lib/versioning.h:57-61) *)
Section ReadFunction.
  Context {S : Type}.
  Variables (vmax : list token -> N) (base member : bytes -> N -> S -> res S) (varint : S -> res (N * S)).
  Definition read_simple (st : bstmt) (V : option (list token)) (ver : N) (s : S) : res (flow S) :=
    match st, V with
    | ReadBase q, _ => let! s' := base q ver s in ROk (Continue V ver s')
    | ReadMember n, _ => let! s' := member n ver s in ROk (Continue V ver s')
    | UsingVersioning T, _ => ROk (Continue (Some T) ver s)
    | ReadVersion cls, Some T =>
        let! (ver', s') := varint s in
        if ver' <=? vmax T then ROk (Continue V ver' s') else RThrow (ExVersion ver' (vmax T) cls)
    | Discard x, _ =>
        if existsb (bytes_eqb x) [bs "deserializer"; bs "customObject"; bs "version"] then ROk (Continue V ver s) else RStuck
    | ReturnVersion, _ => ROk (Return ver s)
    | _, _ => RStuck
    end.
  (** leaving the function without return statement is undefined *)
  Definition run_read (body : list node) (ver : N) (s : S) : res (N * S) :=
    let! f := run_nodes vmax read_simple body None ver s in
    match f with Return ver' s' => ROk (ver', s') | Continue _ _ _ => RUB end.
End ReadFunction.

(* ------------------------------------------------------------------ *)
(** * What the statements of the JSON functions do *)

Inductive jstmt :=
| PushBaseStmt (q : bytes) | PushMemberStmt (n name : bytes)
| PullBaseStmt (q : bytes) | PullMemberStmt (n name : bytes)
| DeclarePrevious | SavePrevious | SetRecord (r : bytes) | RestoreRecord
| JDiscard (x : bytes).
Definition two {A} (f : list token -> list token -> A) (c : list (list token)) : option A := match c with [x; y] => Some (f x y) | _ => None end.
Definition jstatement (ts : list token) : option jstmt := choose
  [("push(static_cast<const ::@ &>(reflectable), value, allocator)"%string, one (fun q => PushBaseStmt (spell q)));
   ("push(reflectable.$, ~, value, allocator)"%string, two (fun n s => PushMemberStmt (spell n) (spell s)));
   ("pull(static_cast<::@ &>(reflectable), value, errors)"%string, one (fun q => PullBaseStmt (spell q)));
   ("pull(reflectable.$, ~, value, errors)"%string, two (fun n s => PullMemberStmt (spell n) (spell s)));
   ("const char *previousRecord = nullptr"%string, none DeclarePrevious);
   ("previousRecord = errors->currentRecord"%string, none SavePrevious);
   ("errors->currentRecord = ~"%string, one (fun r => SetRecord (spell r)));
   ("errors->currentRecord = previousRecord"%string, none RestoreRecord);
   ("(void)$"%string, one (fun x => JDiscard (spell x)))] ts.

(** push: [base q s] pushes the base class [q], [member n name s] the member [n] under the name [name] *)
Section PushFunction.
  Context {S : Type}.
  Variables (base : bytes -> S -> res S) (member : bytes -> bytes -> S -> res S).
  Fixpoint run_push_text (l : list node) (s : S) : res S :=
    match l with
    | [] => ROk s
    | Simple ts :: l' =>
        match jstatement ts with
        | Some (PushBaseStmt q) => let! s' := base q s in run_push_text l' s'
        | Some (PushMemberStmt n name) => let! s' := member n name s in run_push_text l' s'
        | Some (JDiscard x) =>
            if existsb (bytes_eqb x) [bs "reflectable"; bs "value"; bs "allocator"] then run_push_text l' s else RStuck
        | _ => RStuck
        end
    | Block _ _ :: _ => RStuck
    end.
End PushFunction.

(** pull: [prev] is the variable previousRecord ([None]: not declared), [errors] may be a null pointer *)
Section PullFunction.
  Context {A : Type}.
  Variables (base : bytes -> A -> M A) (member : bytes -> bytes -> A -> M A).
  Definition pull_simple (st : jstmt) (prev : option (option bytes)) (a : A) : M (option (option bytes) * A) := fun s =>
    match st with
    | PullBaseStmt q => bind (base q a) (fun a' => ret (prev, a')) s
    | PullMemberStmt n name => bind (member n name a) (fun a' => ret (prev, a')) s
    | DeclarePrevious => POk (Some None, a) s
    | SavePrevious =>
        match prev, p_err s with
        | Some _, Some e => POk (Some (es_record e), a) s
        | Some _, None => PUB
        | None, _ => PStuck
        end
    | SetRecord r => match p_err s with Some _ => POk (prev, a) (put_record (Some r) s) | None => PUB end
    | RestoreRecord =>
        match prev, p_err s with
        | Some p, Some _ => POk (prev, a) (put_record p s)
        | Some _, None => PUB
        | None, _ => PStuck
        end
    | JDiscard x => if existsb (bytes_eqb x) [bs "reflectable"; bs "value"; bs "errors"] then POk (prev, a) s else PStuck
    | _ => PStuck
    end.
  Fixpoint run_pull_nodes (l : list node) (prev : option (option bytes)) (a : A) : M (option (option bytes) * A) := fun s =>
    match l with
    | [] => POk (prev, a) s
    | Simple ts :: l' =>
        match jstatement ts with
        | Some st => bind (pull_simple st prev a) (fun '(prev', a') => run_pull_nodes l' prev' a') s
        | None => PStuck
        end
    | Block h body :: l' =>
        if tokens_eqb h (pat "if (errors)") then
          match p_err s with
          | Some _ => bind ((fix block (b : list node) (prev : option (option bytes)) (a : A) : M (option (option bytes) * A) := fun s =>
                        match b with
                        | [] => POk (prev, a) s
                        | Simple ts :: b' =>
                            match jstatement ts with
                            | Some st => bind (pull_simple st prev a) (fun '(prev', a') => block b' prev' a') s
                            | None => PStuck
                            end
                        | Block _ _ :: _ => PStuck       (* no further nesting *)
                        end) body prev a) (fun '(prev', a') => run_pull_nodes l' prev' a') s
          | None => run_pull_nodes l' prev a s
          end
        else PStuck
    end.
  Definition run_pull_text (body : list node) (a : A) : M A :=
    bind (run_pull_nodes body None a) (fun '(_, a') => ret a').
End PullFunction.

(* ------------------------------------------------------------------ *)
(** * Names *)

(** identifiers, names of classes (and namespaces) and the spelling of types *)
Definition identifier (s : bytes) : Prop :=
  match s with b :: s' => letter b = true /\ forallb (fun x => letter x || digit x) s' = true | [] => False end /\ keyword s = false.
Fixpoint join (l : list bytes) : bytes :=
  match l with [] => [] | [x] => x | x :: l' => x ++ bs "::" ++ join l' end.
Definition qualified_name (s : bytes) : Prop := exists l, l <> [] /\ Forall identifier l /\ s = join l.
Definition type_char (x : Byte.byte) : bool :=
  letter x || digit x || match x with Byte.x20 | Byte.x2c | Byte.x3a | Byte.x3c | Byte.x3e => true | _ => false end.  (* blank , : < > *)
Definition type_name (s : bytes) : Prop :=
  match s with b :: _ => letter b = true | [] => False end /\ forallb type_char s = true.

(** all names which the declarations contain are names, version literals are in the range of signed integers *)
Definition proper_names (o : gopts) (ds : list decl) : Prop :=
  (o_visibility o = [] \/ identifier (o_visibility o))
  /\ (forall r, In (DRecord r) ds -> qualified_name (cr_qname r))
  /\ (forall r b, In (DRecord r) ds -> In b (cr_bases r) -> type_name (cb_printed b))
  /\ (forall r n a c t, In (DRecord r) ds -> In (MField n a c t) (cr_decls r) -> identifier n)
  /\ (forall r n v, In (DRecord r) ds -> In (MVar n (Some v)) (cr_decls r) -> v < 2 ^ 63).

(** the names which [take] yields for the declarations, in their order *)
Inductive listed (take : mdecl -> bytes -> Prop) : list mdecl -> list bytes -> Prop :=
| ls_nil : listed take [] []
| ls_take d ds n names : take d n -> listed take ds names -> listed take (d :: ds) (n :: names)
| ls_skip d ds names : (forall n, ~ take d n) -> listed take ds names -> listed take (d :: ds) names.
(** member variables which a push function may access (const ones included); for pull functions see [accessible] *)
Definition pushable (friend : bool) (d : mdecl) (n : bytes) : Prop :=
  exists acc const t, d = MField n acc const t /\ (friend = true \/ acc = Public).

(* ------------------------------------------------------------------ *)
(** * What generated functions have to do *)

(** the functions in a generated file: for each class (in this order) one for serializing, and one for deserializing if the
    class can be default-constructed *)
Definition file_functions (kw kr : fkind) (ks : list rclass) (W R : rclass -> list node) : list func :=
  flat_map (fun k => {| f_kind := kw; f_class := qname k; f_body := W k |}
                     :: if cr_defctor (k_rec k) then [{| f_kind := kr; f_class := qname k; f_body := R k |}] else []) ks.

(** do something for each element of a list, one after another *)
Fixpoint each {A S : Type} (f : A -> S -> res S) (l : list A) (s : S) : res S :=
  match l with [] => ROk s | x :: l' => let! s' := f x s in each f l' s' end.
Fixpoint each_m {A S : Type} (f : A -> S -> M S) (l : list A) (s : S) : M S :=
  match l with [] => ret s | x :: l' => bind (f x s) (fun s' => each_m f l' s') end.

(** [T::version] is known for the (printed) type [T] which the class gets its version from *)
Definition version_constant (vmax : list token -> N) (k : rclass) : Prop :=
  forall b ts, k_base k = Some b -> tokens (cb_printed b) = Some ts -> vmax ts = cb_version b.

(** writing: base classes; then the version, if the class has one; then the members [names v] of that version [v] *)
Definition write_calls {S} (vmax : N) (bases : list bytes) (names : N -> list bytes)
    (base member : bytes -> N -> S -> res S) (varint : N -> S -> res S) (ver : N) (s : S) : res (N * S) :=
  let! s1 := each (fun q => base q ver) bases s in
  let v := if vmax =? 0 then ver else if ver =? 0 then vmax else ver in
  let! s2 := if vmax =? 0 then ROk s1 else varint v s1 in
  let! s3 := each (fun n => member n v) (names v) s2 in
  ROk (v, s3).
(** reading: likewise, with the version which is found *)
Definition read_calls {S} (cls : bytes) (vmax : N) (bases : list bytes) (names : N -> list bytes)
    (base member : bytes -> N -> S -> res S) (varint : S -> res (N * S)) (ver : N) (s : S) : res (N * S) :=
  let! s1 := each (fun q => base q ver) bases s in
  let! (v, s2) := if vmax =? 0 then ROk (ver, s1) else varint s1 in
  if negb (vmax =? 0) && (vmax <? v) then RThrow (ExVersion v vmax cls)
  else let! s3 := each (fun n => member n v) (names v) s2 in ROk (v, s3).
(** pushing: base classes, then members, each under its own name *)
Definition push_calls {S} (bases names : list bytes) (base : bytes -> S -> res S) (member : bytes -> bytes -> S -> res S) (s : S) : res S :=
  let! s1 := each base bases s in each (fun n => member n n) names s1.
(** pulling: base classes, then members, with the class as current record meanwhile *)
Definition pull_calls {A} (cls : bytes) (bases names : list bytes) (base : bytes -> A -> M A) (member : bytes -> bytes -> A -> M A) (a : A) : M A :=
  bind (each_m base bases a) (fun a1 => in_record cls (each_m (fun n => member n n) names a1)).

(** the declared types of the member variables of [k] *)
Definition declared_types (k : rclass) (mtype : bytes -> ty) : Prop :=
  forall n acc const t, In (MField n acc const t) (cr_decls (k_rec k)) -> mtype n = t.

(** the calls of generated functions, made to the library's functions (BinModel.v, JsonModel.v); [resolve] is name lookup,
    [c] the class, [fs] the object *)
Definition lib_write_base (G : genv) (H : heap) (f : nat) (resolve : bytes -> option N) (fs : list (fkey * val)) (q : bytes) (ver : N) (s : bytes * list N) : res (bytes * list N) :=
  match resolve q with
  | Some b => let! (o, W') := write_cls G H f ver b fs (snd s) in ROk (fst s ++ o, W')
  | None => RStuck
  end.
Definition lib_write_member (G : genv) (H : heap) (f : nat) (c : N) (mtype : bytes -> ty) (fs : list (fkey * val)) (n : bytes) (ver : N) (s : bytes * list N) : res (bytes * list N) :=
  match alookup fkey_eqb (c, n) fs with
  | Some v => let! (o, W') := write G H f ver (mtype n) v (snd s) in ROk (fst s ++ o, W')
  | None => RStuck
  end.
Definition lib_write_varint (v : N) (s : bytes * list N) : res (bytes * list N) := let! o := wr_varint v in ROk (fst s ++ o, snd s).

Definition lib_read_base (G : genv) (f : nat) (resolve : bytes -> option N) (q : bytes) (ver : N) (x : list (fkey * val) * bytes * rstate) : res (list (fkey * val) * bytes * rstate) :=
  let '(os, s, st) := x in
  match resolve q with
  | Some b => let! (os', _, s', st') := read_cls G f ver b os s st in ROk (os', s', st')
  | None => RStuck
  end.
Definition lib_read_member (G : genv) (f : nat) (c : N) (mtype : bytes -> ty) (n : bytes) (ver : N) (x : list (fkey * val) * bytes * rstate) : res (list (fkey * val) * bytes * rstate) :=
  let '(os, s, st) := x in
  match alookup fkey_eqb (c, n) os with
  | Some o => let! (y, s', st') := read G f ver (mtype n) o s st in ROk (aupdate fkey_eqb (c, n) y os, s', st')
  | None => RStuck
  end.
Definition lib_read_varint (x : list (fkey * val) * bytes * rstate) : res (N * (list (fkey * val) * bytes * rstate)) :=
  let '(os, s, st) := x in let! (v, s') := rd_varint s in ROk (v, (os, s', st)).

Definition lib_push_base (G : genv) (J : jenv) (H : heap) (f : nat) (resolve : bytes -> option N) (fs : list (fkey * val)) (q : bytes) (ms : list (bytes * json)) : res (list (bytes * json)) :=
  match resolve q with Some b => push_cls G J H f b fs ms | None => RStuck end.
Definition lib_push_member (G : genv) (J : jenv) (H : heap) (f : nat) (c : N) (mtype : bytes -> ty) (fs : list (fkey * val)) (n name : bytes) (ms : list (bytes * json)) : res (list (bytes * json)) :=
  match alookup fkey_eqb (c, n) fs with
  | Some v => let! j := push G J H f (mtype n) v in ROk (ms ++ [(name, j)])
  | None => RStuck
  end.
Definition lib_pull_base (G : genv) (J : jenv) (f : nat) (resolve : bytes -> option N) (ms : list (bytes * json)) (q : bytes) (os : list (fkey * val)) : M (list (fkey * val)) :=
  match resolve q with Some b => pull_cls G J f b os ms | None => fun _ => PStuck end.
Definition lib_pull_member (G : genv) (J : jenv) (f : nat) (c : N) (mtype : bytes -> ty) (ms : list (bytes * json)) (n name : bytes) (os : list (fkey * val)) : M (list (fkey * val)) :=
  pull_member (pull G J f) ms {| jf_name := name; jf_key := (c, n); jf_ty := mtype n |} os.
