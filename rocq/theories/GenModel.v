(** GenModel.v -- the code generator (generator/): which classes code is generated for, the
    generated statements, and the text written to the output file.

    The Clang AST is an input: a list of declarations in the order the visitor reports them
    (generator/visitor.cpp:25-29, generator/codefactory.cpp:69-74). *)
From Coq Require Import String List NArith ZArith Bool Lia Ascii DecimalString.
From Verif Require Import Base Types.
Import ListNotations.
Local Open Scope N_scope.

(* ------------------------------------------------------------------ *)
(** * The part of the Clang AST the generator looks at *)

Inductive access := Public | Protected | Private.

(** A declaration within a class ([record->decls()]).
    - [MVar n l]: static member variable; [l] is the first integer literal with at most 64 bits
      found in the declaration (RetrieveIntegerLiteralFromDeclaratorDecl,
      generator/binaryserializationcodegenerator.cpp:64-100), if any;
    - [MField]: member variable with its access, whether its type is const, and its type;
    - [MOther]: methods, access specifiers, friends, nested types, ... *)
Inductive mdecl :=
| MVar (name : bytes) (literal : option N)
| MField (name : bytes) (acc : access) (const : bool) (t : ty)
| MOther.

(** A direct base class: the class (if it is one), its qualified name without template
    arguments, the full printed name and, for instantiations of BinarySerializable, its
    [version] (lib/binary/serializable.h:29). *)
Record cbase := { cb_id : option N; cb_qname : bytes; cb_printed : bytes; cb_version : N }.

(** Template argument of a class template specialization: a type (with the qualified name if it
    is a class) or something else. *)
Inductive targ := TArgType (cls : option bytes) | TArgOther.

(** A CXXRecordDecl.  [cr_id] identifies the class (canonical declaration), [cr_complete] tells
    whether this declaration is the definition, [cr_hasdef] whether there is one, [cr_file] the
    file the declaration (expansion) is located in, [cr_spec] the arguments if it is a class
    template specialization, [cr_friends] the qualified names of befriended functions
    ([None]: friends which are not functions). *)
Record crecord := {
  cr_id : N; cr_qname : bytes; cr_hasdef : bool; cr_complete : bool; cr_file : N;
  cr_spec : option (list targ);
  cr_bases : list cbase; cr_decls : list mdecl; cr_friends : list (option bytes); cr_defctor : bool }.

(** declarations passed to addDeclaration *)
Inductive decl := DRecord (r : crecord) | DOther.

(** Settings of a generator: qualified names of the template and the adaption template (set in the
    constructors, generator/binaryserializationcodegenerator.cpp:34-40 and
    generator/jsonserializationcodegenerator.cpp:29-35), the classes listed via
    --binary-classes/--json-classes, the visibility attribute, and the main file. *)
Record gopts := { o_template : bytes; o_adaption : bytes; o_classes : list bytes; o_visibility : bytes; o_main : N }.

(* ------------------------------------------------------------------ *)
(** * Class selection *)

(** [m_records] and [m_adaptionRecords] (generator/serializationcodegenerator.h:45-46) *)
Record gstate := { s_records : list crecord; s_adaptions : list (bytes * crecord) }.

(** SerializationCodeGenerator::addDeclaration (generator/serializationcodegenerator.cpp:29-69) *)
Definition add_declaration (o : gopts) (st : gstate) (d : decl) : gstate :=
  match d with
  | DOther => st
  | DRecord r =>
      if negb (cr_hasdef r) then st
      else
        match cr_spec r with
        | Some args =>
            if bytes_eqb (cr_qname r) (o_adaption o) then
              match args with
              | [TArgType (Some q)] => {| s_records := s_records st; s_adaptions := s_adaptions st ++ [(q, r)] |}
              | _ => st
              end
            else {| s_records := s_records st ++ [r]; s_adaptions := s_adaptions st |}
        | None => {| s_records := s_records st ++ [r]; s_adaptions := s_adaptions st |}
        end
  end.

Definition add_declarations (o : gopts) (ds : list decl) : gstate :=
  fold_left (add_declaration o) ds {| s_records := []; s_adaptions := [] |}.

(** CodeGenerator::isOnlyIncluded (generator/codegenerator.cpp:39-43); the source manager is
    always available (generator/frontendaction.cpp:22) *)
Definition only_included (o : gopts) (r : crecord) : bool := negb (cr_file r =? o_main o).

Inductive relevance := RelYes | RelNo | RelMaybe.

(** CodeGenerator::inheritsFromInstantiationOf (generator/codegenerator.cpp:50-59) *)
Definition inherits_from (tmpl : bytes) (r : crecord) : option cbase :=
  find (fun b => match cb_id b with Some _ => bytes_eqb (cb_qname b) tmpl | None => false end) (cr_bases r).

(** SerializationCodeGenerator::computeRelevantClass
    (generator/serializationcodegenerator.cpp:71-109) followed by the check for classes listed via
    CLI (generator/binaryserializationcodegenerator.cpp:45-62,
    generator/jsonserializationcodegenerator.cpp:40-57); also returns [relevantBase] *)
Definition compute_relevant (o : gopts) (adaptions : list (bytes * crecord)) (r : crecord) : relevance * option cbase :=
  if negb (cr_complete r) then (RelNo, None)
  else if existsb (fun '(q, a) => negb (only_included o a) && bytes_eqb q (cr_qname r)) adaptions then (RelYes, None)
  else if only_included o r then (RelNo, None)
  else match inherits_from (o_template o) r with
       | Some b => (RelYes, Some b)
       | None => if existsb (fun q => bytes_eqb q (cr_qname r)) (o_classes o) then (RelYes, None) else (RelMaybe, None)
       end.

(** SerializationCodeGenerator::RelevantClass (generator/serializationcodegenerator.h:21-28) *)
Record rclass := { k_rec : crecord; k_base : option cbase }.

(** SerializationCodeGenerator::findRelevantClasses (generator/serializationcodegenerator.cpp:111-122) *)
Definition find_relevant (o : gopts) (st : gstate) : list rclass :=
  flat_map (fun r => match compute_relevant o (s_adaptions st) r with
                     | (RelYes, b) => [{| k_rec := r; k_base := b |}]
                     | _ => []
                     end) (s_records st).

Definition relevant_classes (o : gopts) (ds : list decl) : list rclass := find_relevant o (add_declarations o ds).

(** the definition of a class among the declarations *)
Definition def_of (ds : list decl) (c : N) : option crecord :=
  fold_right (fun d acc => match d with DRecord r => if (cr_id r =? c) && cr_complete r then Some r else acc | DOther => acc end) None ds.

(** CXXRecordDecl::isDerivedFrom (Clang): [b] is a direct or indirect base of [c].
    The recursion is bounded by [fuel]; bases are defined before the derived class, so the
    number of the class (see [wf_bases]) is sufficient. *)
Fixpoint derived_from (ds : list decl) (fuel : nat) (c b : N) : bool :=
  match fuel with
  | O => false
  | S f =>
      match def_of ds c with
      | None => false
      | Some r => existsb (fun x => match cb_id x with Some d => (d =? b) || derived_from ds f d b | None => false end) (cr_bases r)
      end
  end.

(** SerializationCodeGenerator::findRelevantBaseClasses (generator/serializationcodegenerator.cpp:124-134) *)
Definition find_bases (ds : list decl) (ks : list rclass) (k : rclass) : list rclass :=
  filter (fun o => negb (cr_id (k_rec k) =? cr_id (k_rec o))
                   && derived_from ds (N.to_nat (cr_id (k_rec k))) (cr_id (k_rec k)) (cr_id (k_rec o))) ks.

(** friend declarations (generator/binaryserializationcodegenerator.cpp:221-239,
    generator/jsonserializationcodegenerator.cpp:88-106); leaving the loop early when both have
    been found does not change the result *)
Definition befriends (r : crecord) (fn : bytes) : bool :=
  existsb (fun f => match f with Some q => bytes_eqb q fn | None => false end) (cr_friends r).

Definition bs (s : string) : bytes := list_byte_of_string s.
Definition fn_write := bs "ReflectiveRapidJSON::BinaryReflector::writeCustomType".
Definition fn_read := bs "ReflectiveRapidJSON::BinaryReflector::readCustomType".
Definition fn_push := bs "ReflectiveRapidJSON::JsonReflector::push".
Definition fn_pull := bs "ReflectiveRapidJSON::JsonReflector::pull".

Definition is_public (a : access) : bool := match a with Public => true | _ => false end.

(* ------------------------------------------------------------------ *)
(** * Version markers *)

(** MemberTracking (generator/binaryserializationcodegenerator.cpp:103-112) *)
Record mtrack := { mt_written : bool; mt_within : bool; mt_as : N; mt_last_as : N; mt_until : N; mt_last_until : N }.
Definition mt0 : mtrack := {| mt_written := false; mt_within := false; mt_as := 0; mt_last_as := 0; mt_until := 0; mt_last_until := 0 |}.

Fixpoint starts_with (p s : bytes) : bool :=
  match p, s with
  | [], _ => true
  | x :: p', y :: s' => beqb x y && starts_with p' s'
  | _, [] => false
  end.

(** MemberTracking::checkForVersionMarker for static member variables
    (generator/binaryserializationcodegenerator.cpp:118-144) *)
Definition marker (m : mtrack) (name : bytes) (literal : option N) : mtrack :=
  match literal with
  | None => m
  | Some v =>
      if starts_with (bs "rrjAsOfVersion") name then
        {| mt_written := mt_written m; mt_within := mt_within m; mt_as := v; mt_last_as := mt_last_as m;
           mt_until := if mt_until m <? v then 0 else mt_until m; mt_last_until := mt_last_until m |}
      else if starts_with (bs "rrjUntilVersion") name then
        {| mt_written := mt_written m; mt_within := mt_within m; mt_as := if v <? mt_as m then 0 else mt_as m; mt_last_as := mt_last_as m;
           mt_until := v; mt_last_until := mt_last_until m |}
      else m
  end.

(** Statements of the generated functions.
    - [LNote]: a comment line;
    - [LBase q]: (de)serialises the base class [::q];
    - [LVersion b]: the version block for [Versioning<b>];
    - [LIf a u]: [if (version >= a && version <= u) {] with the parts for [0] left out; [LEndIf]: [}];
    - [LPad]: extra padding; [LMember n t]: (de)serialises the member [n] ([t] is its type, not part of the text);
    - [LVoid]: the [(void)] statements; [LReturn]: [return version;]. *)
Inductive bline :=
| LNote (s : bytes)
| LBase (q : bytes)
| LVersion (b : bytes)
| LIf (a u : N)
| LEndIf
| LPad
| LMember (n : bytes) (t : ty)
| LVoid
| LReturn.

(** MemberTracking::concludeCondition (generator/binaryserializationcodegenerator.cpp:149-154) *)
Definition conclude (m : mtrack) : list bline := if mt_within m then [LEndIf] else [].

(** MemberTracking::writeVersionCondition (generator/binaryserializationcodegenerator.cpp:159-180) *)
Definition write_condition (m : mtrack) : list bline * mtrack :=
  if (mt_as m =? mt_last_as m) && (mt_until m =? mt_last_until m) then ([], m)
  else
    let within := negb (mt_as m =? 0) || negb (mt_until m =? 0) in
    (conclude m ++ (if within then [LIf (mt_as m) (mt_until m)] else []),
     {| mt_written := mt_written m; mt_within := within; mt_as := mt_as m; mt_last_as := mt_as m;
        mt_until := mt_until m; mt_last_until := mt_until m |}).

(** MemberTracking::writeExtraPadding (generator/binaryserializationcodegenerator.cpp:185-190) *)
Definition padding (m : mtrack) : list bline := if mt_within m then [LPad] else [].

Definition set_written (m : mtrack) : mtrack :=
  {| mt_written := true; mt_within := mt_within m; mt_as := mt_as m; mt_last_as := mt_last_as m;
     mt_until := mt_until m; mt_last_until := mt_last_until m |}.

(** loop over the declarations in the writer (generator/binaryserializationcodegenerator.cpp:265-294) *)
Fixpoint writer_members (priv : bool) (ds : list mdecl) (m : mtrack) : list bline * mtrack :=
  match ds with
  | [] => ([], m)
  | MVar n l :: ds' => writer_members priv ds' (marker m n l)
  | MOther :: ds' => writer_members priv ds' m
  | MField n acc const t :: ds' =>
      if const then writer_members priv ds' m
      else if negb priv && negb (is_public acc) then writer_members priv ds' m
      else
        let (c, m1) := write_condition m in
        let (ls, m2) := writer_members priv ds' (set_written m1) in
        (c ++ padding m1 ++ [LMember n t] ++ ls, m2)
  end.

(** loop over the declarations in the reader (generator/binaryserializationcodegenerator.cpp:326-351):
    the condition is emitted before the access is checked *)
Fixpoint reader_members (priv : bool) (ds : list mdecl) (m : mtrack) : list bline * mtrack :=
  match ds with
  | [] => ([], m)
  | MVar n l :: ds' => reader_members priv ds' (marker m n l)
  | MOther :: ds' => reader_members priv ds' m
  | MField n acc const t :: ds' =>
      if const then reader_members priv ds' m
      else
        let (c, m1) := write_condition m in
        if priv || is_public acc then
          let (ls, m2) := reader_members priv ds' (set_written m1) in
          (c ++ padding m1 ++ [LMember n t] ++ ls, m2)
        else
          let (ls, m2) := reader_members priv ds' m1 in
          (c ++ padding m1 ++ ls, m2)
  end.

Definition qname (k : rclass) : bytes := cr_qname (k_rec k).

Definition version_lines (note : string) (k : rclass) : list bline :=
  match k_base k with Some b => [LNote (bs note); LVersion (cb_printed b)] | None => [] end.

Definition no_bases (rbs : list rclass) : bool := match rbs with [] => true | _ => false end.

(** body of writeCustomType (generator/binaryserializationcodegenerator.cpp:250-298) *)
Definition writer_lines (rbs : list rclass) (k : rclass) : list bline :=
  let (ms, m) := writer_members (befriends (k_rec k) fn_write) (cr_decls (k_rec k)) mt0 in
  [LNote (bs "write base classes")] ++ map (fun b => LBase (qname b)) rbs
  ++ version_lines "write version" k
  ++ [LNote (bs "write members")] ++ ms ++ conclude m
  ++ (if no_bases rbs && negb (mt_written m) then [LVoid] else []).

(** body of readCustomType (generator/binaryserializationcodegenerator.cpp:310-356) *)
Definition reader_lines (rbs : list rclass) (k : rclass) : list bline :=
  let (ms, m) := reader_members (befriends (k_rec k) fn_read) (cr_decls (k_rec k)) mt0 in
  [LNote (bs "read base classes")] ++ map (fun b => LBase (qname b)) rbs
  ++ version_lines "read version" k
  ++ [LNote (bs "read members")] ++ ms ++ conclude m
  ++ (if no_bases rbs && negb (mt_written m) then [LVoid] else [])
  ++ [LReturn].

(* ------------------------------------------------------------------ *)
(** * JSON *)

(** Statements of the generated push/pull functions *)
Inductive jline :=
| JNote (s : bytes)
| JBase (q : bytes)
| JSetRecord (q : bytes)
| JMember (n : bytes) (t : ty)
| JVoid
| JRestoreRecord.

(** [record->fields()] *)
Definition push_members (priv : bool) (ds : list mdecl) : list jline :=
  flat_map (fun d => match d with
                     | MField n acc const t => if priv || is_public acc then [JMember n t] else []
                     | _ => []
                     end) ds.
Definition pull_members (priv : bool) (ds : list mdecl) : list jline :=
  flat_map (fun d => match d with
                     | MField n acc const t => if const then [] else if priv || is_public acc then [JMember n t] else []
                     | _ => []
                     end) ds.

Definition no_lines (l : list jline) : bool := match l with [] => true | _ => false end.

(** body of push (generator/jsonserializationcodegenerator.cpp:117-131) *)
Definition push_lines (rbs : list rclass) (k : rclass) : list jline :=
  let ms := push_members (befriends (k_rec k) fn_push) (cr_decls (k_rec k)) in
  [JNote (bs "push base classes")] ++ map (fun b => JBase (qname b)) rbs
  ++ [JNote (bs "push members")] ++ ms
  ++ (if no_bases rbs && no_lines ms then [JVoid] else []).

(** body of pull (generator/jsonserializationcodegenerator.cpp:144-174) *)
Definition pull_lines (rbs : list rclass) (k : rclass) : list jline :=
  let ms := pull_members (befriends (k_rec k) fn_pull) (cr_decls (k_rec k)) in
  [JNote (bs "pull base classes")] ++ map (fun b => JBase (qname b)) rbs
  ++ [JNote (bs "set error context for current record"); JSetRecord (qname k); JNote (bs "pull members")] ++ ms
  ++ (if no_bases rbs && no_lines ms then [JVoid] else [])
  ++ [JNote (bs "restore error context for previous record"); JRestoreRecord].

(* ------------------------------------------------------------------ *)
(** * Text *)

(** decimal representation, as std::ostream prints integers *)
Definition dec (n : N) : bytes := bs (NilZero.string_of_uint (N.to_uint n)).
Definition nl : bytes := [Byte.x0a].
Definition quote : bytes := [Byte.x22].

(** statements of the writer (generator/binaryserializationcodegenerator.cpp:250-298, 149-190) *)
Definition wtext (l : bline) : bytes :=
  match l with
  | LNote s => bs "    // " ++ s ++ nl
  | LBase q => bs "    serializer.write(static_cast<const ::" ++ q ++ bs " &>(customObject), version);" ++ nl
  | LVersion b => bs "    using V = Versioning<" ++ b ++ bs ">;" ++ nl ++ bs "    if constexpr (V::enabled) {" ++ nl
      ++ bs "        serializer.writeVariableLengthUIntBE(V::applyDefault(version));" ++ nl ++ bs "    }" ++ nl
  | LIf a u => bs "    if ("
      ++ (if a =? 0 then [] else bs "version >= " ++ dec a ++ (if u =? 0 then [] else bs " && "))
      ++ (if u =? 0 then [] else bs "version <= " ++ dec u) ++ bs ") {" ++ nl
  | LEndIf => bs "    }" ++ nl
  | LPad => bs "    "
  | LMember n _ => bs "    serializer.write(customObject." ++ n ++ bs ", version);" ++ nl
  | LVoid => bs "    (void)serializer;" ++ nl ++ bs "    (void)customObject;" ++ nl ++ bs "    " ++ nl ++ bs "(void)version;"
  | LReturn => bs "    return version;" ++ nl
  end.

(** statements of the reader (generator/binaryserializationcodegenerator.cpp:310-356) *)
Definition rtext (cls : bytes) (l : bline) : bytes :=
  match l with
  | LBase q => bs "    deserializer.read(static_cast<::" ++ q ++ bs " &>(customObject), version);" ++ nl
  | LVersion b => bs "    using V = Versioning<" ++ b ++ bs ">;" ++ nl ++ bs "    if constexpr (V::enabled) {" ++ nl
      ++ bs "        V::assertVersion(version = deserializer.readVariableLengthUIntBE(), " ++ quote ++ cls ++ quote ++ bs ");" ++ nl
      ++ bs "    }" ++ nl
  | LMember n _ => bs "    deserializer.read(customObject." ++ n ++ bs ", version);" ++ nl
  | LVoid => bs "    (void)deserializer;" ++ nl ++ bs "    (void)customObject;" ++ nl
  | _ => wtext l
  end.

(** code for one class (generator/binaryserializationcodegenerator.cpp:244-357) *)
Definition binary_class_text (o : gopts) (rbs : list rclass) (k : rclass) : bytes :=
  let q := qname k in
  bs "// define code for (de)serializing " ++ q ++ bs " objects" ++ nl
  ++ bs "template <> " ++ o_visibility o ++ bs " void writeCustomType<::" ++ q ++ bs ">(BinarySerializer &serializer, const ::" ++ q
  ++ bs " &customObject, BinaryVersion version)" ++ nl ++ bs "{" ++ nl
  ++ concat (map wtext (writer_lines rbs k)) ++ bs "}" ++ nl
  ++ (if cr_defctor (k_rec k) then
        bs "template <> " ++ o_visibility o ++ bs " BinaryVersion readCustomType<::" ++ q ++ bs ">(BinaryDeserializer &deserializer, ::" ++ q
        ++ bs " &customObject, BinaryVersion version)" ++ nl ++ bs "{" ++ nl
        ++ concat (map (rtext q) (reader_lines rbs k)) ++ bs "}" ++ nl ++ nl
      else []).

Definition generate_text (ns : string) (class_text : list rclass -> rclass -> bytes) (ds : list decl) (ks : list rclass) : bytes :=
  match ks with
  | [] => []
  | _ =>
    bs "namespace ReflectiveRapidJSON {" ++ nl ++ bs "namespace " ++ bs ns ++ bs " {" ++ nl ++ nl
    ++ concat (map (fun k => class_text (find_bases ds ks k) k) ks)
    ++ bs "} // namespace " ++ bs ns ++ nl ++ bs "} // namespace ReflectiveRapidJSON" ++ nl
  end.

(** BinarySerializationCodeGenerator::generate (generator/binaryserializationcodegenerator.cpp:195-363) *)
Definition generate_binary (o : gopts) (ds : list decl) : bytes :=
  generate_text "BinaryReflector" (binary_class_text o) ds (relevant_classes o ds).

(** statements of push (generator/jsonserializationcodegenerator.cpp:117-131) *)
Definition push_text (l : jline) : bytes :=
  match l with
  | JNote s => bs "    // " ++ s ++ nl
  | JBase q => bs "    push(static_cast<const ::" ++ q ++ bs " &>(reflectable), value, allocator);" ++ nl
  | JMember n _ => bs "    push(reflectable." ++ n ++ bs ", " ++ quote ++ n ++ quote ++ bs ", value, allocator);" ++ nl
  | JVoid => bs "    (void)reflectable;" ++ nl ++ bs "    (void)value;" ++ nl ++ bs "    (void)allocator;" ++ nl
  | JSetRecord _ | JRestoreRecord => []
  end.

(** statements of pull (generator/jsonserializationcodegenerator.cpp:144-174) *)
Definition pull_text (l : jline) : bytes :=
  match l with
  | JNote s => bs "    // " ++ s ++ nl
  | JBase q => bs "    pull(static_cast<::" ++ q ++ bs " &>(reflectable), value, errors);" ++ nl
  | JSetRecord q => bs "    const char *previousRecord = nullptr;" ++ nl ++ bs "    if (errors) {" ++ nl
      ++ bs "        previousRecord = errors->currentRecord;" ++ nl
      ++ bs "        errors->currentRecord = " ++ quote ++ q ++ quote ++ bs ";" ++ nl ++ bs "    }" ++ nl
  | JMember n _ => bs "    pull(reflectable." ++ n ++ bs ", " ++ quote ++ n ++ quote ++ bs ", value, errors);" ++ nl
  | JVoid => bs "    (void)reflectable;" ++ nl ++ bs "    (void)value;" ++ nl
  | JRestoreRecord => bs "    if (errors) {" ++ nl ++ bs "        errors->currentRecord = previousRecord;" ++ nl ++ bs "    }" ++ nl
  end.

(** code for one class (generator/jsonserializationcodegenerator.cpp:111-175) *)
Definition json_class_text (o : gopts) (rbs : list rclass) (k : rclass) : bytes :=
  let q := qname k in
  bs "// define code for (de)serializing " ++ q ++ bs " objects" ++ nl
  ++ bs "template <> " ++ o_visibility o ++ bs " void push<::" ++ q ++ bs ">(const ::" ++ q
  ++ bs " &reflectable, ::RAPIDJSON_NAMESPACE::Value::Object &value, ::RAPIDJSON_NAMESPACE::Document::AllocatorType &allocator)" ++ nl ++ bs "{" ++ nl
  ++ concat (map push_text (push_lines rbs k)) ++ bs "}" ++ nl
  ++ (if cr_defctor (k_rec k) then
        bs "template <> " ++ o_visibility o ++ bs " void pull<::" ++ q ++ bs ">(::" ++ q
        ++ bs " &reflectable, const ::RAPIDJSON_NAMESPACE::GenericValue<::RAPIDJSON_NAMESPACE::UTF8<char>>::ConstObject &value, JsonDeserializationErrors *errors)"
        ++ nl ++ bs "{" ++ nl
        ++ concat (map pull_text (pull_lines rbs k)) ++ bs "}" ++ nl ++ nl
      else []).

(** JsonSerializationCodeGenerator::generate (generator/jsonserializationcodegenerator.cpp:62-181) *)
Definition generate_json (o : gopts) (ds : list decl) : bytes :=
  generate_text "JsonReflector" (json_class_text o) ds (relevant_classes o ds).
