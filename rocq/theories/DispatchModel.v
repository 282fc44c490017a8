(** DispatchModel.v -- the overload sets of the library: which C++ types there are, the type traits
    the overloads are constrained with, the overloads themselves and overload resolution.

    The other parts of the model say what each overload does ([write_body], [read_body], [push_body],
    [pull_body] have one branch per overload).  This file says which overload the compiler takes for a
    C++ type: lib/traits.h, the declarations in lib/binary/reflector.h:46-119 and in
    lib/json/reflector.h:83-135, 151-362, 418-624, 1019-1180, together with the calls their bodies make. *)
From Coq Require Import List NArith ZArith Bool Lia.
From Verif Require Import Base Types BinModel JsonModel.
Import ListNotations.
Open Scope nat_scope.

(* ------------------------------------------------------------------ *)
(** * C++ types *)

(** class templates of the standard library the traits distinguish (lib/traits.h:37-58,
    lib/binary/reflector.h:50-52, lib/json/reflector.h:86-87) *)
Inductive tmpl :=
| StdVector | StdList | StdDeque | StdForwardList | StdArray
| StdSet | StdUnorderedSet | StdMultiSet | StdUnorderedMultiSet
| StdMap | StdUnorderedMap | StdMultiMap | StdUnorderedMultiMap
| StdBasicString | StdBasicStringView
| StdPair | StdTuple | StdUnique | StdShared | StdWeak | StdOptional | StdVariant.

(** C++ types (without const/volatile and references, which template argument deduction drops).
    - [COther]: integral types which are none of the fixed-width ones nor char (wchar_t, long long where
      std::int64_t is long, ...);
    - [CEnum k]: an enumeration type with underlying type [k];
    - [CChars]: const char *; [CPointer]: any other pointer;
    - [CMono]: std::monostate; [CDateTime]/[CTimeSpan]: the c++utilities classes;
    - [CSpec tm args]: a specialisation (allocators, comparators, sizes are not arguments here);
    - [CClass c]: another class. *)
Inductive cxx :=
| CBool | CInt (k : ikind) | COther | CFloat | CDouble | CLongDouble
| CEnum (k : ikind)
| CChars | CPointer
| CMono | CDateTime | CTimeSpan
| CSpec (tm : tmpl) (args : list cxx)
| CClass (c : N).

(** std::string *)
Definition std_string : cxx := CSpec StdBasicString [CInt KChar].
Definition std_string_view : cxx := CSpec StdBasicStringView [CInt KChar].

Definition tmpl_eqb (a b : tmpl) : bool :=
  match a, b with
  | StdVector, StdVector | StdList, StdList | StdDeque, StdDeque | StdForwardList, StdForwardList | StdArray, StdArray
  | StdSet, StdSet | StdUnorderedSet, StdUnorderedSet | StdMultiSet, StdMultiSet | StdUnorderedMultiSet, StdUnorderedMultiSet
  | StdMap, StdMap | StdUnorderedMap, StdUnorderedMap | StdMultiMap, StdMultiMap | StdUnorderedMultiMap, StdUnorderedMultiMap
  | StdBasicString, StdBasicString | StdBasicStringView, StdBasicStringView
  | StdPair, StdPair | StdTuple, StdTuple | StdUnique, StdUnique | StdShared, StdShared | StdWeak, StdWeak
  | StdOptional, StdOptional | StdVariant, StdVariant => true
  | _, _ => false
  end.

(** what a class of the user's is for the library.
    - [k_serializable]: derives from JsonSerializable or AdaptedJsonSerializable is specialised
      (lib/json/reflector.h:92-94; lib/json/serializable.h:122-123);
    - [k_iteratable], [k_size], [k_resize], [k_reserve], [k_emplace]: it has begin()/end(), size(),
      resize(n), reserve(n), emplace(value);
    - [k_map], [k_multimap], [k_set], [k_multiset]: the REFLECTIVE_RAPIDJSON_TREAT_AS_* macro used for it
      (lib/traits.h:26-36);
    - [k_elements]: the type(s) it contains, if it is a container;
    - [k_read], [k_written], [k_pulled], [k_pushed]: types of the members which the (generated or
      Boost.Hana) functions for it read, write, pull and push; [None] if there is no such function. *)
Record kclass := {
  k_serializable : bool;
  k_iteratable : bool; k_size : bool; k_resize : bool; k_reserve : bool; k_emplace : bool;
  k_map : bool; k_multimap : bool; k_set : bool; k_multiset : bool;
  k_elements : list cxx;
  k_read : option (list cxx); k_written : option (list cxx);
  k_pulled : option (list cxx); k_pushed : option (list cxx) }.

Section Traits.
  Variable K : N -> kclass.

  (* ---------------------------------------------------------------- *)
  (** * Traits of the standard library and of c++utilities (misc/traits.h) *)

  Definition is_integral (X : cxx) : bool := match X with CBool | CInt _ | COther => true | _ => false end.
  Definition is_floating_point (X : cxx) : bool := match X with CFloat | CDouble | CLongDouble => true | _ => false end.
  Definition is_enum (X : cxx) : bool := match X with CEnum _ => true | _ => false end.
  Definition is_pointer (X : cxx) : bool := match X with CChars | CPointer => true | _ => false end.
  Definition is_bool (X : cxx) : bool := match X with CBool => true | _ => false end.
  Definition is_int (k : ikind) (X : cxx) : bool := match X with CInt l => ikind_eqb k l | _ => false end.
  Definition is_chars (X : cxx) : bool := match X with CChars => true | _ => false end.
  Definition is_string (X : cxx) : bool :=
    match X with CSpec StdBasicString [CInt KChar] => true | _ => false end.
  Definition is_string_view (X : cxx) : bool :=
    match X with CSpec StdBasicStringView [CInt KChar] => true | _ => false end.
  (** Traits::IsSpecializationOf *)
  Definition spec_of (tm : tmpl) (X : cxx) : bool := match X with CSpec tm' _ => tmpl_eqb tm tm' | _ => false end.
  (** Traits::IsSpecializingAnyOf *)
  Definition spec_any (tms : list tmpl) (X : cxx) : bool := existsb (fun tm => spec_of tm X) tms.

  (** Traits::IsIteratable: std::begin() and std::end() can be used *)
  Definition IsIteratable (X : cxx) : bool :=
    match X with
    | CSpec (StdVector | StdList | StdDeque | StdForwardList | StdArray | StdSet | StdUnorderedSet | StdMultiSet | StdUnorderedMultiSet
            | StdMap | StdUnorderedMap | StdMultiMap | StdUnorderedMultiMap | StdBasicString | StdBasicStringView) _ => true
    | CClass c => k_iteratable (K c)
    | _ => false
    end.
  (** Traits::HasSize *)
  Definition HasSize (X : cxx) : bool :=
    match X with
    | CSpec StdForwardList _ => false
    | CSpec _ _ => IsIteratable X
    | CClass c => k_size (K c)
    | _ => false
    end.
  (** Traits::IsResizable *)
  Definition IsResizable (X : cxx) : bool :=
    match X with
    | CSpec (StdVector | StdList | StdDeque | StdForwardList | StdBasicString) _ => true
    | CClass c => k_resize (K c)
    | _ => false
    end.
  (** Traits::IsReservable *)
  Definition IsReservable (X : cxx) : bool :=
    match X with
    | CSpec (StdVector | StdBasicString | StdUnorderedSet | StdUnorderedMultiSet | StdUnorderedMap | StdUnorderedMultiMap) _ => true
    | CClass c => k_reserve (K c)
    | _ => false
    end.

  (* ---------------------------------------------------------------- *)
  (** * lib/traits.h *)

  (** TreatAs*: lib/traits.h:19-26 *)
  Definition TreatAsMapOrHash (X : cxx) := match X with CClass c => k_map (K c) | _ => false end.
  Definition TreatAsMultiMapOrHash (X : cxx) := match X with CClass c => k_multimap (K c) | _ => false end.
  Definition TreatAsSet (X : cxx) := match X with CClass c => k_set (K c) | _ => false end.
  Definition TreatAsMultiSet (X : cxx) := match X with CClass c => k_multiset (K c) | _ => false end.
  (** lib/traits.h:38-40 *)
  Definition IsMapOrHash (X : cxx) := spec_of StdMap X || spec_of StdUnorderedMap X || TreatAsMapOrHash X.
  (** lib/traits.h:41-43 *)
  Definition IsMultiMapOrHash (X : cxx) := spec_of StdMultiMap X || spec_of StdUnorderedMultiMap X || TreatAsMultiMapOrHash X.
  (** lib/traits.h:44-45 *)
  Definition IsSet (X : cxx) := spec_of StdSet X || spec_of StdUnorderedSet X || TreatAsSet X.
  (** lib/traits.h:46-48 *)
  Definition IsMultiSet (X : cxx) := spec_of StdMultiSet X || spec_of StdUnorderedMultiSet X || TreatAsMultiSet X.
  (** lib/traits.h:49-53 *)
  Definition IsArrayOrSet (X : cxx) :=
    (IsIteratable X && negb (spec_of StdBasicString X) && negb (spec_of StdBasicStringView X)
       && negb (IsMapOrHash X) && negb (IsMultiMapOrHash X))
    || TreatAsSet X || TreatAsMultiSet X.
  (** lib/traits.h:54-56 *)
  Definition IsArray (X : cxx) :=
    IsIteratable X && negb (spec_of StdBasicString X) && negb (IsMapOrHash X) && negb (IsMultiMapOrHash X)
      && negb (IsSet X) && negb (IsMultiSet X).
  (** lib/traits.h:57-59 (std::basic_string is excluded twice, std::basic_string_view is not) *)
  Definition IsIteratableExceptString (X : cxx) :=
    IsIteratable X && negb (spec_of StdBasicString X) && negb (spec_of StdBasicString X).
  (** lib/traits.h:60 *)
  Definition IsVariant (X : cxx) := spec_of StdVariant X.

  (* ---------------------------------------------------------------- *)
  (** * Overload resolution *)

  (** How well a candidate fits: the arguments match exactly and it is an ordinary function, they match
      exactly and it is a function template, or a conversion is needed.  An ordinary function is preferred
      to a template which fits equally well.  If the best fit is not unique the call is ambiguous; several
      candidates which need conversions are considered ambiguous here without comparing the conversions. *)
  Inductive fit := ExactFunction | ExactTemplate | Conversion.
  Definition template_if (b : bool) : option fit := if b then Some ExactTemplate else None.
  Definition count {O} (fits : O -> option fit) (f : fit) (l : list O) : list O :=
    filter (fun o => match fits o, f with
                     | Some ExactFunction, ExactFunction | Some ExactTemplate, ExactTemplate | Some Conversion, Conversion => true
                     | _, _ => false end) l.
  Definition select {O} (fits : O -> option fit) (l : list O) : option O :=
    match count fits ExactFunction l with
    | [o] => Some o
    | _ :: _ :: _ => None
    | [] => match count fits ExactTemplate l with
            | [o] => Some o
            | _ :: _ :: _ => None
            | [] => match count fits Conversion l with [o] => Some o | _ => None end
            end
    end.

  (* ---------------------------------------------------------------- *)
  (** * Binary (de)serialisation *)

  (** lib/binary/reflector.h:47-52 *)
  Definition BinIsBuiltInType (X : cxx) : bool :=
    (is_int KChar X || is_int KU8 X || is_bool X || is_string X || is_int KI16 X || is_int KU16 X || is_int KI32 X
       || is_int KU32 X || is_int KI64 X || is_int KU64 X
       || (match X with CFloat | CDouble => true | _ => false end))
    || IsIteratable X || spec_any [StdPair; StdUnique; StdShared; StdOptional] X || is_enum X || IsVariant X.
  (** lib/binary/reflector.h:53 *)
  Definition BinIsCustomType (X : cxx) : bool := negb (BinIsBuiltInType X).

  (** the types CppUtilities::BinaryReader/BinaryWriter have a read/write function for *)
  Definition base_scalar (X : cxx) : bool :=
    match X with
    | CBool | CFloat | CDouble => true
    | CInt k => bin_kind k
    | _ => is_string X
    end.

  (** The overloads of BinaryDeserializer::read and BinarySerializer::write taking a variable only
      (lib/binary/reflector.h:80-93, 105-115).  [BBase]: the functions of the base class
      (using-declarations 80, 105).  [BBuffer] stands for the functions of the base class taking a
      buffer and its size. *)
  Inductive bov :=
  | BBase | BBuffer
  | BPair | BUnique | BShared | BOptional | BUniqueOrOptional
  | BResizable | BMaps | BIteratable
  | BEnum | BVariant | BBuiltIn | BCustom.

  (** [read(x)] *)
  Definition read_fits (X : cxx) (o : bov) : option fit :=
    match o with
    | BBase => if base_scalar X then Some ExactFunction else None      (* T & binds to a variable of type T only *)
    | BBuffer => None                                                  (* takes two arguments *)
    | BPair => template_if (spec_of StdPair X)                         (* 81 *)
    | BUnique => template_if (spec_of StdUnique X)                     (* 82 *)
    | BShared => template_if (spec_of StdShared X)                     (* 83 *)
    | BOptional => template_if (spec_of StdOptional X)                 (* 84 *)
    | BResizable => template_if (IsArray X && IsResizable X)           (* 85 *)
    | BMaps => template_if (IsMapOrHash X || IsMultiMapOrHash X)       (* 86 *)
    | BIteratable =>                                                   (* 87-90 *)
        template_if (IsIteratableExceptString X
          && negb (IsMapOrHash X || IsMultiMapOrHash X || (IsArray X && IsResizable X)))
    | BEnum => template_if (is_enum X)                                 (* 91 *)
    | BVariant => template_if (IsVariant X)                            (* 92 *)
    | BBuiltIn => None                                                 (* 93: takes a version, too *)
    | BCustom => template_if (BinIsCustomType X)                       (* 94: the version has a default *)
    | BUniqueOrOptional => None                                        (* write only *)
    end.
  Definition read_overloads : list bov :=
    [BBase; BBuffer; BPair; BUnique; BShared; BOptional; BResizable; BMaps; BIteratable; BEnum; BVariant; BBuiltIn; BCustom].
  Definition resolve_read (X : cxx) : option bov := select (read_fits X) read_overloads.

  (** [read(x, version)], as in generated code (generator/binaryserializationcodegenerator.cpp:322-357).
      The version (std::uint64_t) would have to be converted to std::streamsize for the base class's
      read(std::vector<char> &, std::streamsize). *)
  Definition read_version_fits (X : cxx) (o : bov) : option fit :=
    match o with
    | BBuffer => match X with CSpec StdVector [CInt KChar] | CPointer => Some Conversion | _ => None end
    | BBuiltIn => template_if (BinIsBuiltInType X)                     (* 93 *)
    | BCustom => template_if (BinIsCustomType X)                       (* 94 *)
    | _ => None
    end.
  Definition resolve_read_version (X : cxx) : option bov := select (read_version_fits X) read_overloads.

  (** [write(x)]: the base class's functions take their argument by value, so numbers, enumerators and
      pointers could be converted *)
  Definition write_fits (X : cxx) (o : bov) : option fit :=
    match o with
    | BBase => if base_scalar X then Some ExactFunction
               else if is_integral X || is_floating_point X || is_enum X || is_pointer X then Some Conversion else None
    | BBuffer => None
    | BPair => template_if (spec_of StdPair X)                         (* 106 *)
    | BUniqueOrOptional => template_if (spec_any [StdUnique; StdOptional] X) (* 107-108 *)
    | BShared => template_if (spec_any [StdShared] X)                  (* 109 *)
    | BIteratable => template_if (IsIteratableExceptString X && HasSize X) (* 110 *)
    | BEnum => template_if (is_enum X)                                 (* 111 *)
    | BVariant => template_if (IsVariant X)                            (* 112 *)
    | BBuiltIn => None                                                 (* 113: takes a version, too *)
    | BCustom => template_if (BinIsCustomType X)                       (* 114 *)
    | _ => None
    end.
  Definition write_overloads : list bov :=
    [BBase; BBuffer; BPair; BUniqueOrOptional; BShared; BIteratable; BEnum; BVariant; BBuiltIn; BCustom].
  Definition resolve_write (X : cxx) : option bov := select (write_fits X) write_overloads.

  (** [write(x, version)] *)
  Definition write_version_fits (X : cxx) (o : bov) : option fit :=
    match o with
    | BBuffer => match X with CSpec StdVector [CInt KChar] | CPointer | CChars => Some Conversion | _ => None end
    | BBuiltIn => template_if (BinIsBuiltInType X)                     (* 113 *)
    | BCustom => template_if (BinIsCustomType X)                       (* 114 *)
    | _ => None
    end.
  Definition resolve_write_version (X : cxx) : option bov := select (write_version_fits X) write_overloads.

  (** type of the elements of a container.  The elements of maps are pairs; iterating over or
      accessing elements of std::vector<bool> yields proxy objects, which are no bools. *)
  Definition element (X : cxx) : option cxx :=
    match X with
    | CSpec StdVector [CBool] => None
    | CSpec (StdVector | StdList | StdDeque | StdForwardList | StdArray | StdSet | StdUnorderedSet | StdMultiSet
            | StdUnorderedMultiSet | StdBasicString | StdBasicStringView) [a] => Some a
    | CSpec (StdMap | StdUnorderedMap | StdMultiMap | StdUnorderedMultiMap) [a; b] => Some (CSpec StdPair [a; b])
    | CClass c => match k_elements (K c) with
                  | [a] => Some a
                  | [a; b] => Some (CSpec StdPair [a; b])
                  | _ => None
                  end
    | _ => None
    end.
  (** iterating over a const std::vector<bool> yields bools *)
  Definition const_element (X : cxx) : option cxx :=
    match X with CSpec StdVector [CBool] => Some CBool | _ => element X end.
  Definition single (o : option cxx) : option (list cxx) := match o with Some a => Some [a] | None => None end.
  (** emplace(value) adds an element to sets, maps and the classes treated as such *)
  Definition has_emplace (X : cxx) : bool :=
    match X with
    | CSpec (StdSet | StdUnorderedSet | StdMultiSet | StdUnorderedMultiSet | StdMap | StdUnorderedMap | StdMultiMap | StdUnorderedMultiMap) _ => true
    | CClass c => k_emplace (K c)
    | _ => false
    end.
  Definition not_mono (X : cxx) : bool := match X with CMono => false | _ => true end.

  (** A call of one of the functions: reading and writing, with and without version. *)
  Inductive bcall := CallRead (X : cxx) | CallReadVersion (X : cxx) | CallWrite (X : cxx) | CallWriteVersion (X : cxx).

  (** The overload chosen for a call. *)
  Definition bresolve (c : bcall) : option bov :=
    match c with
    | CallRead X => resolve_read X
    | CallReadVersion X => resolve_read_version X
    | CallWrite X => resolve_write X
    | CallWriteVersion X => resolve_write_version X
    end.

  (** The calls the body of an overload contains when it is instantiated for [X]; [None]: the body does
      not compile, or there is no definition to link against.  lib/binary/reflector.h:126-330. *)
  Definition read_inner (o : bov) (X : cxx) : option (list bcall) :=
    match o, X with
    | BBase, _ => Some []
    | BPair, CSpec _ [a; b] => Some [CallRead a; CallRead b]                        (* 126-130 *)
    | (BUnique | BShared | BOptional), CSpec _ [a] => Some [CallRead a]             (* 132-173 *)
    | BResizable, _ => match element X with Some a => Some [CallRead a] | None => None end   (* 175-182 *)
    | (BMaps | BIteratable), _ =>                                                   (* 184-205 *)
        if has_emplace X then match element X with Some a => Some [CallRead a] | None => None end else None
    | BEnum, CEnum k => Some [CallRead (CInt k)]                                    (* 207-212 *)
    | BVariant, CSpec _ ts => Some (map CallRead (filter not_mono ts))              (* 214-239 *)
    | BBuiltIn, _ => Some [CallRead X]                                              (* 241-245 *)
    | BCustom, CDateTime => Some [CallRead (CInt KU64)]     (* reflector-chronoutilities.h:19-24 *)
    | BCustom, CTimeSpan => Some [CallRead (CInt KI64)]     (* reflector-chronoutilities.h:34-39 *)
    | BCustom, CClass c => option_map (map CallReadVersion) (k_read (K c))          (* 247-250 and the generated function *)
    | _, _ => None
    end.
  Definition write_inner (o : bov) (X : cxx) : option (list bcall) :=
    match o, X with
    | BBase, _ => Some []
    | BPair, CSpec _ [a; b] => Some [CallWrite a; CallWrite b]                      (* 257-261 *)
    | (BUniqueOrOptional | BShared), CSpec _ [a] => Some [CallWrite a]              (* 263-295 *)
    | BIteratable, _ => match const_element X with Some a => Some [CallWrite a] | None => None end (* 297-304 *)
    | BEnum, CEnum k => Some [CallWrite (CInt k)]                                   (* 306-309 *)
    | BVariant, CSpec _ ts => Some (map CallWrite (filter not_mono ts))             (* 311-324 *)
    | BBuiltIn, _ => Some [CallWrite X]                                             (* 326-330 *)
    | BCustom, CDateTime => Some [CallWrite (CInt KU64)]    (* reflector-chronoutilities.h:27-31 *)
    | BCustom, CTimeSpan => Some [CallWrite (CInt KI64)]    (* reflector-chronoutilities.h:42-46 *)
    | BCustom, CClass c => option_map (map CallWriteVersion) (k_written (K c))      (* 332-335 and the generated function *)
    | _, _ => None
    end.
  Definition binner (o : bov) (c : bcall) : option (list bcall) :=
    match c with
    | CallRead X | CallReadVersion X => read_inner o X
    | CallWrite X | CallWriteVersion X => write_inner o X
    end.

  (* ---------------------------------------------------------------- *)
  (** * JSON (de)serialisation *)

  (** lib/json/reflector.h:84-87 *)
  Definition JsonIsBuiltInType (X : cxx) : bool :=
    is_integral X || is_floating_point X || is_pointer X || is_enum X || spec_any [StdTuple; StdPair] X || IsIteratable X
      || spec_any [StdUnique; StdShared; StdWeak; StdOptional] X || IsVariant X.
  (** lib/json/reflector.h:92-94 (all types are complete) *)
  Definition IsJsonSerializable (X : cxx) : bool := match X with CClass c => k_serializable (K c) | _ => false end.

  (** The overloads of push and pull, with the line of lib/json/reflector.h at which each is declared
      first.  A call inside a function template only considers overloads declared before it: they are no
      members, and the namespaces looked up when the template is instantiated are those of the arguments
      (std, rapidjson, the user's), never ReflectiveRapidJSON::JsonReflector. *)
  Inductive jov :=
  (* push to a value *)
  | PushCustom | PushArith | PushByte | PushEnum | PushChars | PushView | PushString | PushSized | PushUnsized
  | PushMap | PushMulti | PushTuple | PushPair | PushPointer | PushVariant
  (* push to an array, as member, to an object *)
  | PushArrayObject | PushArrayOther | PushMemberObject | PushMemberOther | PushObject
  (* pull from a value *)
  | PullCustom | PullPlain | PullReserve | PullMap | PullMulti | PullTuple | PullPair | PullUnique | PullShared
  | PullOptional | PullVariant | PullArith | PullByte | PullBool | PullEnum | PullString | PullNoStore
  (* pull from an array, a member, an object *)
  | PullArrayArray | PullArraySet | PullArrayMultiSet | PullMember | PullObject.

  Definition declared (o : jov) : nat :=
    match o with
    | PushCustom => 101 | PushArrayOther => 107 | PushArrayObject => 113 | PushMemberObject => 119 | PushMemberOther => 126
    | PushObject => 134 | PushArith => 151 | PushByte => 163 | PushEnum => 172 | PushChars => 182 | PushView => 195
    | PushString => 208 | PushSized => 217 | PushUnsized => 231 | PushMap => 244 | PushMulti => 257 | PushTuple => 299
    | PushPair => 311 | PushPointer => 324 | PushVariant => 338
    | PullObject => 418 | PullCustom => 425 | PullPlain => 431 | PullReserve => 437 | PullArrayArray => 443
    | PullArraySet => 449 | PullArrayMultiSet => 455 | PullMap => 461 | PullMulti => 467 | PullTuple => 473 | PullPair => 479
    | PullUnique => 485 | PullShared => 491 | PullOptional => 497 | PullVariant => 503 | PullMember => 518
    | PullArith => 531 | PullByte => 549 | PullBool => 563 | PullEnum => 580 | PullString => 597 | PullNoStore => 614
    end.

  Definition push_overloads : list jov :=
    [PushCustom; PushArith; PushByte; PushEnum; PushChars; PushView; PushString; PushSized; PushUnsized;
     PushMap; PushMulti; PushTuple; PushPair; PushPointer; PushVariant;
     PushArrayObject; PushArrayOther; PushMemberObject; PushMemberOther; PushObject].
  Definition pull_overloads : list jov :=
    [PullCustom; PullPlain; PullReserve; PullMap; PullMulti; PullTuple; PullPair; PullUnique; PullShared;
     PullOptional; PullVariant; PullArith; PullByte; PullBool; PullEnum; PullString; PullNoStore;
     PullArrayArray; PullArraySet; PullArrayMultiSet; PullMember; PullObject].

  (** A call of push or pull for a variable of type [X]; the other arguments are a value, an array, an
      object and the name of the member, or an object.  [line]: where the call is. *)
  Inductive jcall :=
  | Push (line : nat) (X : cxx) | PushToArray (line : nat) (X : cxx) | PushAsMember (line : nat) (X : cxx) | PushToObject (line : nat) (X : cxx)
  | Pull (line : nat) (X : cxx) | PullFromArray (line : nat) (X : cxx) | PullAsMember (line : nat) (X : cxx) | PullFromObject (line : nat) (X : cxx).

  (** conditions of the overloads which take the arguments of the call *)
  Definition jcond (c : jcall) (o : jov) : bool :=
    match c, o with
    | Push _ X, PushCustom => negb (JsonIsBuiltInType X)
    | Push _ X, PushArith => (is_integral X && negb (is_int KU8 X) && negb (is_int KI8 X)) || is_floating_point X
    | Push _ X, PushByte => is_int KU8 X || is_int KI8 X
    | Push _ X, PushEnum => is_enum X
    | Push _ X, PushChars => is_chars X
    | Push _ X, PushView => is_string_view X
    | Push _ X, PushString => is_string X
    | Push _ X, PushSized => IsArrayOrSet X && HasSize X
    | Push _ X, PushUnsized => IsArrayOrSet X && negb (HasSize X)
    | Push _ X, PushMap => IsMapOrHash X
    | Push _ X, PushMulti => IsMultiMapOrHash X
    | Push _ X, PushTuple => spec_of StdTuple X
    | Push _ X, PushPair => spec_of StdPair X
    | Push _ X, PushPointer => spec_any [StdUnique; StdShared; StdWeak; StdOptional] X
    | Push _ X, PushVariant => IsVariant X
    | PushToArray _ X, PushArrayObject => IsJsonSerializable X
    | PushToArray _ X, PushArrayOther => negb (IsJsonSerializable X)
    | PushAsMember _ X, PushMemberObject => IsJsonSerializable X
    | PushAsMember _ X, PushMemberOther => negb (IsJsonSerializable X)
    | PushToObject _ X, PushObject => negb (JsonIsBuiltInType X)
    | Pull _ X, PullCustom => negb (JsonIsBuiltInType X)
    | Pull _ X, PullPlain => IsArrayOrSet X && negb (IsReservable X)
    | Pull _ X, PullReserve => IsArrayOrSet X && IsReservable X
    | Pull _ X, PullMap => IsMapOrHash X
    | Pull _ X, PullMulti => IsMultiMapOrHash X
    | Pull _ X, PullTuple => spec_of StdTuple X
    | Pull _ X, PullPair => spec_of StdPair X
    | Pull _ X, PullUnique => spec_of StdUnique X
    | Pull _ X, PullShared => spec_of StdShared X
    | Pull _ X, PullOptional => spec_of StdOptional X
    | Pull _ X, PullVariant => IsVariant X
    | Pull _ X, PullArith => negb (is_bool X) && negb (is_int KU8 X) && negb (is_int KI8 X) && (is_integral X || is_floating_point X)
    | Pull _ X, PullByte => is_int KU8 X || is_int KI8 X
    | Pull _ X, PullBool => is_bool X
    | Pull _ X, PullEnum => is_enum X
    | Pull _ X, PullString => is_string X
    | Pull _ X, PullNoStore => is_chars X || is_string_view X
    | PullFromArray _ X, PullArrayArray => IsArray X
    | PullFromArray _ X, PullArraySet => IsSet X
    | PullFromArray _ X, PullArrayMultiSet => IsMultiSet X
    | PullAsMember _ _, PullMember => true
    | PullFromObject _ X, PullObject => negb (JsonIsBuiltInType X)
    | _, _ => false
    end.
  Definition call_line (c : jcall) : nat :=
    match c with
    | Push l _ | PushToArray l _ | PushAsMember l _ | PushToObject l _
    | Pull l _ | PullFromArray l _ | PullAsMember l _ | PullFromObject l _ => l
    end.
  (** all of them are templates *)
  Definition jfits (c : jcall) (o : jov) : option fit :=
    template_if (jcond c o && Nat.ltb (declared o) (call_line c)).
  Definition is_push (c : jcall) : bool :=
    match c with Push _ _ | PushToArray _ _ | PushAsMember _ _ | PushToObject _ _ => true | _ => false end.
  Definition jresolve (c : jcall) : option jov := select (jfits c) (if is_push c then push_overloads else pull_overloads).

  (** line number of code after all declarations: the user's, generated or Boost.Hana code *)
  Definition user : nat := 2000.

  (** integral types RapidJSON's Value::Set/Get/Is support, besides bool *)
  Definition rapidjson_number (X : cxx) : bool :=
    match X with CBool | CFloat | CDouble => true | CInt k => json_kind k | _ => false end.
  Definition has_emplace_back (X : cxx) : bool :=
    match X with CSpec (StdVector | StdList | StdDeque) _ => true | CClass c => k_resize (K c) | _ => false end.
  (** key and value type of a map the keys of which are std::string *)
  Definition string_map (X : cxx) : option cxx :=
    match element X with
    | Some (CSpec StdPair [a; b]) => if is_string a then Some b else None
    | _ => None
    end.

  (** The calls in the body of an overload instantiated for [X], with their lines (lib/json/reflector.h:140-410, 531-1012);
      [None]: the body does not compile, or a function it needs is not defined. *)
  Definition jinner (o : jov) (X : cxx) : option (list jcall) :=
    match o, X with
    | PushCustom, (CDateTime | CTimeSpan) => Some []              (* explicit specialisation: reflector-chronoutilities.h:23-38 *)
    | PushCustom, _ => Some [PushToObject 145 X]
    | PushArith, _ => if rapidjson_number X then Some [] else None
    | (PushByte | PushEnum | PushChars | PushView | PushString), _ => Some []
    | PushSized, _ => match const_element X with Some a => Some [PushToArray 224 a] | None => None end
    | PushUnsized, _ => match const_element X with Some a => Some [PushToArray 237 a] | None => None end
    | PushMap, _ => match string_map X with Some b => Some [PushAsMember 250 b] | None => None end
    | PushMulti, _ => match string_map X with Some b => Some [PushToArray 268 b] | None => None end
    | PushTuple, CSpec _ (a :: l) => Some (map (PushToArray 284) (a :: l))
    | PushPair, CSpec _ [a; b] => Some [PushToArray 317 a; PushToArray 318 b]
    | PushPointer, CSpec StdWeak _ => None                        (* cannot be dereferenced *)
    | PushPointer, CSpec _ [a] => Some [Push 332 a]
    | PushVariant, CSpec _ ts => Some (map (Push 351) (filter not_mono ts))
    | PushArrayObject, _ => Some [PushToObject 372 X]
    | PushArrayOther, _ => Some [Push 383 X]
    | PushMemberObject, _ => Some [PushToObject 396 X]
    | PushMemberOther, _ => Some [Push 408 X]
    | PushObject, CClass c => option_map (map (PushAsMember user)) (k_pushed (K c))
    | PullCustom, (CDateTime | CTimeSpan) => Some [Pull user std_string]  (* reflector-chronoutilities.h:42-71 *)
    | PullCustom, _ => Some [PullFromObject 1011 X]
    | PullPlain, _ => Some [PullFromArray 638 X]
    | PullReserve, _ => Some [PullFromArray 655 X]
    | PullArrayArray, _ =>
        if has_emplace_back X then match element X with Some a => Some [Pull 676 a] | None => None end else None
    | PullArrayMultiSet, _ => if has_emplace X then match element X with Some a => Some [Pull 703 a] | None => None end else None
    | PullArraySet, _ => if has_emplace X then match element X with Some a => Some [Pull 731 a] | None => None end else None
    | PullMap, _ => match string_map X with Some b => Some [Pull 757 b] | None => None end
    | PullMulti, _ => match string_map X with Some b => Some [Pull 777 b; Pull 783 b] | None => None end
    | PullTuple, CSpec _ (a :: l) => Some (map (Pull 798) (a :: l))
    | PullPair, CSpec _ [a; b] => Some [Pull 853 a; Pull 854 b]
    | PullUnique, CSpec _ [a] => Some [Pull 868 a]
    | PullShared, CSpec _ [a] => Some [Pull 882 a]
    | PullOptional, CSpec _ [a] => Some [Pull 894 a]
    | PullVariant, CSpec _ ts => Some (map (Pull 909) (filter not_mono ts))
    | PullArith, _ => if rapidjson_number X then Some [] else None
    | PullByte, _ => Some [Pull 554 (CInt KI32)]
    | (PullBool | PullEnum | PullString | PullNoStore), _ => Some []
    | PullMember, _ => Some [Pull 992 X]
    | PullObject, CClass c => option_map (map (PullAsMember user)) (k_pulled (K c))
    | _, _ => None
    end.
  Definition call_type (c : jcall) : cxx :=
    match c with
    | Push _ X | PushToArray _ X | PushAsMember _ X | PushToObject _ X
    | Pull _ X | PullFromArray _ X | PullAsMember _ X | PullFromObject _ X => X
    end.

  (* ---------------------------------------------------------------- *)
  (** * toJsonDocument, toJson and fromJson *)

  (** The overloads of toJsonDocument and fromJson (lib/json/reflector.h:1019-1079, 1098-1165). *)
  Inductive tov := TopObject | TopArith | TopString | TopChars | TopView | TopArray.
  (** [toJsonDocument(x)], the template argument being deduced from the argument: the type parameter of
      the overloads for strings does not occur in their parameters, so it cannot be deduced *)
  Definition document_fits (X : cxx) (o : tov) : option fit :=
    match o with
    | TopObject => template_if (IsJsonSerializable X || IsMapOrHash X || IsMultiMapOrHash X)   (* 1019 *)
    | TopArith => template_if (is_integral X || is_floating_point X)                           (* 1030 *)
    | TopString | TopChars | TopView => None                                                   (* 1041, 1052, 1063 *)
    | TopArray => template_if (IsArray X)                                                      (* 1074 *)
    end.
  (** fromJson<X>(text, size) *)
  Definition parse_fits (X : cxx) (o : tov) : option fit :=
    match o with
    | TopObject => template_if (IsJsonSerializable X || IsMapOrHash X || IsMultiMapOrHash X)   (* 1098 *)
    | TopArith => template_if (is_integral X || is_floating_point X)                           (* 1117 *)
    | TopString => template_if (is_string X)                                                   (* 1134 *)
    | TopArray => template_if (IsArray X)                                                      (* 1151 *)
    | TopChars | TopView => None
    end.
  Definition top_overloads : list tov := [TopObject; TopArith; TopString; TopChars; TopView; TopArray].
  Definition resolve_document (X : cxx) : option tov := select (document_fits X) top_overloads.
  Definition resolve_parse (X : cxx) : option tov := select (parse_fits X) top_overloads.
  (** whether toJson exists for a type (lib/json/reflector.h:1084-1086; Traits::IsString: std::basic_string,
      std::basic_string_view and C-strings) *)
  Definition toJson_enabled (X : cxx) : bool :=
    IsJsonSerializable X || IsMapOrHash X || IsMultiMapOrHash X || is_integral X || is_floating_point X
      || (spec_of StdBasicString X || spec_of StdBasicStringView X || is_chars X) || IsArray X.
End Traits.
