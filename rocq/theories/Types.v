(** Types.v -- the C++ types which the library (de)serialises, their values, and
    the runtime view of (generated/adapted) classes. *)
From Coq Require Import List NArith ZArith Bool Lia.
From Verif Require Import Base.
Import ListNotations.

(** Integral types.  [KChar] is [char] (signed, as on x86), which is distinct
    from [KI8] = [signed char] = std::int8_t.
    lib/binary/reflector.h:48-49 (char, uint8, int16..uint64),
    lib/json/reflector.h:151-167, 531-558. *)
Inductive ikind := KI8 | KU8 | KI16 | KU16 | KI32 | KU32 | KI64 | KU64 | KChar.

(** Number of bytes and signedness of an integral type. *)
Definition ksize (k : ikind) : nat :=
  match k with
  | KI8 | KU8 | KChar => 1
  | KI16 | KU16 => 2
  | KI32 | KU32 => 4
  | KI64 | KU64 => 8
  end.
Definition ksigned (k : ikind) : bool :=
  match k with KI8 | KI16 | KI32 | KI64 | KChar => true | _ => false end.

(** value range of an integral type *)
Definition kmin (k : ikind) : Z := if ksigned k then (- 2 ^ (8 * Z.of_nat (ksize k) - 1))%Z else 0%Z.
Definition kmax (k : ikind) : Z :=
  if ksigned k then (2 ^ (8 * Z.of_nat (ksize k) - 1) - 1)%Z else (2 ^ (8 * Z.of_nat (ksize k)) - 1)%Z.
Definition in_range (k : ikind) (z : Z) : bool := (kmin k <=? z)%Z && (z <=? kmax k)%Z.

(** Syntax of the supported types.

    - [TSeq]: resizable arrays (IsArray && IsResizable, lib/traits.h:52-55;
      std::vector, std::list, std::deque).
    - [TSet ord multi t]: std::set / std::multiset ([ord] = true) and the
      unordered variants; [TMap] likewise (lib/traits.h:37-46).
    - [TMono]: std::monostate, only as alternative of a variant.
    - [TStruct c]: class number [c] of the class environment.
    - [TDateTime]/[TTimeSpan]: lib/binary/reflector-chronoutilities.h and
      lib/json/reflector-chronoutilities.h.
    - [TView]/[TCStr]: std::string_view and const char * (JSON only).
    Raw arrays/forward_list, weak_ptr and custom types mapped via the
    REFLECTIVE_RAPIDJSON_TREAT_AS_* macros are not distinguished from the
    standard container they are treated as. *)
Inductive ty : Type :=
| TBool
| TInt (k : ikind)
| TF32
| TF64
| TEnum (k : ikind)
| TString
| TSeq (t : ty)
| TSet (ord multi : bool) (t : ty)
| TMap (ord multi : bool) (kt vt : ty)
| TPair (a b : ty)
| TTuple (ts : list ty)
| TUnique (t : ty)
| TOptional (t : ty)
| TShared (t : ty)
| TVariant (ts : list ty)
| TMono
| TStruct (c : N)
| TDateTime
| TTimeSpan
| TView
| TCStr.

Definition ikind_eqb (a b : ikind) : bool :=
  match a, b with
  | KI8, KI8 | KU8, KU8 | KI16, KI16 | KU16, KU16 | KI32, KI32 | KU32, KU32
  | KI64, KI64 | KU64, KU64 | KChar, KChar => true
  | _, _ => false
  end.

(** type identity (std::any_cast compares std::type_info,
    lib/binary/reflector.h:160) *)
Fixpoint ty_eqb (a b : ty) : bool :=
  match a, b with
  | TBool, TBool | TF32, TF32 | TF64, TF64 | TString, TString | TMono, TMono
  | TDateTime, TDateTime | TTimeSpan, TTimeSpan | TView, TView | TCStr, TCStr => true
  | TInt k, TInt l => ikind_eqb k l
  | TEnum k, TEnum l => ikind_eqb k l
  | TSeq t, TSeq u => ty_eqb t u
  | TSet o m t, TSet o' m' u => Bool.eqb o o' && Bool.eqb m m' && ty_eqb t u
  | TMap o m k t, TMap o' m' l u => Bool.eqb o o' && Bool.eqb m m' && ty_eqb k l && ty_eqb t u
  | TPair t1 t2, TPair u1 u2 => ty_eqb t1 u1 && ty_eqb t2 u2
  | TTuple ts, TTuple us =>
      (fix go (l m : list ty) := match l, m with
        | [], [] => true | x :: l', y :: m' => ty_eqb x y && go l' m' | _, _ => false end) ts us
  | TUnique t, TUnique u => ty_eqb t u
  | TOptional t, TOptional u => ty_eqb t u
  | TShared t, TShared u => ty_eqb t u
  | TVariant ts, TVariant us =>
      (fix go (l m : list ty) := match l, m with
        | [], [] => true | x :: l', y :: m' => ty_eqb x y && go l' m' | _, _ => false end) ts us
  | TStruct c, TStruct d => N.eqb c d
  | _, _ => false
  end.

(** A member variable is identified by its declaring class and its name, so the
    conversion of an object to one of its base classes
    ([static_cast<const ::Base &>(customObject)], generated at
    generator/binaryserializationcodegenerator.cpp:252) is the identity on the
    object representation. *)
Definition fkey : Type := (N * bytes)%type.
Definition fkey_eqb (a b : fkey) : bool := N.eqb (fst a) (fst b) && bytes_eqb (snd a) (snd b).

(** Values (C++ objects).

    - [VUndef]: a scalar with indeterminate value (default-initialised).
    - [VInt]: integers, enums and DateTime/TimeSpan ticks.
    - [VF32]/[VF64]: the bit pattern.
    - [VList]: elements in iteration order (sequences, sets, tuples; maps hold [VPair]s).
    - [VOpt]: std::optional and std::unique_ptr; std::string_view and const char * ([None]: data() is null).
    - [VShared]: std::shared_ptr as address into the heap ([None] = nullptr).
    - [VVar i v]: variant holding alternative [i]; [VValueless]: valueless_by_exception.
    - [VObj]: class object: all member variables including inherited ones. *)
Inductive val : Type :=
| VUndef
| VBool (b : bool)
| VInt (z : Z)
| VF32 (n : N)
| VF64 (n : N)
| VStr (s : bytes)
| VList (l : list val)
| VPair (a b : val)
| VOpt (o : option val)
| VShared (o : option N)
| VVar (i : nat) (v : val)
| VValueless
| VMono
| VObj (fs : list (fkey * val)).

(** The objects owned by shared pointers. *)
Definition heap : Type := list (N * (ty * val)).
Definition hget (h : heap) (a : N) : option (ty * val) := alookup N.eqb a h.
Definition hset (h : heap) (a : N) (c : ty * val) : heap := (a, c) :: h.

(** A member access guarded by a version condition ([0] = no bound), as emitted by
    MemberTracking::writeVersionCondition
    (generator/binaryserializationcodegenerator.cpp:159-180). *)
Record bfield := { bf_asof : N; bf_until : N; bf_key : fkey; bf_ty : ty }.

(** [version >= asOf && version <= until] as emitted at
    generator/binaryserializationcodegenerator.cpp:167-179 *)
Definition visible (ver : N) (f : bfield) : bool :=
  ((bf_asof f =? 0) || (bf_asof f <=? ver))%N && ((bf_until f =? 0) || (ver <=? bf_until f))%N.

(** Body of writeCustomType/readCustomType: base classes, version, members
    (generator/binaryserializationcodegenerator.cpp:247-299, 306-357).
    [bp_vmax] is [Versioning<Base>::maxSupported] = [serializationDefault], with
    [0] for classes which are not versioned ([V::enabled] = false,
    lib/versioning.h:34-42, or no [relevantBase]).
    Boost.Hana adapted classes (lib/binary/reflector-boosthana.h:27-38) are the
    special case without bases, version and conditions which returns 0. *)
Record bprog := { bp_bases : list N; bp_vmax : N; bp_fields : list bfield; bp_ret0 : bool }.

(** Body of push/pull for a class: base classes, then members with their JSON
    name (generator/jsonserializationcodegenerator.cpp:115-132, 140-175).
    [jp_record]: generated pull functions set the error context's current record
    to the class name; the Boost.Hana version
    (lib/json/reflector-boosthana.h:29-46) does not. *)
Record jfield := { jf_name : bytes; jf_key : fkey; jf_ty : ty }.
Record jprog := { jp_bases : list N; jp_record : option bytes; jp_fields : list jfield }.

(** Runtime view of a class. [rc_dinit]/[rc_vinit] are the results of
    [Type x;] and of [Type()]; they depend on the user's constructors and
    default member initialisers, hence are data.  [rc_rd]/[rc_pull] are [None] if
    no reader is generated (no default constructor;
    generator/binaryserializationcodegenerator.cpp:301-304,
    generator/jsonserializationcodegenerator.cpp:134-137). *)
Record rtclass := {
  rc_name : bytes;
  rc_layout : list (fkey * ty);
  rc_dinit : list (fkey * val);
  rc_vinit : list (fkey * val);
  rc_wr : bprog;
  rc_rd : option bprog;
  rc_push : jprog;
  rc_pull : option jprog }.

(** The environment: classes and everything the library takes from the outside.
    - [g_lt t], [g_eq t]: comparison used by ordered / hash containers with key type [t];
    - [g_place t l x]: iteration order of a hash container after inserting [x] into [l]
      (may reorder everything, as a rehash does);
    - [g_alloc h]: address std::make_shared returns when [h] is allocated. *)
Record genv := {
  g_class : N -> option rtclass;
  g_lt : ty -> val -> val -> bool;
  g_eq : ty -> val -> val -> bool;
  g_place : ty -> list val -> val -> list val;
  g_alloc : heap -> N }.

Section Init.
  Variable G : genv.

  (** value-initialisation [T()], as done by std::make_unique/make_shared,
      std::vector::resize, std::optional::emplace(), std::variant::emplace<I>()
      and for the members of std::pair / std::tuple
      (lib/binary/reflector.h:138, 154, 169, 178, 188, 224) *)
  Fixpoint vinit (t : ty) : val :=
    match t with
    | TBool => VBool false
    | TInt _ | TEnum _ | TDateTime | TTimeSpan => VInt 0
    | TF32 => VF32 0
    | TF64 => VF64 0
    | TString => VStr []
    | TView | TCStr => VOpt None
    | TSeq _ | TSet _ _ _ | TMap _ _ _ _ => VList []
    | TPair a b => VPair (vinit a) (vinit b)
    | TTuple ts => VList (map vinit ts)
    | TUnique _ | TOptional _ => VOpt None
    | TShared _ => VShared None
    | TVariant ts => match ts with [] => VValueless | t0 :: _ => VVar 0 (vinit t0) end
    | TMono => VMono
    | TStruct c => match g_class G c with Some rc => VObj (rc_vinit rc) | None => VUndef end
    end.

  (** default-initialisation [T x;], as done for the temporaries at
      lib/binary/reflector.h:201, lib/json/reflector.h:702, 730, 1109, 1162 and
      lib/binary/serializable.h:48: scalars are indeterminate, std types
      initialise their members. *)
  Definition dinit (t : ty) : val :=
    match t with
    | TBool | TInt _ | TEnum _ | TF32 | TF64 | TCStr => VUndef
    | TStruct c => match g_class G c with Some rc => VObj (rc_dinit rc) | None => VUndef end
    | _ => vinit t
    end.
End Init.

(* ------------------------------------------------------------------ *)
(** * Associative containers *)

(** key of a container element *)
Definition keyof (ismap : bool) (x : val) : val :=
  if ismap then match x with VPair k _ => k | _ => x end else x.

(** std::set::emplace / std::map::emplace: linear scan instead of a tree search,
    which finds the same place because the elements are sorted *)
Fixpoint ins_uniq {A} (lt : A -> A -> bool) (x : A) (l : list A) : list A * bool :=
  match l with
  | [] => ([x], true)
  | y :: l' =>
      if lt y x then let (r, b) := ins_uniq lt x l' in (y :: r, b)
      else if lt x y then (x :: l, true) else (l, false)
  end.

(** std::multiset::emplace / std::multimap::insert: at the upper bound *)
Fixpoint ins_multi {A} (lt : A -> A -> bool) (x : A) (l : list A) : list A :=
  match l with
  | [] => [x]
  | y :: l' => if lt x y then x :: l else y :: ins_multi lt x l'
  end.

(** emplace of an associative container: new content and whether inserted
    (used at lib/binary/reflector.h:190, 203 and lib/json/reflector.h:704, 732) *)
Definition emplace (G : genv) (ismap ord multi : bool) (kt : ty) (x : val) (l : list val) : list val * bool :=
  let lt a b := g_lt G kt (keyof ismap a) (keyof ismap b) in
  let eq a b := g_eq G kt (keyof ismap a) (keyof ismap b) in
  match ord, multi with
  | true, false => ins_uniq lt x l
  | true, true => (ins_multi lt x l, true)
  | false, false => if existsb (fun y => eq y x) l then (l, false) else (g_place G kt l x, true)
  | false, true => (g_place G kt l x, true)
  end.
