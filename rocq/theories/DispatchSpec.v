(** DispatchSpec.v -- vocabulary for the properties about overloads (C55): which C++ types the model's
    types stand for, which overload the branches of the model stand for, and when an instantiation
    compiles. *)
From Coq Require Import List NArith ZArith Bool Lia.
From Verif Require Import Base Types BinModel BinSafeSpec JsonModel JsonSafeSpec DispatchModel.
Import ListNotations.
Open Scope nat_scope.

Definition sequence (tm : tmpl) : bool := match tm with StdVector | StdList | StdDeque => true | _ => false end.
Definition set_kind (tm : tmpl) : option (bool * bool) :=
  match tm with
  | StdSet => Some (true, false) | StdUnorderedSet => Some (false, false)
  | StdMultiSet => Some (true, true) | StdUnorderedMultiSet => Some (false, true)
  | _ => None
  end.
Definition map_kind (tm : tmpl) : option (bool * bool) :=
  match tm with
  | StdMap => Some (true, false) | StdUnorderedMap => Some (false, false)
  | StdMultiMap => Some (true, true) | StdUnorderedMultiMap => Some (false, true)
  | _ => None
  end.

(** a class the library may treat as container: iterable, with size() and emplace(), for which exactly
    the one macro is used and which is not marked as serialisable object *)
Definition treated (k : kclass) (map multi : bool) : Prop :=
  k_iteratable k = true /\ k_size k = true /\ k_emplace k = true /\ k_serializable k = false
  /\ k_map k = map && negb multi /\ k_multimap k = map && multi
  /\ k_set k = negb map && negb multi /\ k_multiset k = negb map && multi.
(** an ordinary class: no container *)
Definition ordinary (k : kclass) : Prop :=
  k_iteratable k = false /\ k_map k = false /\ k_multimap k = false /\ k_set k = false /\ k_multiset k = false.

(** [denotes K X t]: the C++ type [X] is one the type [t] of the model stands for *)
Inductive denotes (K : N -> kclass) : cxx -> ty -> Prop :=
| de_bool : denotes K CBool TBool
| de_int k : denotes K (CInt k) (TInt k)
| de_float : denotes K CFloat TF32
| de_double : denotes K CDouble TF64
| de_enum k : denotes K (CEnum k) (TEnum k)
| de_string : denotes K std_string TString
| de_view : denotes K std_string_view TView
| de_chars : denotes K CChars TCStr
| de_mono : denotes K CMono TMono
| de_datetime : denotes K CDateTime TDateTime
| de_timespan : denotes K CTimeSpan TTimeSpan
| de_sequence tm a t : sequence tm = true -> ~ (tm = StdVector /\ a = CBool) -> denotes K a t -> denotes K (CSpec tm [a]) (TSeq t)
| de_set tm ord multi a t : set_kind tm = Some (ord, multi) -> denotes K a t -> denotes K (CSpec tm [a]) (TSet ord multi t)
| de_map tm ord multi a b kt vt : map_kind tm = Some (ord, multi) -> denotes K a kt -> denotes K b vt ->
    denotes K (CSpec tm [a; b]) (TMap ord multi kt vt)
| de_set_class c ord multi a t : treated (K c) false multi -> k_elements (K c) = [a] -> denotes K a t ->
    denotes K (CClass c) (TSet ord multi t)
| de_map_class c ord multi a b kt vt : treated (K c) true multi -> k_elements (K c) = [a; b] -> denotes K a kt -> denotes K b vt ->
    denotes K (CClass c) (TMap ord multi kt vt)
| de_pair a b ta tb : denotes K a ta -> denotes K b tb -> denotes K (CSpec StdPair [a; b]) (TPair ta tb)
| de_tuple l ts : Forall2 (denotes K) l ts -> denotes K (CSpec StdTuple l) (TTuple ts)
| de_unique a t : denotes K a t -> denotes K (CSpec StdUnique [a]) (TUnique t)
| de_optional a t : denotes K a t -> denotes K (CSpec StdOptional [a]) (TOptional t)
| de_shared a t : denotes K a t -> denotes K (CSpec StdShared [a]) (TShared t)
| de_variant l ts : Forall2 (denotes K) l ts -> l <> [] -> denotes K (CSpec StdVariant l) (TVariant ts)
| de_struct c : ordinary (K c) -> denotes K (CClass c) (TStruct c).

(** the types of the accessed members correspond to what the environment of the model says, and the functions exist
    for the same classes *)
Record same_classes (K : N -> kclass) (G : genv) : Prop := {
  sc_read : forall c rc p, g_class G c = Some rc -> rc_rd rc = Some p ->
    exists l, k_read (K c) = Some l /\ Forall2 (denotes K) l (map bf_ty (bp_fields p));
  sc_written : forall c rc, g_class G c = Some rc ->
    exists l, k_written (K c) = Some l /\ Forall2 (denotes K) l (map bf_ty (bp_fields (rc_wr rc)));
  sc_pulled : forall c rc p, g_class G c = Some rc -> rc_pull rc = Some p ->
    exists l, k_pulled (K c) = Some l /\ Forall2 (denotes K) l (map jf_ty (jp_fields p));
  sc_pushed : forall c rc, g_class G c = Some rc ->
    exists l, k_pushed (K c) = Some l /\ Forall2 (denotes K) l (map jf_ty (jp_fields (rc_push rc)));
  sc_readers : forall c l, k_read (K c) = Some l -> exists rc p, g_class G c = Some rc /\ rc_rd rc = Some p;
  sc_writers : forall c l, k_written (K c) = Some l -> exists rc, g_class G c = Some rc;
  sc_pullers : forall c l, k_pulled (K c) = Some l -> exists rc p, g_class G c = Some rc /\ rc_pull rc = Some p;
  sc_pushers : forall c l, k_pushed (K c) = Some l -> exists rc, g_class G c = Some rc }.

(** the overload of BinaryDeserializer::read the branch of [read_body] for a type models *)
Definition read_branch (t : ty) : option bov :=
  match t with
  | TBool | TF32 | TF64 | TString | TInt _ => Some BBase
  | TEnum _ => Some BEnum
  | TPair _ _ => Some BPair
  | TUnique _ => Some BUnique
  | TOptional _ => Some BOptional
  | TShared _ => Some BShared
  | TSeq _ => Some BResizable
  | TSet _ _ _ => Some BIteratable
  | TMap _ _ _ _ => Some BMaps
  | TVariant _ => Some BVariant
  | TStruct _ | TDateTime | TTimeSpan => Some BCustom
  | TTuple _ | TMono | TView | TCStr => None
  end.
(** the overload of BinarySerializer::write the branch of [write_body] for a type models *)
Definition write_branch (t : ty) : option bov :=
  match t with
  | TBool | TF32 | TF64 | TString | TInt _ => Some BBase
  | TEnum _ => Some BEnum
  | TPair _ _ => Some BPair
  | TUnique _ | TOptional _ => Some BUniqueOrOptional
  | TShared _ => Some BShared
  | TSeq _ | TSet _ _ _ | TMap _ _ _ _ | TView => Some BIteratable
  | TVariant _ => Some BVariant
  | TStruct _ | TDateTime | TTimeSpan => Some BCustom
  | TTuple _ | TMono | TCStr => None
  end.
(** the same for the overloads which take a version *)
Definition version_branch (t : ty) : option bov :=
  match t with
  | TStruct _ | TDateTime | TTimeSpan => Some BCustom
  | TTuple _ | TMono | TCStr => None
  | _ => Some BBuiltIn
  end.
(** the overload of push the branch of [push_body] for a type models *)
Definition push_branch (t : ty) : option jov :=
  match t with
  | TBool | TF32 | TF64 => Some PushArith
  | TInt k => Some (if byte_kind k then PushByte else PushArith)
  | TEnum _ => Some PushEnum
  | TCStr => Some PushChars
  | TView => Some PushView
  | TString => Some PushString
  | TSeq _ | TSet _ _ _ => Some PushSized
  | TMap _ false _ _ => Some PushMap
  | TMap _ true _ _ => Some PushMulti
  | TTuple _ => Some PushTuple
  | TPair _ _ => Some PushPair
  | TUnique _ | TOptional _ | TShared _ => Some PushPointer
  | TVariant _ => Some PushVariant
  | TStruct _ | TDateTime | TTimeSpan => Some PushCustom
  | TMono => None
  end.
(** the overload(s) of pull the branch of [pull_body] for a type models: iterables with and without
    reserve() are not distinguished *)
Definition pull_branch (t : ty) : list jov :=
  match t with
  | TBool => [PullBool]
  | TF32 | TF64 => [PullArith]
  | TInt k => [if byte_kind k then PullByte else PullArith]
  | TEnum _ => [PullEnum]
  | TString => [PullString]
  | TView | TCStr => [PullNoStore]
  | TSeq _ | TSet _ _ _ => [PullPlain; PullReserve]
  | TMap _ false _ _ => [PullMap]
  | TMap _ true _ _ => [PullMulti]
  | TTuple _ => [PullTuple]
  | TPair _ _ => [PullPair]
  | TUnique _ => [PullUnique]
  | TOptional _ => [PullOptional]
  | TShared _ => [PullShared]
  | TVariant _ => [PullVariant]
  | TStruct _ | TDateTime | TTimeSpan => [PullCustom]
  | TMono => []
  end.
(** the overload which then takes the array *)
Definition array_branch (t : ty) : option jov :=
  match t with
  | TSeq _ => Some PullArrayArray
  | TSet _ false _ => Some PullArraySet
  | TSet _ true _ => Some PullArrayMultiSet
  | _ => None
  end.

(** [breaches K c c']: compiling the call [c] requires compiling the call [c'] *)
Inductive breaches (K : N -> kclass) : bcall -> bcall -> Prop :=
| br_self c : breaches K c c
| br_step c o l c' c'' : bresolve K c = Some o -> binner K o c = Some l -> In c' l -> breaches K c' c'' -> breaches K c c''.
Inductive jreaches (K : N -> kclass) : jcall -> jcall -> Prop :=
| jr_self c : jreaches K c c
| jr_step c o l c' c'' : jresolve K c = Some o -> jinner K o (call_type c) = Some l -> In c' l -> jreaches K c' c'' -> jreaches K c c''.

(** the call compiles: for it and every call it requires there is exactly one best overload, the body of which
    compiles *)
Definition bcompiles (K : N -> kclass) (c : bcall) : Prop :=
  forall c', breaches K c c' -> exists o l, bresolve K c' = Some o /\ binner K o c' = Some l.
Definition jcompiles (K : N -> kclass) (c : jcall) : Prop :=
  forall c', jreaches K c c' -> exists o l, jresolve K c' = Some o /\ jinner K o (call_type c') = Some l.

(** types of which the binary serializer can write values: as for reading, but every class has a writer and std::string_view
    can be written *)
Fixpoint writable (G : genv) (t : ty) : Prop :=
  match t with
  | TBool | TF32 | TF64 | TString | TView | TDateTime | TTimeSpan => True
  | TInt k | TEnum k => bin_kind k = true
  | TSeq t | TSet _ _ t | TUnique t | TOptional t | TShared t => writable G t
  | TMap _ _ a b | TPair a b => writable G a /\ writable G b
  | TVariant ts => ts <> [] /\ (fix all l := match l with [] => True | t :: l' => (t = TMono \/ writable G t) /\ all l' end) ts
  | TStruct c => exists rc, g_class G c = Some rc
  | TTuple _ | TMono | TCStr => False
  end.
(** types of which values can be pushed: integers which RapidJSON supports (or 8-bit ones), tuples which are not
    empty, maps with std::string as key, no std::monostate outside of variants; pointers and optionals do
    not refer to variants directly *)
Definition is_variant (t : ty) : bool := match t with TVariant _ => true | _ => false end.
Fixpoint pushable (G : genv) (t : ty) : Prop :=
  match t with
  | TBool | TF32 | TF64 | TString | TDateTime | TTimeSpan | TView | TCStr | TEnum _ => True
  | TInt k => json_kind k = true \/ byte_kind k = true
  | TSeq t | TSet _ _ t => pushable G t
  | TUnique t | TOptional t | TShared t => pushable G t /\ is_variant t = false
  | TMap _ _ kt vt => kt = TString /\ pushable G vt
  | TPair a b => pushable G a /\ pushable G b
  | TTuple ts => ts <> [] /\ (fix all l := match l with [] => True | t :: l' => pushable G t /\ all l' end) ts
  | TVariant ts => ts <> [] /\ (fix all l := match l with [] => True | t :: l' => (t = TMono \/ pushable G t) /\ all l' end) ts
  | TStruct c => exists rc, g_class G c = Some rc
  | TMono => False
  end.
(** types into which values can be pulled; nothing is required of the integer kinds' values or of the elements of sets *)
Definition json_readable (G : genv) (t : ty) : Prop := pullable G (fun _ => True) false t.

(** the accessed members of all classes have such types *)
Definition readable_members (G : genv) : Prop :=
  forall c rc p fd, g_class G c = Some rc -> rc_rd rc = Some p -> In fd (bp_fields p) -> readable G (bf_ty fd).
Definition writable_members (G : genv) : Prop :=
  forall c rc fd, g_class G c = Some rc -> In fd (bp_fields (rc_wr rc)) -> writable G (bf_ty fd).
Definition pushable_members (G : genv) : Prop :=
  forall c rc fd, g_class G c = Some rc -> In fd (jp_fields (rc_push rc)) -> pushable G (jf_ty fd).
Definition pullable_members (G : genv) : Prop :=
  forall c rc p fd, g_class G c = Some rc -> rc_pull rc = Some p -> In fd (jp_fields p) -> json_readable G (jf_ty fd).

(** the overload of toJsonDocument (called without template argument, as toJson does) for a type *)
Definition document_branch (K : N -> kclass) (t : ty) : option tov :=
  match t with
  | TBool | TInt _ | TF32 | TF64 => Some TopArith
  | TMap _ _ _ _ => Some TopObject
  | TStruct c => if k_serializable (K c) then Some TopObject else None
  | TSeq _ | TView => Some TopArray
  | _ => None
  end.
(** the overload of fromJson for a type *)
Definition parse_branch (K : N -> kclass) (t : ty) : option tov :=
  match t with TString => Some TopString | _ => document_branch K t end.
