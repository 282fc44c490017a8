(** BinSafeSpec.v -- when a value has a type, and what is required of the class
    environment; vocabulary for the statements about reading arbitrary bytes. *)
From Coq Require Import List NArith ZArith Bool Lia.
From Verif Require Import Base Types BinModel.
Import ListNotations.

Definition is_scalar (t : ty) : bool :=
  match t with TBool | TInt _ | TEnum _ | TF32 | TF64 => true | _ => false end.

(** type of the object at an address *)
Definition hty (h : heap) (a : N) : option ty := omap fst (hget h a).

(** [has_type G ud h t v]: [v] is a value of type [t] all shared pointers of which refer to
    existing objects of the right type in [h]. Indeterminate scalars are only admitted
    if [ud] = true. *)
Inductive has_type (G : genv) (ud : bool) (h : heap) : ty -> val -> Prop :=
| ht_undef t : ud = true -> is_scalar t = true -> has_type G ud h t VUndef
| ht_bool b : has_type G ud h TBool (VBool b)
| ht_int k z : in_range k z = true -> has_type G ud h (TInt k) (VInt z)
| ht_enum k z : in_range k z = true -> has_type G ud h (TEnum k) (VInt z)
| ht_f32 n : (n < 2 ^ 32)%N -> has_type G ud h TF32 (VF32 n)
| ht_f64 n : (n < 2 ^ 64)%N -> has_type G ud h TF64 (VF64 n)
| ht_string s : has_type G ud h TString (VStr s)
| ht_dt z : in_range KU64 z = true -> has_type G ud h TDateTime (VInt z)
| ht_ts z : in_range KI64 z = true -> has_type G ud h TTimeSpan (VInt z)
| ht_seq t l : (forall x, In x l -> has_type G ud h t x) -> has_type G ud h (TSeq t) (VList l)
| ht_set ord multi t l : (forall x, In x l -> has_type G ud h t x) -> has_type G ud h (TSet ord multi t) (VList l)
| ht_map ord multi kt vt l :
    (forall x, In x l -> exists k v, x = VPair k v) ->
    (forall k v, In (VPair k v) l -> has_type G ud h kt k) ->
    (forall k v, In (VPair k v) l -> has_type G ud h vt v) ->
    has_type G ud h (TMap ord multi kt vt) (VList l)
| ht_pair ta tb a b : has_type G ud h ta a -> has_type G ud h tb b -> has_type G ud h (TPair ta tb) (VPair a b)
| ht_opt_none t : has_type G ud h (TOptional t) (VOpt None)
| ht_opt_some t x : has_type G ud h t x -> has_type G ud h (TOptional t) (VOpt (Some x))
| ht_uni_none t : has_type G ud h (TUnique t) (VOpt None)
| ht_uni_some t x : has_type G ud h t x -> has_type G ud h (TUnique t) (VOpt (Some x))
| ht_shared_none t : has_type G ud h (TShared t) (VShared None)
| ht_shared_some t a : hty h a = Some t -> has_type G ud h (TShared t) (VShared (Some a))
| ht_variant ts i t x : nth_error ts i = Some t -> has_type G ud h t x -> has_type G ud h (TVariant ts) (VVar i x)
| ht_mono : has_type G ud h TMono VMono
| ht_struct c rc fs :
    g_class G c = Some rc ->
    map fst fs = map fst (rc_layout rc) ->
    (forall k t v, alookup fkey_eqb k (rc_layout rc) = Some t -> alookup fkey_eqb k fs = Some v -> has_type G ud h t v) ->
    has_type G ud h (TStruct c) (VObj fs)
| ht_tuple ts l :
    length l = length ts ->
    (forall i t x, nth_error ts i = Some t -> nth_error l i = Some x -> has_type G ud h t x) ->
    has_type G ud h (TTuple ts) (VList l)
| ht_view_none : has_type G ud h TView (VOpt None)
| ht_view s : has_type G ud h TView (VOpt (Some (VStr s)))
| ht_cstr_none : has_type G ud h TCStr (VOpt None)
| ht_cstr s : has_type G ud h TCStr (VOpt (Some (VStr s)))
| ht_cstr_undef : ud = true -> has_type G ud h TCStr VUndef.

(** every object owned by a shared pointer has its type *)
Definition heap_typed (G : genv) (ud : bool) (h : heap) : Prop :=
  forall a t x, hget h a = Some (t, x) -> has_type G ud h t x.

(** types for which BinaryDeserializer::read compiles; every class mentioned in the
    environment which is used has to be readable, see [env_ok] *)
Fixpoint readable (G : genv) (t : ty) : Prop :=
  match t with
  | TBool | TF32 | TF64 | TString | TDateTime | TTimeSpan => True
  | TInt k | TEnum k => bin_kind k = true
  | TSeq t | TSet _ _ t | TUnique t | TOptional t | TShared t => readable G t
  | TMap _ _ a b | TPair a b => readable G a /\ readable G b
  | TVariant ts => ts <> [] /\ (fix all l := match l with [] => True | t :: l' => (t = TMono \/ readable G t) /\ all l' end) ts
  | TStruct c => exists rc p, g_class G c = Some rc /\ rc_rd rc = Some p
  | TTuple _ | TMono | TView | TCStr => False
  end.

(** The class environment makes sense: constructors produce objects with the members of
    the class ([ud] tells whether they may leave scalars indeterminate); readers access
    existing members with their declared type and base classes the members of which are
    part of the class. *)
Record env_ok (G : genv) (ud : bool) : Prop := {
  eo_vinit : forall c rc, g_class G c = Some rc -> has_type G ud [] (TStruct c) (VObj (rc_vinit rc));
  eo_dinit : forall c rc, g_class G c = Some rc -> has_type G ud [] (TStruct c) (VObj (rc_dinit rc));
  eo_fields : forall c rc p fd, g_class G c = Some rc -> rc_rd rc = Some p -> In fd (bp_fields p) ->
     alookup fkey_eqb (bf_key fd) (rc_layout rc) = Some (bf_ty fd) /\ readable G (bf_ty fd);
  eo_bases : forall c rc p b, g_class G c = Some rc -> rc_rd rc = Some p -> In b (bp_bases p) ->
     exists rb pb, g_class G b = Some rb /\ rc_rd rb = Some pb
       /\ forall k t, alookup fkey_eqb k (rc_layout rb) = Some t -> alookup fkey_eqb k (rc_layout rc) = Some t }.

(** state of the deserializer: allocated objects are typed, known IDs refer to objects
    of the recorded type *)
Record state_ok (G : genv) (ud : bool) (st : rstate) : Prop := {
  so_heap : heap_typed G ud (r_heap st);
  so_ptr : forall id a t, alookup N.eqb id (r_ptr st) = Some (a, t) -> hty (r_heap st) a = Some t }.

(** [h'] has the objects of [h], unchanged, and possibly new ones *)
Definition heap_extends (h h' : heap) : Prop :=
  forall a c, hget h a = Some c -> hget h' a = Some c.

(** rank of a type with respect to "contains by value" *)
Fixpoint trank (rk : N -> nat) (t : ty) : nat :=
  match t with
  | TPair a b => S (max (trank rk a) (trank rk b))
  | TStruct c => S (rk c)
  | _ => 0
  end.

(** No class contains itself by value (C++ requires members and bases to have complete
    types): there is a rank which decreases from a class to its bases and members.
    Containment through containers, smart pointers, optionals and variants is not
    restricted. *)
Definition by_value_ok (G : genv) : Prop :=
  exists rk : N -> nat, forall c rc p, g_class G c = Some rc -> rc_rd rc = Some p ->
    (forall b, In b (bp_bases p) -> rk b < rk c) /\ (forall fd, In fd (bp_fields p) -> trank rk (bf_ty fd) <= rk c).
