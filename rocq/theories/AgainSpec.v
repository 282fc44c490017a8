(** AgainSpec.v -- vocabulary for "what the variable contained before does not matter, and deserialising the same document again changes nothing" (property C73).
    Nothing here is used by the model itself. *)
From Coq Require Import String List NArith ZArith Bool.
From Verif Require Import Base Types BinModel JsonModel JsonSpec JsonSafeSpec EquivSpec.
Import ListNotations.
Local Open Scope list_scope.

(** the error lists are in the same context and throw on the same kinds of errors; the errors reported so far may be different *)
Definition same_context (e e' : option est) : Prop :=
  match e, e' with
  | None, None => True
  | Some e, Some e' => es_record e = es_record e' /\ es_member e = es_member e' /\ es_index e = es_index e' /\ es_throw e = es_throw e'
  | _, _ => False
  end.
(** the same errors have been reported between [st] and [s] as between [st'] and [s'] *)
Definition same_errors (st st' s s' : pst) : Prop :=
  same_context (p_err s) (p_err s') /\ exists new, reported s = reported st ++ new /\ reported s' = reported st' ++ new.
(** both calls return, throw the same error, or have undefined behaviour, having reported the same errors *)
Definition same_outcome {A} (st st' : pst) (r r' : out A) : Prop :=
  match r, r' with
  | POk _ s, POk _ s' => same_errors st st' s s'
  | PThrow e s, PThrow e' s' => e = e' /\ same_errors st st' s s'
  | PUB, PUB | PFuel, PFuel | PStuck, PStuck => True
  | _, _ => False
  end.

(** Which types are considered: any ([Any], although elements of sets are without shared pointers), without shared pointers ([Unshared]),
    or without shared pointers and such that multimaps are only read into new objects ([Repeatable]) *)
Inductive mode := Any | Unshared | Repeatable.
Definition inside (m : mode) : mode := match m with Repeatable => Unshared | _ => m end.
Section Considered.
  (** [C m c]: class [c] is considered *)
  Variable C : mode -> N -> Prop.
  Fixpoint considered (m : mode) (t : ty) : Prop :=
    match t with
    | TSeq t | TUnique t | TOptional t => considered (inside m) t
    | TSet _ _ t => considered Unshared t
    | TMap _ multi kt vt => kt = TString /\ (multi = true -> m <> Repeatable) /\ considered m vt
    | TPair a b => considered m a /\ considered m b
    | TTuple ts => (fix all l := match l with [] => True | t :: l' => considered m t /\ all l' end) ts
    | TShared t => m = Any /\ considered Any t
    | TVariant ts => (fix all l := match l with [] => True | t :: l' => considered (inside m) t /\ all l' end) ts
    | TStruct c => C m c
    | _ => True
    end.
End Considered.

(** maps have at most one element per key, wherever something is merged into them *)
Inductive keyed (G : genv) : ty -> val -> Prop :=
| ky_map ord vt l : map_shape l -> NoDup (map_keys l) -> (forall s x, In (VPair (VStr s) x) l -> keyed G vt x) -> keyed G (TMap ord false TString vt) (VList l)
| ky_pair ta tb a b : keyed G ta a -> keyed G tb b -> keyed G (TPair ta tb) (VPair a b)
| ky_tuple ts l : Forall2 (keyed G) ts l -> keyed G (TTuple ts) (VList l)
| ky_struct c fs : (forall L fd x, members G rc_pull c L -> In fd L -> alookup fkey_eqb (jf_key fd) fs = Some x -> keyed G (jf_ty fd) x) -> keyed G (TStruct c) (VObj fs)
| ky_other t v : match t with TMap _ false _ _ | TPair _ _ | TTuple _ | TStruct _ => False | _ => True end -> keyed G t v.

(** The classes considered: the types of their members are considered; where the same member variable is accessed twice (which happens if a class inherits from another one twice)
    it is accessed under the same name and with the same type; default constructors create proper maps (both matters only if
    the document is to be deserialised again) *)
Definition classes_considered (G : genv) (C : mode -> N -> Prop) : Prop := forall m c, C m c ->
  exists rc L, g_class G c = Some rc /\ members G rc_pull c L /\ (forall fd, In fd L -> considered C m (jf_ty fd))
  /\ (m = Repeatable ->
       (forall fd fd', In fd L -> In fd' L -> jf_key fd = jf_key fd' -> jf_name fd = jf_name fd' /\ jf_ty fd = jf_ty fd')
       /\ keyed G (TStruct c) (VObj (rc_vinit rc))).

(** no object of the document has two members with the same name *)
Definition distinct_names : json -> Prop := everywhere (fun j => match j with JObj ms => NoDup (names ms) | _ => True end).

(** [complete G J t j]: the document [j] specifies a whole value of type [t]: numbers for numbers etc., arrays for arrays (what is in them does not matter: elements are always created anew),
    arrays of the right size for pairs and tuples, objects with all member variables for classes.  There are no such documents for maps, as documents are merged into them. *)
Inductive complete (G : genv) (J : jenv) : ty -> json -> Prop :=
| cp_bool b : complete G J TBool (JBool b)
| cp_int k j : is_number j = true -> complete G J (TInt k) j
| cp_f32 j : is_number j = true -> complete G J TF32 j
| cp_f64 j : is_number j = true -> complete G J TF64 j
| cp_enum k z : in_range (enum_kind k) z = true -> complete G J (TEnum k) (JInt z)
| cp_string s : complete G J TString (JStr s)
| cp_dt s z : je_dt_parse J (cstr s) = Some z -> complete G J TDateTime (JStr s)
| cp_ts s z : je_ts_parse J (cstr s) = Some z -> complete G J TTimeSpan (JStr s)
| cp_seq t js : complete G J (TSeq t) (JArr js)
| cp_set ord multi t js : complete G J (TSet ord multi t) (JArr js)
| cp_unique t j : complete G J (TUnique t) j
| cp_optional t j : complete G J (TOptional t) j
| cp_pair ta tb ja jb : complete G J ta ja -> complete G J tb jb -> complete G J (TPair ta tb) (JArr [ja; jb])
| cp_tuple ts js : Forall2 (complete G J) ts js -> complete G J (TTuple ts) (JArr js)
| cp_variant ts ms z jd t : alookup bytes_eqb (list_byte_of_string "index") ms = Some (JInt z) -> alookup bytes_eqb (list_byte_of_string "data") ms = Some jd ->
    in_range KU64 z = true -> nth_error ts (Z.to_nat z) = Some t -> complete G J (TVariant ts) (JObj ms)
| cp_struct c rc L ms : g_class G c = Some rc -> members G rc_pull c L -> NoDup (map jf_key L) -> NoDup (map fst (rc_layout rc)) -> incl (map fst (rc_layout rc)) (map jf_key L) ->
    (forall fd, In fd L -> alookup fkey_eqb (jf_key fd) (rc_layout rc) = Some (jf_ty fd) /\ exists j, alookup bytes_eqb (jf_name fd) ms = Some j /\ complete G J (jf_ty fd) j) ->
    complete G J (TStruct c) (JObj ms).
