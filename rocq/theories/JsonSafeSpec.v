(** JsonSafeSpec.v -- vocabulary for the statements about deserialising arbitrary documents *)
From Coq Require Import String List NArith ZArith Bool Lia Permutation.
From Verif Require Import Base Types BinModel BinSafeSpec BinFacts Float JsonModel JsonSpec.
Import ListNotations.
Local Open Scope list_scope.
Local Open Scope nat_scope.

(** [P] holds for a document and everything in it *)
Fixpoint everywhere (P : json -> Prop) (j : json) : Prop :=
  P j /\ match j with
         | JArr l => (fix all l := match l with [] => True | x :: l' => everywhere P x /\ all l' end) l
         | JObj ms => (fix all ms := match ms with [] => True | (_, x) :: ms' => everywhere P x /\ all ms' end) ms
         | _ => True
         end.

(** the numbers a RapidJSON document can hold: 64-bit integers and doubles *)
Definition json_wf : json -> Prop := everywhere (fun j =>
  match j with JInt z => in_range KI64 z = true \/ in_range KU64 z = true | JDbl n => (n < 2 ^ 64)%N | _ => True end).

(** every number in the document, rounded towards zero, is in the range of the integral types [K] *)
Definition numbers_fit (K : ikind -> Prop) : json -> Prop := everywhere (fun j =>
  match j with
  | JInt z => forall k, K k -> in_range k z = true
  | JDbl n => forall k, K k -> exists z, f64_trunc n = Some z /\ in_range k z = true
  | _ => True
  end).

(** types the default-initialised variables of which are indeterminate *)
Definition raw (t : ty) : bool := match t with TCStr => true | _ => is_scalar t end.

(** [pullable G K strict t]: pull compiles for [t]; integers have the types [K] (int for 8-bit ones, as
    these are read as int); [strict]: sets do not have elements of scalar type *)
Fixpoint pullable (G : genv) (K : ikind -> Prop) (strict : bool) (t : ty) : Prop :=
  match t with
  | TBool | TF32 | TF64 | TString | TDateTime | TTimeSpan | TView | TCStr | TEnum _ => True
  | TInt k => if json_kind k then K k else byte_kind k = true /\ K KI32
  | TSeq t | TUnique t | TOptional t | TShared t => pullable G K strict t
  | TSet _ _ t => pullable G K strict t /\ (strict = true -> raw t = false)
  | TMap _ _ kt vt => kt = TString /\ pullable G K strict vt
  | TPair a b => pullable G K strict a /\ pullable G K strict b
  | TTuple ts => ts <> [] /\ (fix all l := match l with [] => True | t :: l' => pullable G K strict t /\ all l' end) ts
  | TVariant ts => ts <> [] /\ (fix all l := match l with [] => True | t :: l' => (t = TMono \/ pullable G K strict t) /\ all l' end) ts
  | TStruct c => exists rc p, g_class G c = Some rc /\ rc_pull rc = Some p
  | TMono => False
  end.

(** The class environment makes sense: constructors produce objects with the members of the class; pull
    functions access existing members with their declared type and bases the members of which are part of
    the class. *)
Record jenv_ok (G : genv) (ud : bool) (K : ikind -> Prop) (strict : bool) : Prop := {
  jo_vinit : forall c rc, g_class G c = Some rc -> has_type G ud [] (TStruct c) (VObj (rc_vinit rc));
  jo_dinit : forall c rc, g_class G c = Some rc -> has_type G ud [] (TStruct c) (VObj (rc_dinit rc));
  jo_fields : forall c rc p fd, g_class G c = Some rc -> rc_pull rc = Some p -> In fd (jp_fields p) ->
     alookup fkey_eqb (jf_key fd) (rc_layout rc) = Some (jf_ty fd) /\ pullable G K strict (jf_ty fd);
  jo_bases : forall c rc p b, g_class G c = Some rc -> rc_pull rc = Some p -> In b (jp_bases p) ->
     exists rb pb, g_class G b = Some rb /\ rc_pull rb = Some pb
       /\ forall k t, alookup fkey_eqb k (rc_layout rb) = Some t -> alookup fkey_eqb k (rc_layout rc) = Some t }.

(** the conversions of c++utilities yield 64-bit tick counts *)
Definition conv_ok (J : jenv) : Prop :=
  (forall s z, je_dt_parse J s = Some z -> in_range KU64 z = true) /\ (forall s z, je_ts_parse J s = Some z -> in_range KI64 z = true).

(** what pull may be given as variable: a value of the type, or an indeterminate scalar *)
Definition variable_ok (G : genv) (ud : bool) (h : heap) (t : ty) (old : val) : Prop :=
  has_type G ud h t old \/ (raw t = true /\ old = VUndef).

(** two documents never yield equivalent elements of a set *)
Definition distinct_items (G : genv) (J : jenv) (ord : bool) (t : ty) (j1 j2 : json) : Prop :=
  forall f1 f2 st1 st2 st1' st2' x y,
    pull G J f1 t (dinit G t) j1 st1 = POk x st1' -> pull G J f2 t (dinit G t) j2 st2 = POk y st2' -> ~ key_equiv G ord t x y.

(** [conforms G J t j]: the document [j] has the structure expected for the type [t]: matching JSON types, numbers
    in range, tuples of the right size, dates which can be parsed, sets without duplicates, variants with
    a valid index.  Members of classes may be missing and there may be further ones. *)
Inductive conforms (G : genv) (J : jenv) : ty -> json -> Prop :=
| cf_bool b : conforms G J TBool (JBool b)
| cf_int k z : (json_kind k || byte_kind k) = true -> in_range k z = true -> conforms G J (TInt k) (JInt z)
| cf_int_dbl k n z : (json_kind k || byte_kind k) = true -> f64_trunc n = Some z -> in_range k z = true -> conforms G J (TInt k) (JDbl n)
| cf_f32 j : is_number j = true -> conforms G J TF32 j
| cf_f64 j : is_number j = true -> conforms G J TF64 j
| cf_enum k z : in_range (enum_kind k) z = true -> conforms G J (TEnum k) (JInt z)
| cf_string s : conforms G J TString (JStr s)
| cf_view s : conforms G J TView (JStr s)
| cf_cstr s : conforms G J TCStr (JStr s)
| cf_dt s z : je_dt_parse J (cstr s) = Some z -> conforms G J TDateTime (JStr s)
| cf_ts s z : je_ts_parse J (cstr s) = Some z -> conforms G J TTimeSpan (JStr s)
| cf_seq t js : (forall j, In j js -> conforms G J t j) -> conforms G J (TSeq t) (JArr js)
| cf_set ord multi t js :
    t <> TCStr -> (forall j, In j js -> conforms G J t j) ->
    (multi = false -> ForallOrdPairs (distinct_items G J ord t) js) ->
    conforms G J (TSet ord multi t) (JArr js)
| cf_map ord vt ms : (forall n j, In (n, j) ms -> conforms G J vt j) -> conforms G J (TMap ord false TString vt) (JObj ms)
| cf_multimap ord vt ms :
    (forall n j, In (n, j) ms -> (forall js, j <> JArr js) -> conforms G J vt j) ->
    (forall n js j, In (n, JArr js) ms -> In j js -> conforms G J vt j) ->
    conforms G J (TMap ord true TString vt) (JObj ms)
| cf_pair ta tb ja jb : conforms G J ta ja -> conforms G J tb jb -> conforms G J (TPair ta tb) (JArr [ja; jb])
| cf_tuple ts js :
    length js = length ts -> (forall i t j, nth_error ts i = Some t -> nth_error js i = Some j -> conforms G J t j) ->
    conforms G J (TTuple ts) (JArr js)
| cf_null t : conforms G J (TUnique t) JNull
| cf_null_opt t : conforms G J (TOptional t) JNull
| cf_null_sh t : conforms G J (TShared t) JNull
| cf_unique t j : conforms G J t j -> conforms G J (TUnique t) j
| cf_optional t j : conforms G J t j -> conforms G J (TOptional t) j
| cf_shared t j : conforms G J t j -> conforms G J (TShared t) j
| cf_mono ts ms z jd :
    alookup bytes_eqb (list_byte_of_string "index") ms = Some (JInt z) -> alookup bytes_eqb (list_byte_of_string "data") ms = Some jd ->
    in_range KU64 z = true -> nth_error ts (Z.to_nat z) = Some TMono -> conforms G J (TVariant ts) (JObj ms)
| cf_variant ts ms z jd t :
    alookup bytes_eqb (list_byte_of_string "index") ms = Some (JInt z) -> alookup bytes_eqb (list_byte_of_string "data") ms = Some jd ->
    in_range KU64 z = true -> nth_error ts (Z.to_nat z) = Some t -> conforms G J t jd -> conforms G J (TVariant ts) (JObj ms)
| cf_struct c ms L :
    members G rc_pull c L ->
    (forall fd j, In fd L -> alookup bytes_eqb (jf_name fd) ms = Some j -> conforms G J (jf_ty fd) j) ->
    conforms G J (TStruct c) (JObj ms).

(* ------------------------------------------------------------------ *)
(** * Errors *)

(** an error of kind [k] with the expected and actual JSON types [x] and [a] in the context of [e] *)
Definition error_in (e : est) (k : ekind) (x a : jtype) : jerror :=
  {| e_kind := k; e_expected := x; e_actual := a; e_record := es_record e; e_member := es_member e; e_index := es_index e |}.
Definition appended (e : est) (x : jerror) : est :=
  {| es_errs := es_errs e ++ [x]; es_record := es_record e; es_member := es_member e; es_index := es_index e; es_throw := es_throw e |}.
(** what happens if an error is reported and [v] returned: it is appended to the list, if there is one, and thrown if
    throwOn selects it *)
Definition reports {A} (k : ekind) (x a : jtype) (v : A) (st : pst) : out A :=
  match p_err st with
  | None => POk v st
  | Some e =>
      let st' := {| p_heap := p_heap st; p_err := Some (appended e (error_in e k x a)) |} in
      if fatal (es_throw e) (error_in e k x a) then PThrow (error_in e k x a) st' else POk v st'
  end.

(** the JSON documents [j] the kind of which fits the type [t] (dates, pointers and optionals are treated separately) *)
Definition kind_fits (t : ty) (j : json) : bool :=
  match t, j with
  | TBool, JBool _ => true
  | (TInt _ | TF32 | TF64), (JInt _ | JDbl _) => true
  | TEnum k, JInt z => in_range (if ksigned k then KI64 else KU64) z
  | (TString | TView | TCStr), JStr _ => true
  | (TSeq _ | TSet _ _ _ | TTuple _ | TPair _ _), JArr _ => true
  | (TMap _ _ _ _ | TVariant _ | TStruct _), JObj _ => true
  | _, _ => false
  end.
Definition kind_checked (t : ty) : bool :=
  match t with TDateTime | TTimeSpan | TUnique _ | TOptional _ | TShared _ | TMono => false | _ => true end.

(* ------------------------------------------------------------------ *)
(** * Containers *)

(** [set_run G ord t i l xs l' I]: inserting [xs] (numbered from [i]) one after another into the set [l] gives [l'] (iteration
    order aside), where [I] are the numbers of the items which are not inserted because the set already has an equivalent element *)
Inductive set_run (G : genv) (ord : bool) (t : ty) : N -> list val -> list val -> list val -> list N -> Prop :=
| sr_done i l : set_run G ord t i l [] l []
| sr_new i l x xs l1 l' I :
    (forall y, In y l -> ~ key_equiv G ord t y x) -> Permutation (x :: l) l1 ->
    set_run G ord t (i + 1) l1 xs l' I -> set_run G ord t i l (x :: xs) l' I
| sr_dup i l x xs l' I y :
    In y l -> key_equiv G ord t y x ->
    set_run G ord t (i + 1) l xs l' I -> set_run G ord t i l (x :: xs) l' (i :: I).

(** keys are strings and compared as such *)
Definition string_keys (G : genv) (ord : bool) : Prop := forall a b, key_equiv G ord TString (VStr a) (VStr b) <-> a = b.

(** the value for a key of a map *)
Fixpoint map_get (s : bytes) (l : list val) : option val :=
  match l with
  | [] => None
  | VPair (VStr k) v :: l' => if bytes_eqb k s then Some v else map_get s l'
  | _ :: l' => map_get s l'
  end.
Definition map_keys (l : list val) : list bytes := flat_map (fun x => match x with VPair (VStr k) _ => [k] | _ => [] end) l.
Definition map_shape (l : list val) : Prop := forall x, In x l -> exists k v, x = VPair (VStr k) v.

(** [pulled_into G J vt o js o']: the documents [js] have been pulled one after another into the variable [o]
    (a value-initialised one if there is none), which then holds [o'] *)
Inductive pulled_into (G : genv) (J : jenv) (vt : ty) : option val -> list json -> option val -> Prop :=
| pi_done o : pulled_into G J vt o [] o
| pi_next o j js x o' f st1 st2 :
    pull G J f vt (match o with Some v => v | None => vinit G vt end) j st1 = POk x st2 ->
    pulled_into G J vt (Some x) js o' -> pulled_into G J vt o (j :: js) o'.

(** the members of an object with the given name (up to the first NUL character) *)
Definition members_named (s : bytes) (ms : list (bytes * json)) : list json :=
  map snd (filter (fun m => bytes_eqb (cstr (fst m)) s) ms).

(** the entries of an object for a multimap: one per item of an array, else one per member *)
Definition multi_items (ms : list (bytes * json)) : list (bytes * json) :=
  flat_map (fun '(n, j) => match j with JArr js => map (pair n) js | _ => [(n, j)] end) ms.

(** the elements of a list without repetitions, in order of first occurrence *)
Definition firsts (ks : list bytes) : list bytes :=
  fold_left (fun acc k => if existsb (bytes_eqb k) acc then acc else acc ++ [k]) ks [].
(** the values for a key of a multimap, in order *)
Definition values_for (s : bytes) (l : list val) : list val :=
  flat_map (fun x => match x with VPair (VStr k) v => if bytes_eqb k s then [v] else [] | _ => [] end) l.
