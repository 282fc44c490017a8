(** JsonIssueSpec.v -- which errors a document causes: a specification of the error list which does not mention pull.
    Nothing here is used by the model. *)
From Coq Require Import String List NArith ZArith Bool Lia.
From Verif Require Import Base Types Float JsonModel JsonSpec JsonSafeSpec.
Import ListNotations.
Local Open Scope list_scope.

(** an error with the given context *)
Definition issue (k : ekind) (x a : jtype) (r m : option bytes) (i : option N) : jerror :=
  {| e_kind := k; e_expected := x; e_actual := a; e_record := r; e_member := m; e_index := i |}.

(** types without parts *)
Definition leaf (t : ty) : bool :=
  match t with TBool | TInt _ | TF32 | TF64 | TEnum _ | TString | TView | TCStr => true | _ => false end.

(** [issues G J t j r m i errs i']: deserialising the document [j] as value of type [t] while the error context has the
    record [r], the member [m] and the index [i] causes exactly the errors [errs], in this order; afterwards the index
    is [i'] (record and member are as before).
    [items … n js …]: likewise for the items [js] of an array, numbered from [n]; [set]: items may be duplicates.
    [chain l …]: documents which are deserialised one after another without changing the context.
    [record … c ms …]: likewise for the members of an object of class [c]; members of base classes come first. *)
Section Issues.
  Variable G : genv.
  Variable J : jenv.

  Inductive issues : ty -> json -> option bytes -> option bytes -> option N -> list jerror -> option N -> Prop :=
  | is_mismatch t j r m i :
      kind_checked t = true -> kind_fits t j = false ->
      issues t j r m i [issue TypeMismatch (expected_type t) (type_of j) r m i] i
  | is_leaf t j r m i : leaf t = true -> kind_fits t j = true -> issues t j r m i [] i
  | is_date t s r m i z :
      (t = TDateTime /\ je_dt_parse J (cstr s) = Some z \/ t = TTimeSpan /\ je_ts_parse J (cstr s) = Some z) ->
      issues t (JStr s) r m i [] i
  | is_date_invalid t s r m i :
      (t = TDateTime /\ je_dt_parse J (cstr s) = None \/ t = TTimeSpan /\ je_ts_parse J (cstr s) = None) ->
      issues t (JStr s) r m i [issue ConversionError JTString JTString r m i] i
  | is_date_kind t j r m i z :
      (forall s, j <> JStr s) -> (t = TDateTime /\ je_dt_parse J [] = Some z \/ t = TTimeSpan /\ je_ts_parse J [] = Some z) ->
      issues t j r m i [issue TypeMismatch JTString (type_of j) r m i] i
  | is_date_kind_invalid t j r m i :
      (forall s, j <> JStr s) -> (t = TDateTime /\ je_dt_parse J [] = None \/ t = TTimeSpan /\ je_ts_parse J [] = None) ->
      issues t j r m i [issue TypeMismatch JTString (type_of j) r m i; issue ConversionError JTString JTString r m i] i
  | is_seq t js r m i errs : items false t 0 js r m errs -> issues (TSeq t) (JArr js) r m i errs None
  | is_set ord multi t js r m i errs : items (negb multi) t 0 js r m errs -> issues (TSet ord multi t) (JArr js) r m i errs None
  | is_map ord vt ms r m i errs i' :
      chain (map (fun nj => (vt, snd nj)) ms) r m i errs i' -> issues (TMap ord false TString vt) (JObj ms) r m i errs i'
  | is_multimap ord vt ms r m i errs i' :
      chain (map (fun nj => (vt, snd nj)) (multi_items ms)) r m i errs i' -> issues (TMap ord true TString vt) (JObj ms) r m i errs i'
  | is_tuple_size ts js r m i :
      length js <> length ts -> issues (TTuple ts) (JArr js) r m i [issue ArraySizeMismatch JTArray JTArray r m i] i
  | is_tuple ts js r m i errs i' :
      length js = length ts -> chain (combine ts js) r m i errs i' -> issues (TTuple ts) (JArr js) r m i errs i'
  | is_pair_size ta tb js r m i :
      length js <> 2 -> issues (TPair ta tb) (JArr js) r m i [issue ArraySizeMismatch JTArray JTArray r m i] i
  | is_pair ta tb ja jb r m i errs i' :
      chain [(ta, ja); (tb, jb)] r m i errs i' -> issues (TPair ta tb) (JArr [ja; jb]) r m i errs i'
  | is_null t t' r m i : t = TUnique t' \/ t = TOptional t' \/ t = TShared t' -> issues t JNull r m i [] i
  | is_content t t' j r m i errs i' :
      t = TUnique t' \/ t = TOptional t' \/ t = TShared t' -> j <> JNull ->
      issues t' j r m i errs i' -> issues t j r m i errs i'
  | is_variant_object ts ms r m i :
      alookup bytes_eqb (list_byte_of_string "index") ms = None \/ alookup bytes_eqb (list_byte_of_string "data") ms = None ->
      issues (TVariant ts) (JObj ms) r m i [issue InvalidVariantObject JTObject JTObject r m i] i
  | is_variant_index ts ms ji jd r m i :
      alookup bytes_eqb (list_byte_of_string "index") ms = Some ji -> alookup bytes_eqb (list_byte_of_string "data") ms = Some jd ->
      (forall z, ji = JInt z -> in_range KU64 z = false \/ (Z.of_nat (length ts) <= z)%Z) ->
      issues (TVariant ts) (JObj ms) r m i [issue InvalidVariantIndex JTNumber (type_of ji) r m i] i
  | is_variant_mono ts ms z jd r m i :
      alookup bytes_eqb (list_byte_of_string "index") ms = Some (JInt z) -> alookup bytes_eqb (list_byte_of_string "data") ms = Some jd ->
      in_range KU64 z = true -> nth_error ts (Z.to_nat z) = Some TMono ->
      issues (TVariant ts) (JObj ms) r m i [] i
  | is_variant ts ms z jd t r m i errs i' :
      alookup bytes_eqb (list_byte_of_string "index") ms = Some (JInt z) -> alookup bytes_eqb (list_byte_of_string "data") ms = Some jd ->
      in_range KU64 z = true -> nth_error ts (Z.to_nat z) = Some t -> t <> TMono ->
      issues t jd r m i errs i' -> issues (TVariant ts) (JObj ms) r m i errs i'
  | is_class c ms r m i errs i' : record c ms r m i errs i' -> issues (TStruct c) (JObj ms) r m i errs i'
  with items : bool -> ty -> N -> list json -> option bytes -> option bytes -> list jerror -> Prop :=
  | it_none set t n r m : items set t n [] r m []
  | it_next set t n j js r m errs i errs' :
      issues t j r m (Some n) errs i -> items set t (n + 1) js r m errs' -> items set t n (j :: js) r m (errs ++ errs')
  | it_duplicate t n j js r m errs i errs' :
      issues t j r m (Some n) errs i -> items true t (n + 1) js r m errs' ->
      items true t n (j :: js) r m (errs ++ [issue UnexpectedDuplicate JTArray JTArray r m i] ++ errs')
  with chain : list (ty * json) -> option bytes -> option bytes -> option N -> list jerror -> option N -> Prop :=
  | ch_none r m i : chain [] r m i [] i
  | ch_next t j l r m i errs i1 errs' i' :
      issues t j r m i errs i1 -> chain l r m i1 errs' i' -> chain ((t, j) :: l) r m i (errs ++ errs') i'
  with record : N -> list (bytes * json) -> option bytes -> option bytes -> option N -> list jerror -> option N -> Prop :=
  | rec_intro c rc p ms r m i errs i1 errs' i' :
      g_class G c = Some rc -> rc_pull rc = Some p ->
      bases (jp_bases p) ms r m i errs i1 ->
      fields (jp_fields p) ms (match jp_record p with Some n => Some n | None => r end) i1 errs' i' ->
      record c ms r m i (errs ++ errs') i'
  with bases : list N -> list (bytes * json) -> option bytes -> option bytes -> option N -> list jerror -> option N -> Prop :=
  | ba_none ms r m i : bases [] ms r m i [] i
  | ba_next c l ms r m i errs i1 errs' i' :
      record c ms r m i errs i1 -> bases l ms r m i1 errs' i' -> bases (c :: l) ms r m i (errs ++ errs') i'
  with fields : list jfield -> list (bytes * json) -> option bytes -> option N -> list jerror -> option N -> Prop :=
  | fi_none ms r i : fields [] ms r i [] i
  | fi_missing fd l ms r i errs i' :
      alookup bytes_eqb (jf_name fd) ms = None -> fields l ms r i errs i' -> fields (fd :: l) ms r i errs i'
  | fi_next fd l ms j r i errs i1 errs' i' :
      alookup bytes_eqb (jf_name fd) ms = Some j ->
      issues (jf_ty fd) j r (Some (jf_name fd)) i errs i1 -> fields l ms r i1 errs' i' ->
      fields (fd :: l) ms r i (errs ++ errs') i'.
End Issues.
