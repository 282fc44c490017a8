(** EquivSpec.v -- JSON documents which mean the same although members are in a different order or there are further members (property C69).
    Nothing here is used by the model itself. *)
From Coq Require Import String List NArith ZArith Bool Permutation.
From Verif Require Import Base Types BinModel Float JsonModel JsonSpec SerSpec JTreeSpec AddrSpec.
Import ListNotations.
Local Open Scope list_scope.

(** both are absent or both are present and related *)
Inductive both {A} (R : A -> A -> Prop) : option A -> option A -> Prop :=
| both_none : both R None None
| both_some a b : R a b -> both R (Some a) (Some b).

(** the names of the members, as the library sees them (up to a NUL character) *)
Definition names (ms : list (bytes * json)) : list bytes := map (fun m => cstr (fst m)) ms.

(** [reordered j j']: the documents are the same except for the order of the members of objects, anywhere in the document; where they are in a different order the names are distinct *)
Inductive reordered : json -> json -> Prop :=
| ro_same j : reordered j j
| ro_arr js js' : Forall2 reordered js js' -> reordered (JArr js) (JArr js')
| ro_obj ms msr ms' : Permutation ms msr -> NoDup (names ms) ->
    Forall2 (fun m m' => fst m = fst m' /\ reordered (snd m) (snd m')) msr ms' -> reordered (JObj ms) (JObj ms').

Definition rearranged (reorder ord : bool) (ms msr : list (bytes * json)) : Prop :=
  ms = msr \/ (reorder = true /\ ord = true /\ Permutation ms msr /\ NoDup (names ms)).

(** arrays and objects which cannot be read into a variable of the type at all *)
Definition unsuitable (t : ty) (j : json) : Prop :=
  match j, t with
  | JArr _, (TSeq _ | TSet _ _ _ | TPair _ _ | TTuple _ | TUnique _ | TOptional _ | TShared _) => False
  | JObj _, (TMap _ _ _ _ | TVariant _ | TStruct _ | TUnique _ | TOptional _ | TShared _) => False
  | (JArr _ | JObj _), _ => True
  | _, _ => False
  end.
(** the index of a variant is the same, or none for the same reason *)
Definition same_index (j j' : json) : Prop := j = j' \/ (is_number j = false /\ is_number j' = false /\ type_of j = type_of j').

(** [equivalent G reorder t j j']: the documents mean the same for the type [t]: for classes only the (first) members with the names of member variables count, for variants
    only "index" and "data"; if [reorder], entries of maps which are no hash maps may be in a different order *)
Inductive equivalent (G : genv) (reorder : bool) : ty -> json -> json -> Prop :=
| eq_same t j : equivalent G reorder t j j
| eq_seq t js js' : Forall2 (equivalent G reorder t) js js' -> equivalent G reorder (TSeq t) (JArr js) (JArr js')
| eq_set ord multi t js js' : Forall2 (equivalent G reorder t) js js' -> equivalent G reorder (TSet ord multi t) (JArr js) (JArr js')
| eq_wrong t j j' : unsuitable t j -> type_of j = type_of j' -> equivalent G reorder t j j'
| eq_pair ta tb js js' : length js = length js' ->
    (forall j j', nth_error js 0 = Some j -> nth_error js' 0 = Some j' -> equivalent G reorder ta j j') ->
    (forall j j', nth_error js 1 = Some j -> nth_error js' 1 = Some j' -> equivalent G reorder tb j j') ->
    equivalent G reorder (TPair ta tb) (JArr js) (JArr js')
| eq_tuple ts js js' : length js = length js' ->
    (forall i t j j', nth_error ts i = Some t -> nth_error js i = Some j -> nth_error js' i = Some j' -> equivalent G reorder t j j') ->
    equivalent G reorder (TTuple ts) (JArr js) (JArr js')
| eq_map ord vt ms msr ms' : rearranged reorder ord ms msr ->
    Forall2 (fun m m' => cstr (fst m) = cstr (fst m') /\ equivalent G reorder vt (snd m) (snd m')) msr ms' ->
    equivalent G reorder (TMap ord false TString vt) (JObj ms) (JObj ms')
| eq_multimap ord vt ms msr ms' : rearranged reorder ord ms msr ->
    Forall2 (fun m m' => cstr (fst m) = cstr (fst m') /\ ((exists js js', snd m = JArr js /\ snd m' = JArr js' /\ Forall2 (equivalent G reorder vt) js js')
      \/ ((forall js, snd m <> JArr js) /\ equivalent G reorder vt (snd m) (snd m')))) msr ms' ->
    equivalent G reorder (TMap ord true TString vt) (JObj ms) (JObj ms')
| eq_unique t j j' : equivalent G reorder t j j' -> equivalent G reorder (TUnique t) j j'
| eq_optional t j j' : equivalent G reorder t j j' -> equivalent G reorder (TOptional t) j j'
| eq_shared t j j' : equivalent G reorder t j j' -> equivalent G reorder (TShared t) j j'
| eq_variant ts ms ms' :
    both same_index (alookup bytes_eqb (list_byte_of_string "index") ms) (alookup bytes_eqb (list_byte_of_string "index") ms') ->
    both (fun jd jd' => forall z t, alookup bytes_eqb (list_byte_of_string "index") ms = Some (JInt z) -> nth_error ts (Z.to_nat z) = Some t -> equivalent G reorder t jd jd')
      (alookup bytes_eqb (list_byte_of_string "data") ms) (alookup bytes_eqb (list_byte_of_string "data") ms') ->
    equivalent G reorder (TVariant ts) (JObj ms) (JObj ms')
| eq_struct c L ms ms' : members G rc_pull c L ->
    (forall fd, In fd L -> both (equivalent G reorder (jf_ty fd)) (alookup bytes_eqb (jf_name fd) ms) (alookup bytes_eqb (jf_name fd) ms')) ->
    equivalent G reorder (TStruct c) (JObj ms) (JObj ms').

(** strings are compared by a total order *)
Definition strings_ordered (G : genv) : Prop :=
  let lt a b := g_lt G TString (VStr a) (VStr b) = true in
  (forall a, ~ lt a a) /\ (forall a b c, lt a b -> lt b c -> lt a c) /\ (forall a b, lt a b \/ a = b \/ lt b a).

(** an error except for the array index in it *)
Definition unindexed (x : jerror) : jerror :=
  {| e_kind := e_kind x; e_expected := e_expected x; e_actual := e_actual x; e_record := e_record x; e_member := e_member x; e_index := None |}.
(** the errors reported so far *)
Definition reported (st : pst) : list jerror := match p_err st with Some e => es_errs e | None => [] end.
(** no hash maps and no maps with other keys than strings; classes are from [C] *)
Fixpoint maps_ordered (C : N -> Prop) (t : ty) : Prop :=
  match t with
  | TSeq t | TUnique t | TOptional t | TShared t | TSet _ _ t => maps_ordered C t
  | TMap ord _ a b => ord = true /\ a = TString /\ maps_ordered C b
  | TPair a b => maps_ordered C a /\ maps_ordered C b
  | TTuple ts | TVariant ts => (fix all l := match l with [] => True | t :: l' => maps_ordered C t /\ all l' end) ts
  | TStruct c => C c
  | _ => True
  end.
(** the classes [C] have such members only, and there are no cycles of base classes *)
Definition classes_ordered (G : genv) (C : N -> Prop) : Prop :=
  forall c, C c -> exists L, members G rc_pull c L /\ forall fd, In fd L -> maps_ordered C (jf_ty fd).

(** two runs from the state [st] have the same result: the values [v] and [v'] are the same except that they refer to different new objects, which correspond to each other;
    the same errors have been reported, except for their order and the array indexes in them *)
Definition same_effect (st : pst) (v : val) (st1 : pst) (v' : val) (st1' : pst) : Prop :=
  (exists ro : renaming, one_to_one ro /\ (forall a, exists_at (p_heap st) a -> ro a a)
     /\ (forall a, exists_at (p_heap st1) a -> exists b, ro a b) /\ (forall b, exists_at (p_heap st1') b -> exists a, ro a b)
     /\ heaps_alike ro (p_heap st1) (p_heap st1') /\ alike ro v v')
  /\ (exists new new', reported st1 = reported st ++ new /\ reported st1' = reported st ++ new' /\ Permutation (map unindexed new) (map unindexed new')).
