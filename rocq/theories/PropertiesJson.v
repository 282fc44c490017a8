(** PropertiesJson.v -- the properties about JSON (de)serialisation on the level of documents
    (C22, C24..C37, C46..C48), see /verif/properties.jsonl.  Only statements; the vocabulary is in JsonSpec.v,
    JsonSafeSpec.v and (names of generated classes) JsonGen.v. *)
From Coq Require Import String List NArith ZArith Bool Permutation.
From Verif Require Import Base Types TypesFacts BinModel BinSpec BinSafeSpec ContFacts GenModel GenSem GenSpec Float JsonModel JsonErr JsonSpec JsonTop JsonTerm
  JsonSafeSpec JsonFacts JsonMembers JsonColl JsonScalar JsonGen JsonIssueSpec JsonIssues.
Import ListNotations.
Local Open Scope list_scope.
Local Open Scope nat_scope.

(** C22: pushing a proper value and pulling the document into a variable (for whatever is in the heap, with or without
    error list) gives the same value, reports nothing and leaves other objects alone *)
Theorem C22_round_trip : forall G J H ex t old v,
  alloc_ok G -> place_ok G -> jgood G J H ex t old v ->
  exists F j, forall fuel, F <= fuel ->
    push G J H fuel t v = ROk j
    /\ forall h er, exists v' h' er',
         pull G J fuel t old j {| p_heap := h; p_err := er |} = POk v' {| p_heap := h'; p_err := er' |}
         /\ jsame G H h h' t v v' /\ (ex = true -> v' = v) /\ hext h h' /\ quiet er er'.
Proof. exact json_round_trip. Qed.
Print Assumptions C22_round_trip.
(** C22: likewise toJsonDocument/fromJson *)
Theorem C22_fromJson_round_trip : forall G J H ex t v,
  alloc_ok G -> place_ok G -> jgood G J H ex t (dinit G t) v -> top_type t v ->
  exists F j, forall fuel, F <= fuel ->
    toJsonDocument G J H fuel t v = ROk j
    /\ forall h er, exists v' h' er',
         fromJson G J fuel t j {| p_heap := h; p_err := er |} = POk v' {| p_heap := h'; p_err := er' |}
         /\ jsame G H h h' t v v' /\ (ex = true -> v' = v) /\ hext h h' /\ quiet er er'.
Proof. exact fromJson_round_trip. Qed.
Print Assumptions C22_fromJson_round_trip.

(** C24: an error list which throws on nothing does not change the result, but turns undefined behaviour on duplicates
    into errors *)
Theorem C24_errors_do_not_matter : forall G J m h e, deserialisation G J m -> es_throw e = 0%N ->
  match m {| p_heap := h; p_err := Some e |} with
  | POk v st' => exists e' new, p_err st' = Some e' /\ es_errs e' = es_errs e ++ new
      /\ ((forall x, In x new -> e_kind x <> UnexpectedDuplicate) -> m {| p_heap := h; p_err := None |} = POk v {| p_heap := p_heap st'; p_err := None |})
      /\ ((exists x, In x new /\ e_kind x = UnexpectedDuplicate) -> m {| p_heap := h; p_err := None |} = PUB)
  | PThrow _ _ => False
  | PUB => m {| p_heap := h; p_err := None |} = PUB
  | PFuel => m {| p_heap := h; p_err := None |} = PFuel \/ m {| p_heap := h; p_err := None |} = PUB
  | PStuck => m {| p_heap := h; p_err := None |} = PStuck \/ m {| p_heap := h; p_err := None |} = PUB
  end.
Proof. exact errors_transparent. Qed.
Print Assumptions C24_errors_do_not_matter.

(** C25: mismatches *)
Theorem C25_mismatch : forall G J ud h t old j f st,
  pullable G (fun _ => True) false t -> variable_ok G ud h t old -> kind_checked t = true -> kind_fits t j = false ->
  pull G J (S f) t old j st = reports TypeMismatch (expected_type t) (type_of j) old st.
Proof. exact mismatch_reported. Qed.
Print Assumptions C25_mismatch.
Theorem C25_mismatch_fromJson : forall G J t j f st, top_kind t = true -> top_fits t j = false ->
  fromJson G J f t j st = reports TypeMismatch (expected_type t) (type_of j) (vinit G t) st.
Proof. exact fromJson_mismatch. Qed.
Print Assumptions C25_mismatch_fromJson.
(** C25: dates are an exception: the mismatch is reported, and then the empty string parsed *)
Theorem C25_dates : forall G J old j f st, (forall s, j <> JStr s) ->
  pull G J (S f) TDateTime old j st =
  match reports TypeMismatch JTString (type_of j) tt st with
  | POk _ st' => match je_dt_parse J [] with Some z => POk (VInt z) st' | None => reports ConversionError JTString JTString old st' end
  | PThrow x st' => PThrow x st' | PUB => PUB | PFuel => PFuel | PStuck => PStuck
  end
  /\ pull G J (S f) TTimeSpan old j st =
  match reports TypeMismatch JTString (type_of j) tt st with
  | POk _ st' => match je_ts_parse J [] with Some z => POk (VInt z) st' | None => reports ConversionError JTString JTString old st' end
  | PThrow x st' => PThrow x st' | PUB => PUB | PFuel => PFuel | PStuck => PStuck
  end.
Proof. intros; split; [apply date_not_string|apply span_not_string]; assumption. Qed.
Print Assumptions C25_dates.
Theorem C25_date_strings : forall G J old s f st,
  pull G J (S f) TDateTime old (JStr s) st =
    match je_dt_parse J (cstr s) with Some z => POk (VInt z) st | None => reports ConversionError JTString JTString old st end
  /\ pull G J (S f) TTimeSpan old (JStr s) st =
    match je_ts_parse J (cstr s) with Some z => POk (VInt z) st | None => reports ConversionError JTString JTString old st end.
Proof. intros; split; [apply date_string|apply span_string]. Qed.
Print Assumptions C25_date_strings.
(** C25: conforming documents are pulled without reporting anything *)
Theorem C25_conforming : forall G J ud t j, alloc_ok G -> place_ok G -> jenv_ok G ud (fun _ => True) false -> conv_ok J -> no_pull_cycle G ->
  pullable G (fun _ => True) false t -> json_wf j -> conforms G J t j ->
  exists F, forall fuel, F <= fuel -> forall h er old, heap_typed G ud h -> variable_ok G ud h t old ->
    exists v st', pull G J fuel t old j {| p_heap := h; p_err := er |} = POk v st' /\ quiet er (p_err st')
      /\ variable_ok G ud (p_heap st') t v.
Proof. exact conforming. Qed.
Print Assumptions C25_conforming.
(** C25: the errors which are added are exactly those the document causes (JsonIssueSpec.v), in this order and with record,
    member and index of the place they are caused at *)
Theorem C25_exact_errors : forall G J f t old j h e v st',
  pull G J f t old j {| p_heap := h; p_err := Some e |} = POk v st' ->
  exists e' errs, p_err st' = Some e' /\ issues G J t j (es_record e) (es_member e) (es_index e) errs (es_index e')
    /\ es_errs e' = es_errs e ++ errs /\ es_record e' = es_record e /\ es_member e' = es_member e.
Proof. exact pull_issues. Qed.
Print Assumptions C25_exact_errors.
Theorem C25_exact_errors_fromJson : forall G J f t j h e v st',
  fromJson G J f t j {| p_heap := h; p_err := Some e |} = POk v st' -> top_fits t j = true ->
  exists e' errs, p_err st' = Some e' /\ issues G J t j (es_record e) (es_member e) (es_index e) errs (es_index e')
    /\ es_errs e' = es_errs e ++ errs /\ es_record e' = es_record e /\ es_member e' = es_member e.
Proof. exact fromJson_issues. Qed.
Print Assumptions C25_exact_errors_fromJson.

(** C26: the error context is restored unless there is an exception; errors are only appended *)
Theorem C26_context_restored : forall G J m h er, deserialisation G J m ->
  (forall v st', m {| p_heap := h; p_err := er |} = POk v st' ->
    match er, p_err st' with
    | None, None => True
    | Some e, Some e' =>
        es_record e' = es_record e /\ es_member e' = es_member e /\ es_throw e' = es_throw e
        /\ (es_index e' = es_index e \/ es_index e' = None)
        /\ exists new, es_errs e' = es_errs e ++ new /\ (forall x, In x new -> fatal (es_throw e) x = false)
    | _, _ => False
    end)
  /\ (forall x st', m {| p_heap := h; p_err := er |} = PThrow x st' ->
       exists e e' new, er = Some e /\ p_err st' = Some e' /\ es_errs e' = es_errs e ++ new ++ [x]
         /\ fatal (es_throw e) x = true /\ (forall y, In y new -> fatal (es_throw e) y = false)).
Proof. exact context_restored. Qed.
Print Assumptions C26_context_restored.

(** C27: throwOn *)
Theorem C27_throw_on : forall G J m T h e, deserialisation G J m -> es_throw e = 0%N ->
  match m {| p_heap := h; p_err := Some e |} with
  | POk v st' => exists e' new, p_err st' = Some e' /\ es_errs e' = es_errs e ++ new
      /\ ((forall x, In x new -> fatal T x = false) ->
            m {| p_heap := h; p_err := Some (throwing_on T e) |} = POk v {| p_heap := p_heap st'; p_err := Some (throwing_on T e') |})
      /\ (forall pre x post, new = pre ++ x :: post -> (forall y, In y pre -> fatal T y = false) -> fatal T x = true ->
            exists h2 e2, m {| p_heap := h; p_err := Some (throwing_on T e) |} = PThrow x {| p_heap := h2; p_err := Some e2 |}
              /\ es_errs e2 = es_errs e ++ pre ++ [x])
  | PThrow _ _ => False
  | o => m {| p_heap := h; p_err := Some (throwing_on T e) |} = o
         \/ exists x h2 e2 new, m {| p_heap := h; p_err := Some (throwing_on T e) |} = PThrow x {| p_heap := h2; p_err := Some e2 |}
              /\ es_errs e2 = es_errs e ++ new ++ [x] /\ fatal T x = true /\ (forall y, In y new -> fatal T y = false)
  end.
Proof. exact throw_on. Qed.
Print Assumptions C27_throw_on.
(** C27: errors concerning variants are never fatal *)
Theorem C27_variants_never_throw : forall T e k x a, k = InvalidVariantObject \/ k = InvalidVariantIndex -> fatal T (error_in e k x a) = false.
Proof. exact variant_not_fatal. Qed.
Print Assumptions C27_variants_never_throw.

(** C28: only the first member with the name of each member variable matters *)
Theorem C28_only_first_matters : forall G J c L ms ms' f old st, members G rc_pull c L ->
  (forall fd, In fd L -> alookup bytes_eqb (jf_name fd) ms = alookup bytes_eqb (jf_name fd) ms') ->
  pull G J f (TStruct c) old (JObj ms) st = pull G J f (TStruct c) old (JObj ms') st.
Proof. exact struct_lookup. Qed.
Print Assumptions C28_only_first_matters.
(** C28: the order of distinct members is irrelevant *)
Theorem C28_order_irrelevant : forall G J c L ms ms' f old st, members G rc_pull c L -> Permutation ms ms' -> NoDup (map fst ms) ->
  pull G J f (TStruct c) old (JObj ms) st = pull G J f (TStruct c) old (JObj ms') st.
Proof. intros. eapply struct_lookup; [eassumption|]. intros. apply alookup_perm; assumption. Qed.
Print Assumptions C28_order_irrelevant.
(** C28: unknown members are ignored, wherever they are *)
Theorem C28_unknown_ignored : forall G J c L a n j b f old st, members G rc_pull c L -> ~ In n (map jf_name L) ->
  pull G J f (TStruct c) old (JObj (a ++ (n, j) :: b)) st = pull G J f (TStruct c) old (JObj (a ++ b)) st.
Proof.
  intros G J c L a n j b f old st HL Hn. eapply struct_lookup; [eassumption|]. intros fd Hfd. rewrite !alookup_app.
  destruct (alookup bytes_eqb (jf_name fd) a); [reflexivity|]. cbn [alookup].
  destruct (bytes_eqb (jf_name fd) n) eqn:E; [|reflexivity]. apply BaseFacts.bytes_eqb_eq in E. subst n. exfalso. apply Hn. apply in_map. exact Hfd.
Qed.
Print Assumptions C28_unknown_ignored.
(** C28: of members with the same name the first one is used *)
Theorem C28_first_duplicate : forall G J c L a n j b j' d f old st, members G rc_pull c L ->
  pull G J f (TStruct c) old (JObj (a ++ (n, j) :: b ++ (n, j') :: d)) st = pull G J f (TStruct c) old (JObj (a ++ (n, j) :: b ++ d)) st.
Proof.
  intros G J c L a n j b j' d f old st HL. eapply struct_lookup; [eassumption|]. intros fd Hfd. rewrite !alookup_app.
  destruct (alookup bytes_eqb (jf_name fd) a); [reflexivity|]. cbn [alookup]. rewrite !alookup_app. cbn [alookup].
  destruct (bytes_eqb (jf_name fd) n); reflexivity.
Qed.
Print Assumptions C28_first_duplicate.
(** C28: members which are missing keep their value; the others are pulled into their previous value (while the error
    context names the member and the class it is declared in) *)
Theorem C28_members_updated : forall G J c L ms f os st v st', members G rc_pull c L -> pull G J f (TStruct c) (VObj os) (JObj ms) st = POk v st' ->
  exists os', v = VObj os' /\ map fst os' = map fst os
  /\ (forall k, (forall fd, In fd L -> jf_key fd = k -> alookup bytes_eqb (jf_name fd) ms = None) -> alookup fkey_eqb k os' = alookup fkey_eqb k os)
  /\ (NoDup (map jf_key L) -> forall fd j, In fd L -> alookup bytes_eqb (jf_name fd) ms = Some j ->
        exists o x f st1 st2, alookup fkey_eqb (jf_key fd) os = Some o /\ alookup fkey_eqb (jf_key fd) os' = Some x
          /\ pull G J f (jf_ty fd) o j st1 = POk x st2 /\ member_context G c fd (p_err st1)).
Proof. exact struct_updated. Qed.
Print Assumptions C28_members_updated.

(** C29: sequences have exactly the items of the array, whatever they had before *)
Theorem C29_sequence : forall G J t old js f st v st', pull G J f (TSeq t) old (JArr js) st = POk v st' ->
  exists l, v = VList l /\ items_pulled G J t (vinit G t) js l.
Proof. exact seq_items. Qed.
Print Assumptions C29_sequence.
Theorem C29_previous_content_discarded : forall G J t old old' js f st,
  pull G J f (TSeq t) old (JArr js) st = pull G J f (TSeq t) old' (JArr js) st
  /\ forall ord multi, pull G J f (TSet ord multi t) old (JArr js) st = pull G J f (TSet ord multi t) old' (JArr js) st.
Proof. intros; split; [apply seq_old|intros; apply set_old]. Qed.
Print Assumptions C29_previous_content_discarded.
Theorem C29_multiset : forall G J ord t old js f st v st', place_ok G -> pull G J f (TSet ord true t) old (JArr js) st = POk v st' ->
  exists l xs, v = VList l /\ items_pulled G J t (dinit G t) js xs /\ Permutation xs l /\ (forall x, In x xs -> is_undef x = false)
    /\ (keys_ok G t -> cont_inv G false ord true t l).
Proof. exact multiset_items. Qed.
Print Assumptions C29_multiset.
(** C29: sets have the items without those equivalent to a previous one, each of which is reported *)
Theorem C29_set : forall G J ord t old js f st v st', place_ok G -> keys_ok G t -> pull G J f (TSet ord false t) old (JArr js) st = POk v st' ->
  exists l xs I, v = VList l /\ items_pulled G J t (dinit G t) js xs /\ set_run G ord t 0 [] xs l I
    /\ cont_inv G false ord false t l
    /\ ((forall j, In j js -> conforms G J t j) -> duplicates_reported (p_err st) (p_err st') I).
Proof. exact set_items. Qed.
Print Assumptions C29_set.

(** C30: maps: what is there for a key afterwards is what was there before, with all members of that name pulled into it *)
Theorem C30_map : forall G ord, place_ok G -> string_keys G ord -> forall J vt olds ms f st v st', map_shape olds -> NoDup (map_keys olds) ->
  pull G J f (TMap ord false TString vt) (VList olds) (JObj ms) st = POk v st' ->
  exists l, v = VList l /\ map_shape l /\ NoDup (map_keys l)
    /\ (forall s, pulled_into G J vt (map_get s olds) (members_named s ms) (map_get s l))
    /\ (keys_ok G TString -> cont_inv G true ord false TString olds -> cont_inv G true ord false TString l).
Proof. exact map_merged. Qed.
Print Assumptions C30_map.
(** C30: so its keys are the previous ones and the ones in the object *)
Theorem C30_map_keys : forall G ord, place_ok G -> string_keys G ord -> forall J vt olds ms f st v st', map_shape olds -> NoDup (map_keys olds) ->
  pull G J f (TMap ord false TString vt) (VList olds) (JObj ms) st = POk v st' ->
  exists l, v = VList l /\ forall s, In s (map_keys l) <-> In s (map_keys olds) \/ In s (map (fun m => cstr (fst m)) ms).
Proof. exact map_merged_keys. Qed.
Print Assumptions C30_map_keys.
Theorem C30_multimap : forall G J ord vt olds ms f st v st', place_ok G ->
  pull G J f (TMap ord true TString vt) (VList olds) (JObj ms) st = POk v st' ->
  exists l xs, v = VList l /\ Forall2 (entry_pulled G J vt) (multi_items ms) xs /\ Permutation (olds ++ xs) l
    /\ (keys_ok G TString -> cont_inv G true ord true TString olds -> cont_inv G true ord true TString l).
Proof. exact multimap_merged. Qed.
Print Assumptions C30_multimap.

(** C31: tuples and pairs *)
Theorem C31_wrong_size : forall G J f st js,
  (forall ts os, ts <> [] -> length js <> length ts ->
     pull G J (S f) (TTuple ts) (VList os) (JArr js) st = reports ArraySizeMismatch JTArray JTArray (VList os) st)
  /\ (forall ta tb oa ob, length js <> 2 ->
     pull G J (S f) (TPair ta tb) (VPair oa ob) (JArr js) st = reports ArraySizeMismatch JTArray JTArray (VPair oa ob) st).
Proof. intros; split; intros; [apply tuple_wrong_size|apply pair_wrong_size]; assumption. Qed.
Print Assumptions C31_wrong_size.
(** C31: with the right size each element is pulled from the item at the same position; undefined behaviour can only come
    from an element's own pull, so nothing beyond the array is accessed *)
Theorem C31_tuple : forall G J ts os js f st, ts <> [] -> length os = length ts -> length js = length ts ->
  match pull G J (S f) (TTuple ts) (VList os) (JArr js) st with
  | POk v _ => exists l, v = VList l /\ length l = length ts /\ forall i t o j x, nth_error ts i = Some t -> nth_error os i = Some o -> nth_error js i = Some j -> nth_error l i = Some x ->
       exists st1 st2, pull G J f t o j st1 = POk x st2
  | PUB => exists i t o j st1, nth_error ts i = Some t /\ nth_error os i = Some o /\ nth_error js i = Some j /\ pull G J f t o j st1 = PUB
  | _ => True
  end.
Proof. exact tuple_items. Qed.
Print Assumptions C31_tuple.
Theorem C31_pair : forall G J ta tb oa ob ja jb f st,
  match pull G J (S f) (TPair ta tb) (VPair oa ob) (JArr [ja; jb]) st with
  | POk v _ => exists a b st1 st2 st3 st4, v = VPair a b /\ pull G J f ta oa ja st1 = POk a st2 /\ pull G J f tb ob jb st3 = POk b st4
  | PUB => exists st1, pull G J f ta oa ja st1 = PUB \/ pull G J f tb ob jb st1 = PUB
  | _ => True
  end.
Proof. exact pair_items. Qed.
Print Assumptions C31_pair.

(** C32: variants *)
Theorem C32_pushed : forall G J H ts i x f j, push G J H (S f) (TVariant ts) (VVar i x) = ROk j ->
  exists t d, nth_error ts i = Some t
    /\ j = JObj [(list_byte_of_string "index", JInt (Z.of_nat i)); (list_byte_of_string "data", d)]
    /\ (t = TMono -> d = JNull) /\ (t <> TMono -> push G J H f t x = ROk d).
Proof. exact variant_pushed. Qed.
Print Assumptions C32_pushed.
Theorem C32_pulled : forall G J ts old ms f st z jd t,
  alookup bytes_eqb (list_byte_of_string "index") ms = Some (JInt z) -> alookup bytes_eqb (list_byte_of_string "data") ms = Some jd ->
  (0 <= z < 2 ^ 64)%Z -> nth_error ts (Z.to_nat z) = Some t ->
    (t = TMono -> pull G J (S f) (TVariant ts) old (JObj ms) st = POk (VVar (Z.to_nat z) VMono) st)
    /\ (t <> TMono -> pull G J (S f) (TVariant ts) old (JObj ms) st =
          match pull G J f t (vinit G t) jd st with
          | POk x st' => POk (VVar (Z.to_nat z) x) st'
          | PThrow e st' => PThrow e st' | PUB => PUB | PFuel => PFuel | PStuck => PStuck
          end).
Proof. exact variant_ok. Qed.
Print Assumptions C32_pulled.
Theorem C32_invalid_object : forall G J ts old ms f st,
  alookup bytes_eqb (list_byte_of_string "index") ms = None \/ alookup bytes_eqb (list_byte_of_string "data") ms = None ->
  pull G J (S f) (TVariant ts) old (JObj ms) st = reports InvalidVariantObject JTObject JTObject old st.
Proof. exact variant_lacking. Qed.
Print Assumptions C32_invalid_object.
Theorem C32_invalid_index : forall G J ts old ms f st ji jd,
  alookup bytes_eqb (list_byte_of_string "index") ms = Some ji -> alookup bytes_eqb (list_byte_of_string "data") ms = Some jd ->
  (forall z, ji = JInt z -> in_range KU64 z = false \/ (Z.of_nat (length ts) <= z)%Z) ->
  pull G J (S f) (TVariant ts) old (JObj ms) st = reports InvalidVariantIndex JTNumber (type_of ji) old st.
Proof.
  intros G J ts old ms f st ji jd E1 E2 Hz.
  assert (C: (forall z, ji = JInt z -> in_range KU64 z = false) \/ exists z, ji = JInt z /\ (Z.of_nat (length ts) <= z)%Z).
  { destruct ji; try (left; discriminate). destruct (Hz z eq_refl) as [Q|Q]; [left; intros z' E; inversion E; subst; exact Q|right; eauto]. }
  destruct C as [C|(z & -> & C)]; [eapply variant_no_index; eauto|eapply variant_index_too_big; eauto].
Qed.
Print Assumptions C32_invalid_index.

(** C33: null *)
Theorem C33_null_resets : forall G J t old f st,
  pull G J (S f) (TOptional t) old JNull st = POk (VOpt None) st
  /\ pull G J (S f) (TUnique t) old JNull st = POk (VOpt None) st
  /\ pull G J (S f) (TShared t) old JNull st = POk (VShared None) st.
Proof. exact null_resets. Qed.
Print Assumptions C33_null_resets.
Theorem C33_empty_is_null : forall G J H t f,
  push G J H (S f) (TOptional t) (VOpt None) = ROk JNull
  /\ push G J H (S f) (TUnique t) (VOpt None) = ROk JNull
  /\ push G J H (S f) (TShared t) (VShared None) = ROk JNull.
Proof. exact empty_is_null. Qed.
Print Assumptions C33_empty_is_null.
Theorem C33_others_engage : forall G J t j old f st v st', j <> JNull ->
  (pull G J (S f) (TOptional t) old j st = POk v st' -> exists x, v = VOpt (Some x) /\ pull G J f t (vinit G t) j st = POk x st')
  /\ (pull G J (S f) (TUnique t) old j st = POk v st' -> exists x, v = VOpt (Some x) /\ pull G J f t (vinit G t) j st = POk x st')
  /\ (alloc_ok G -> pull G J (S f) (TShared t) old j st = POk v st' -> exists a x,
        v = VShared (Some a) /\ hget (p_heap st) a = None /\ hget (p_heap st') a = Some (t, x)
        /\ exists h, pull G J f t (vinit G t) j {| p_heap := hset (p_heap st) a (t, vinit G t); p_err := p_err st |} = POk x {| p_heap := h; p_err := p_err st' |}
             /\ p_heap st' = hset h a (t, x)).
Proof. exact nonnull_engages. Qed.
Print Assumptions C33_others_engage.

(** C34: numbers *)
Theorem C34_integer : forall G J k z old f st, json_kind k = true -> json_wf (JInt z) ->
  pull G J (S f) (TInt k) old (JInt z) st = if in_range k z then POk (VInt z) st else PUB.
Proof. intros. destruct (in_range k z) eqn:E; [apply int_exact|apply int_out_of_range]; assumption. Qed.
Print Assumptions C34_integer.
Theorem C34_integer_from_double : forall G J k n old f st, json_kind k = true ->
  pull G J (S f) (TInt k) old (JDbl n) st = match f64_trunc n with Some z => if in_range k z then POk (VInt z) st else PUB | None => PUB end.
Proof. exact int_from_double. Qed.
Print Assumptions C34_integer_from_double.
Theorem C34_bytes_and_enums_wrap : forall G J k z old f st,
  (byte_kind k = true -> json_wf (JInt z) ->
     pull G J (S f) (TInt k) old (JInt z) st = if in_range KI32 z then POk (VInt (wrap k z)) st else PUB)
  /\ (in_range (if ksigned k then KI64 else KU64) z = true -> pull G J (S f) (TEnum k) old (JInt z) st = POk (VInt (wrap k z)) st)
  /\ in_range k (wrap k z) = true /\ exists q, (wrap k z = z + q * 2 ^ (8 * Z.of_nat (ksize k)))%Z.
Proof. intros. split; [intros; apply byte_wraps; assumption|]. split; [apply enum_wraps|]. apply wrap_congruent. Qed.
Print Assumptions C34_bytes_and_enums_wrap.
Theorem C34_pushed_exactly : forall G J H k z f, (json_kind k || byte_kind k) = true -> push G J H (S f) (TInt k) (VInt z) = ROk (JInt z).
Proof. exact int_pushed. Qed.
Print Assumptions C34_pushed_exactly.
Theorem C34_doubles : forall G J old f st,
  (forall n, pull G J (S f) TF64 old (JDbl n) st = POk (VF64 n) st)
  /\ (forall z, (Z.abs z < 2 ^ 53)%Z -> exists n, pull G J (S f) TF64 old (JInt z) st = POk (VF64 n) st /\ f64_trunc n = Some z).
Proof. intros; split; intros; [apply double_pulled|apply double_of_int; assumption]. Qed.
Print Assumptions C34_doubles.
(** C34: fromJson<float> accepts exactly the doubles which are not beyond 3.4028234e38, i.e. its nearest double (2^52 + m) * 2^e (which is less than the largest float) *)
Theorem C34_float_range : exists b m e : N,
  b = ((1075 + e) * 2 ^ 52 + m)%N /\ (m < 2 ^ 52)%N
  /\ (2 * Z.abs (Z.of_N ((2 ^ 52 + m) * 2 ^ e)%N - 34028234 * 10 ^ 31) < 2 ^ Z.of_N e)%Z
  /\ forall G J f n st, fromJson G J f TF32 (JDbl n) st = if (n mod 2 ^ 63 <=? b)%N then POk (VF32 (f32_of_f64 n)) st else mismatch TF32 (JDbl n) (VF32 0) st.
Proof.
  exists 5183643170390849588%N, (5183643170390849588 mod 2 ^ 52)%N, (5183643170390849588 / 2 ^ 52 - 1075)%N. split; [vm_compute; reflexivity|]. split; [vm_compute; reflexivity|]. split; [vm_compute; reflexivity|].
  intros G J f n st. unfold fromJson, is_float. destruct (n mod 2 ^ 63 <=? 5183643170390849588)%N; reflexivity.
Qed.
Print Assumptions C34_float_range.

(** C35: the type which is expected (C25_mismatch) is the type which is pushed, with exceptions *)
Theorem C35_expected_type : forall G J H t v f j, push G J H f t v = ROk j -> nonnull v -> v <> VValueless ->
  kind_checked t = true \/ t = TDateTime \/ t = TTimeSpan ->
  type_of j = match t with TPair _ _ | TTuple _ => JTArray | TMap _ true _ _ => JTObject | _ => expected_type t end.
Proof. exact pushed_type. Qed.
Print Assumptions C35_expected_type.
Theorem C35_exceptions_refuted : forall a b ts o vt,
  expected_type (TPair a b) = JTObject /\ expected_type (TTuple ts) = JTObject /\ expected_type (TMap o true TString vt) = JTArray.
Proof. intros. auto. Qed.
Print Assumptions C35_exceptions_refuted.

(** C36: strings *)
Theorem C36_pushed_completely : forall G J H s f, (N.of_nat (length s) <= size_max)%N -> push G J H (S f) TString (VStr s) = ROk (JStr s).
Proof. exact string_pushed. Qed.
Print Assumptions C36_pushed_completely.
Theorem C36_pulled_up_to_nul : forall G J s old f st, exists s',
  pull G J (S f) TString old (JStr s) st = POk (VStr s') st /\ fromJson G J f TString (JStr s) st = POk (VStr s') st
  /\ nul_free s' /\ ((nul_free s /\ s' = s) \/ exists rest, s = s' ++ Byte.x00 :: rest).
Proof. intros. exists (cstr s). split; [apply string_pulled|]. split; [apply string_fromJson|]. apply cstr_spec. Qed.
Print Assumptions C36_pulled_up_to_nul.
Theorem C36_map_keys : forall G J H ord vt l f j, push G J H f (TMap ord false TString vt) (VList l) = ROk j ->
  exists ms, j = JObj ms /\ Forall2 (fun x m => exists k v f', x = VPair (VStr k) v /\ fst m = cstr k /\ push G J H f' vt v = ROk (snd m)) l ms.
Proof. exact map_pushed. Qed.
Print Assumptions C36_map_keys.

(** C37: the members which are pushed for an object, in order *)
Theorem C37_members_pushed : forall G J H c L f fs j, members G pushed_by c L -> push G J H f (TStruct c) (VObj fs) = ROk j ->
  exists ms, j = JObj ms /\ map fst ms = map jf_name L
    /\ Forall2 (fun fd m => fst m = jf_name fd /\ exists f v, alookup fkey_eqb (jf_key fd) fs = Some v /\ push G J H f (jf_ty fd) v = ROk (snd m)) L ms.
Proof. exact struct_pushed. Qed.
Print Assumptions C37_members_pushed.
(** C37: for classes with generated code: the accessible member variables in declaration order, those of bases first *)
Theorem C37_generated_names : forall o ds G k, one_definition ds -> wf_bases ds ->
  (forall k, In k (relevant_classes o ds) -> exists rc, g_class G (cr_id (k_rec k)) = Some rc /\ generated_json o ds k rc) ->
  In k (relevant_classes o ds) ->
  exists L, members G pushed_by (cr_id (k_rec k)) L /\ all_names o ds k (map jf_name L).
Proof. exact generated_names. Qed.
Print Assumptions C37_generated_names.
(** C37: names of a hierarchy with at most two levels are distinct iff no two classes have a member of the same name *)
Theorem C37_unique_names : forall o ds k Ns, all_names o ds k Ns ->
  let bases := find_bases ds (relevant_classes o ds) k in
  (forall b, In b bases -> find_bases ds (relevant_classes o ds) b = []) -> NoDup bases -> ~ In k bases ->
  (forall b own, b = k \/ In b bases -> own_names (befriends (k_rec b) fn_push) (cr_decls (k_rec b)) own -> NoDup own) ->
  (NoDup Ns <-> forall b b' n, b = k \/ In b bases -> b' = k \/ In b' bases -> has_member b n -> has_member b' n -> b = b').
Proof. exact two_levels. Qed.
Print Assumptions C37_unique_names.
(** C37: with three levels the members of the topmost class occur twice *)
Theorem C37_three_levels_refuted : forall o ds k p g Ns n, all_names o ds k Ns -> one_definition ds -> wf_bases ds ->
  In p (find_bases ds (relevant_classes o ds) k) -> In g (find_bases ds (relevant_classes o ds) p) -> has_member g n -> ~ NoDup Ns.
Proof. exact three_levels. Qed.
Print Assumptions C37_three_levels_refuted.
(** C37: executing the generated functions is what the class programs do *)
Theorem C37_push_is_class_program : forall o ds G J resolve,
  (forall k, In k (relevant_classes o ds) -> resolve (qname k) = Some (cr_id (k_rec k))) ->
  forall H f k rc fs ms, g_class G (cr_id (k_rec k)) = Some rc -> generated_json o ds k rc ->
  run_push G J H f resolve (cr_id (k_rec k)) fs (push_lines (find_bases ds (relevant_classes o ds) k) k) ms
  = push_cls G J H (S f) (cr_id (k_rec k)) fs ms.
Proof. exact run_push_is_model. Qed.
Print Assumptions C37_push_is_class_program.
Theorem C37_pull_is_class_program : forall o ds G J resolve,
  (forall k, In k (relevant_classes o ds) -> resolve (qname k) = Some (cr_id (k_rec k))) ->
  forall f k rc os ms st, g_class G (cr_id (k_rec k)) = Some rc -> generated_json o ds k rc -> cr_defctor (k_rec k) = true ->
  run_pull G J f resolve (cr_id (k_rec k)) ms (pull_lines (find_bases ds (relevant_classes o ds) k) k) None os st
  = pull_cls G J (S f) (cr_id (k_rec k)) os ms st.
Proof. exact run_pull_is_model. Qed.
Print Assumptions C37_pull_is_class_program.
(** C37: what is pulled is pushed as well *)
Theorem C37_pulled_is_pushed : forall o ds G k, one_definition ds -> wf_bases ds ->
  (forall k, In k (relevant_classes o ds) -> exists rc, g_class G (cr_id (k_rec k)) = Some rc /\ generated_json o ds k rc) ->
  In k (relevant_classes o ds) ->
  (forall b, b = k \/ In b (find_bases ds (relevant_classes o ds) k) ->
     cr_defctor (k_rec b) = true /\ (befriends (k_rec b) fn_pull = true -> befriends (k_rec b) fn_push = true)) ->
  exists Lp Lq, members G pushed_by (cr_id (k_rec k)) Lp /\ members G rc_pull (cr_id (k_rec k)) Lq /\ incl Lq Lp.
Proof. exact generated_pull_members. Qed.
Print Assumptions C37_pulled_is_pushed.

(** C46: multimaps *)
Theorem C46_grouped : forall G J H ord vt l f j, map_shape l -> (forall k, In k (map_keys l) -> json_string k) ->
  push G J H f (TMap ord true TString vt) (VList l) = ROk j ->
  exists ms, j = JObj ms /\ map fst ms = firsts (map_keys l)
    /\ forall k x, In (k, x) ms -> exists js, x = JArr js /\ Forall2 (fun v y => exists f', push G J H f' vt v = ROk y) (values_for k l) js.
Proof. exact multimap_pushed. Qed.
Print Assumptions C46_grouped.
Theorem C46_distinct_keys : forall ks, NoDup (firsts ks) /\ forall k, In k (firsts ks) <-> In k ks.
Proof. intros; split; [apply firsts_nodup|apply firsts_in]. Qed.
Print Assumptions C46_distinct_keys.
(** C46: pulling restores the multimap *)
Theorem C46_restored : forall G J H ord vt l,
  alloc_ok G -> place_ok G -> jgood G J H false (TMap ord true TString vt) (VList []) (VList l) ->
  exists F j, forall fuel, F <= fuel ->
    push G J H fuel (TMap ord true TString vt) (VList l) = ROk j
    /\ forall h er, exists l' h' er',
         pull G J fuel (TMap ord true TString vt) (VList []) j {| p_heap := h; p_err := er |} = POk (VList l') {| p_heap := h'; p_err := er' |}
         /\ jsame G H h h' (TMap ord true TString vt) (VList l) (VList l').
Proof.
  intros G J H ord vt l HA HP HG. destruct (json_round_trip _ _ _ _ _ _ _ HA HP HG) as (F & j & Q). exists F, j. intros fuel Hf.
  destruct (Q fuel Hf) as [E1 E2]. split; [exact E1|]. intros h er. destruct (E2 h er) as (v' & h' & er' & E & S & _).
  assert (V: exists l', v' = VList l') by (inversion S; subst; eauto). destruct V as [l' ->]. exists l', h', er'. auto.
Qed.
Print Assumptions C46_restored.

(** C47: deserialising terminates: there is a number of steps which is sufficient for any variable and any state *)
Theorem C47_terminates : forall G J, no_pull_cycle G -> forall t j, exists F, forall fuel, F <= fuel ->
  forall old st, pull G J fuel t old j st <> PFuel /\ pull G J fuel t old j st = pull G J F t old j st.
Proof. exact pull_terminates. Qed.
Print Assumptions C47_terminates.

(** C48: whatever the document, the variable and all objects owned by shared pointers stay values of their types *)
Theorem C48_type_safe : forall G J ud, alloc_ok G -> place_ok G -> jenv_ok G ud (fun _ => True) false -> conv_ok J ->
  forall t j old fuel st,
    pullable G (fun _ => True) false t -> json_wf j ->
    heap_typed G ud (p_heap st) -> variable_ok G ud (p_heap st) t old ->
    match pull G J fuel t old j st with
    | POk v st' => (has_type G ud (p_heap st') t v \/ (v = VUndef /\ old = VUndef /\ raw t = true))
                   /\ heap_typed G ud (p_heap st') /\ hext (p_heap st) (p_heap st')
    | PThrow _ st' => heap_typed G ud (p_heap st') /\ hext (p_heap st) (p_heap st')
    | PUB | PFuel => True
    | PStuck => False
    end.
Proof. exact pull_type_safe. Qed.
Print Assumptions C48_type_safe.
(** C48: undefined behaviour needs a number which does not fit, a missing error list or a set of scalars *)
Theorem C48_no_undefined_behaviour : forall G J ud K, alloc_ok G -> place_ok G -> jenv_ok G ud K true -> conv_ok J ->
  forall t j old fuel st,
    pullable G K true t -> json_wf j -> numbers_fit K j -> p_err st <> None ->
    heap_typed G ud (p_heap st) -> variable_ok G ud (p_heap st) t old ->
    pull G J fuel t old j st <> PUB.
Proof. exact pull_no_ub. Qed.
Print Assumptions C48_no_undefined_behaviour.
