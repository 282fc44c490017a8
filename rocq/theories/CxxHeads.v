(** CxxHeads.v -- the heads of generated functions, and whole files *)
From Coq Require Import String List NArith ZArith Bool Lia.
From Verif Require Import Base BaseFacts Types GenModel GenSem GenSpec GenFacts GenMarkers GenSelect GenText JsonModel CxxText CxxFacts CxxLines CxxRun.
Import ListNotations.
Local Open Scope list_scope.
Local Open Scope N_scope.

Definition head_of (s : bytes) (k : fkind) (q : bytes) : Prop := exists h, opens s h /\ function_head h = Some (k, q).

Definition vtoks (v : bytes) : list token := match v with [] => [] | _ => [Id v] end.
Definition first_ok (ts : list token) : Prop := match ts with Key _ :: _ | Id _ :: Id _ :: Punct _ :: _ => True | _ => False end.
Lemma head_signature v ts k q : first_ok ts -> signature ts = Some (k, q) -> function_head (T "template <> " ++ vtoks v ++ ts) = Some (k, q).
Proof.
  intros F Sg. unfold function_head. change (pat "template <> %") with (T "template <> " ++ [hany]). rewrite fits_pre by reflexivity. rewrite fits_any_end.
  destruct v as [|b v]; cbn [vtoks app].
  - destruct ts as [|[a|a|a|a|a] ts]; try destruct F; [exact Sg|]. destruct ts as [|[a'|a'|a'|a'|a'] ts]; try destruct F. destruct ts as [|[a''|a''|a''|a''|a''] ts]; try destruct F. exact Sg.
  - destruct ts as [|[a|a|a|a|a] ts]; try destruct F; [exact Sg|]. destruct ts as [|[a'|a'|a'|a'|a'] ts]; try destruct F. exact Sg.
Qed.


Lemma vis_toks v s : v = [] \/ identifier v -> sep s -> lex_text PNone (v ++ s) = prepend (vtoks v) (lex_text PNone s).
Proof.
  intros [-> | H] Sp; [symmetry; apply prepend_nil|]. rewrite lex_name by assumption. destruct v; [destruct H as [[] _]|reflexivity].
Qed.

Section Heads.
  Variables (v q : bytes).
  Hypothesis (HV : v = [] \/ identifier v) (HQ : qualified_name q).

  Lemma write_head : head_of (bs "template <> " ++ v ++ bs " void writeCustomType<::" ++ q ++ bs ">(BinarySerializer &serializer, const ::" ++ q
     ++ bs " &customObject, BinaryVersion version)" ++ nl ++ bs "{" ++ nl) FWrite q.
  Proof.
    destruct HQ as (l & NE & F & ->).
    exists (T "template <> " ++ vtoks v ++ (T " void writeCustomType<::" ++ qtoks l ++ T ">(BinarySerializer &serializer, const ::" ++ qtoks l ++ T " &customObject, BinaryVersion version)")).
    split.
    - apply opens_head.
      + intros r. rewrite <- !app_assoc. rewrite (lex_fix (bs "template <> ") (T "template <> ")) by (vm_compute; reflexivity).
        rewrite vis_toks by (first [assumption|reflexivity]). repeat lexstep. rewrite !prepend_app. rewrite <- !app_assoc. reflexivity.
      + repeat (apply Forall_app; split); try apply inert_qtoks; try (apply inertb_ok; reflexivity). destruct v; repeat constructor.
    - apply head_signature; [exact I|]. unfold signature. erewrite choose_hit.
      2: { change (pat "void writeCustomType<::@>(BinarySerializer &serializer, const ::@ &customObject, BinaryVersion version)")
             with (T " void writeCustomType<::" ++ hqual :: T ">(BinarySerializer &serializer, const ::" ++ hqual :: T " &customObject, BinaryVersion version)"). fitall. }
      cbn [same_class]. rewrite tokens_eqb_refl, spell_qtoks. reflexivity.
  Qed.
  Lemma read_head : head_of (bs "template <> " ++ v ++ bs " BinaryVersion readCustomType<::" ++ q ++ bs ">(BinaryDeserializer &deserializer, ::" ++ q
     ++ bs " &customObject, BinaryVersion version)" ++ nl ++ bs "{" ++ nl) FRead q.
  Proof.
    destruct HQ as (l & NE & F & ->).
    exists (T "template <> " ++ vtoks v ++ (T " BinaryVersion readCustomType<::" ++ qtoks l ++ T ">(BinaryDeserializer &deserializer, ::" ++ qtoks l ++ T " &customObject, BinaryVersion version)")).
    split.
    - apply opens_head.
      + intros r. rewrite <- !app_assoc. rewrite (lex_fix (bs "template <> ") (T "template <> ")) by (vm_compute; reflexivity).
        rewrite vis_toks by (first [assumption|reflexivity]). repeat lexstep. rewrite !prepend_app. rewrite <- !app_assoc. reflexivity.
      + repeat (apply Forall_app; split); try apply inert_qtoks; try (apply inertb_ok; reflexivity). destruct v; repeat constructor.
    - apply head_signature; [exact I|]. unfold signature. misses. erewrite choose_hit.
      2: { change (pat "BinaryVersion readCustomType<::@>(BinaryDeserializer &deserializer, ::@ &customObject, BinaryVersion version)")
             with (T " BinaryVersion readCustomType<::" ++ hqual :: T ">(BinaryDeserializer &deserializer, ::" ++ hqual :: T " &customObject, BinaryVersion version)"). fitall. }
      cbn [same_class]. rewrite tokens_eqb_refl, spell_qtoks. reflexivity.
  Qed.
  Lemma push_head : head_of (bs "template <> " ++ v ++ bs " void push<::" ++ q ++ bs ">(const ::" ++ q
     ++ bs " &reflectable, ::RAPIDJSON_NAMESPACE::Value::Object &value, ::RAPIDJSON_NAMESPACE::Document::AllocatorType &allocator)" ++ nl ++ bs "{" ++ nl) FPush q.
  Proof.
    destruct HQ as (l & NE & F & ->).
    exists (T "template <> " ++ vtoks v ++ (T " void push<::" ++ qtoks l ++ T ">(const ::" ++ qtoks l
       ++ T " &reflectable, ::RAPIDJSON_NAMESPACE::Value::Object &value, ::RAPIDJSON_NAMESPACE::Document::AllocatorType &allocator)")).
    split.
    - apply opens_head.
      + intros r. rewrite <- !app_assoc. rewrite (lex_fix (bs "template <> ") (T "template <> ")) by (vm_compute; reflexivity).
        rewrite vis_toks by (first [assumption|reflexivity]). repeat lexstep. rewrite !prepend_app. rewrite <- !app_assoc. reflexivity.
      + repeat (apply Forall_app; split); try apply inert_qtoks; try (apply inertb_ok; reflexivity). destruct v; repeat constructor.
    - apply head_signature; [exact I|]. unfold signature. misses. erewrite choose_hit.
      2: { change (pat "void push<::@>(const ::@ &reflectable, ::RAPIDJSON_NAMESPACE::Value::Object &value, ::RAPIDJSON_NAMESPACE::Document::AllocatorType &allocator)")
             with (T " void push<::" ++ hqual :: T ">(const ::" ++ hqual ::
               T " &reflectable, ::RAPIDJSON_NAMESPACE::Value::Object &value, ::RAPIDJSON_NAMESPACE::Document::AllocatorType &allocator)"). fitall. }
      cbn [same_class]. rewrite tokens_eqb_refl, spell_qtoks. reflexivity.
  Qed.
  Lemma pull_head : head_of (bs "template <> " ++ v ++ bs " void pull<::" ++ q ++ bs ">(::" ++ q
     ++ bs " &reflectable, const ::RAPIDJSON_NAMESPACE::GenericValue<::RAPIDJSON_NAMESPACE::UTF8<char>>::ConstObject &value, JsonDeserializationErrors *errors)" ++ nl ++ bs "{" ++ nl) FPull q.
  Proof.
    destruct HQ as (l & NE & F & ->).
    exists (T "template <> " ++ vtoks v ++ (T " void pull<::" ++ qtoks l ++ T ">(::" ++ qtoks l
       ++ T " &reflectable, const ::RAPIDJSON_NAMESPACE::GenericValue<::RAPIDJSON_NAMESPACE::UTF8<char>>::ConstObject &value, JsonDeserializationErrors *errors)")).
    split.
    - apply opens_head.
      + intros r. rewrite <- !app_assoc. rewrite (lex_fix (bs "template <> ") (T "template <> ")) by (vm_compute; reflexivity).
        rewrite vis_toks by (first [assumption|reflexivity]). repeat lexstep. rewrite !prepend_app. rewrite <- !app_assoc. reflexivity.
      + repeat (apply Forall_app; split); try apply inert_qtoks; try (apply inertb_ok; reflexivity). destruct v; repeat constructor.
    - apply head_signature; [exact I|]. unfold signature. misses. erewrite choose_hit.
      2: { change (pat "void pull<::@>(::@ &reflectable, const ::RAPIDJSON_NAMESPACE::GenericValue<::RAPIDJSON_NAMESPACE::UTF8<char>>::ConstObject &value, JsonDeserializationErrors *errors)")
             with (T " void pull<::" ++ hqual :: T ">(::" ++ hqual ::
               T " &reflectable, const ::RAPIDJSON_NAMESPACE::GenericValue<::RAPIDJSON_NAMESPACE::UTF8<char>>::ConstObject &value, JsonDeserializationErrors *errors)"). fitall. }
      cbn [same_class]. rewrite tokens_eqb_refl, spell_qtoks. reflexivity.
  Qed.
End Heads.

(* ------------------------------------------------------------------ *)
(** * Functions, classes, files *)

Definition defines (s : bytes) (fs : list func) : Prop := exists ns, chunk s ns /\ functions ns = Some fs.
Lemma defines_nil : defines [] []. Proof. exists []. split; [apply chunk_nil|reflexivity]. Qed.
Lemma functions_app a : forall b fa fb, functions a = Some fa -> functions b = Some fb -> functions (a ++ b) = Some (fa ++ fb).
Proof.
  induction a as [|n a IH]; intros b fa fb HA HB; cbn [functions app] in *; [inversion HA; exact HB|].
  destruct (function n) as [f|]; [|discriminate]. destruct (functions a) as [fs|]; [|discriminate]. inversion HA; subst. rewrite (IH b fs fb eq_refl HB). reflexivity.
Qed.
Lemma defines_app a b fa fb : defines a fa -> defines b fb -> defines (a ++ b) (fa ++ fb).
Proof. intros (na & CA & FA) (nb & CB & FB). exists (na ++ nb). split; [apply chunk_app; assumption|apply functions_app; assumption]. Qed.
Lemma defines_concat {A} (text : A -> bytes) (fs : A -> list func) l : (forall x, In x l -> defines (text x) (fs x)) -> defines (concat (map text l)) (flat_map fs l).
Proof.
  induction l as [|x l IH]; intros H; cbn [map concat flat_map]; [apply defines_nil|].
  apply defines_app; [apply H; left; reflexivity|apply IH; intros; apply H; right; assumption].
Qed.
Lemma defines_silent a s fs : chunk a [] -> defines s fs -> defines (a ++ s) fs.
Proof. intros C (ns & CS & F). exists ns. split; [apply (chunk_app a s []); assumption|exact F]. Qed.
Lemma defines_function hs k q text body c : head_of hs k q -> chunk text body -> closes c -> defines (hs ++ text ++ c) [{| f_kind := k; f_class := q; f_body := body |}].
Proof.
  intros (h & O & FH) C CL. exists [Block h body]. split; [apply chunk_block; assumption|]. cbn [functions function]. rewrite FH. reflexivity.
Qed.

Lemma class_comment q : qualified_name q -> chunk (bs "// define code for (de)serializing " ++ q ++ bs " objects" ++ nl) [].
Proof.
  intros H. apply chunk_silent. replace (q ++ bs " objects" ++ nl) with ((q ++ bs " objects") ++ nl) by (rewrite <- app_assoc; reflexivity).
  apply lexed_note; [reflexivity|]. apply string_no_newline. rewrite forallb_app, qualified_plain by exact H. reflexivity.
Qed.
Lemma closes1 : closes (bs "}" ++ nl). Proof. apply closes_brace, lexed_const. reflexivity. Qed.
Lemma closes2 : closes (bs "}" ++ nl ++ nl). Proof. apply closes_brace, lexed_const. reflexivity. Qed.

Definition binary_functions (k : rclass) (w r : list node) : list func :=
  {| f_kind := FWrite; f_class := qname k; f_body := w |}
  :: if cr_defctor (k_rec k) then [{| f_kind := FRead; f_class := qname k; f_body := r |}] else [].
Definition json_functions (k : rclass) (w r : list node) : list func :=
  {| f_kind := FPush; f_class := qname k; f_body := w |}
  :: if cr_defctor (k_rec k) then [{| f_kind := FPull; f_class := qname k; f_body := r |}] else [].

Lemma binary_class_defines o rbs k w r : (o_visibility o = [] \/ identifier (o_visibility o)) -> qualified_name (qname k) ->
  chunk (concat (map wtext (writer_lines rbs k))) w -> chunk (concat (map (rtext (qname k)) (reader_lines rbs k))) r ->
  defines (binary_class_text o rbs k) (binary_functions k w r).
Proof.
  intros HV HQ CW CR. unfold binary_class_text, binary_functions.
  match goal with |- defines ?t _ => replace t with
    ((bs "// define code for (de)serializing " ++ qname k ++ bs " objects" ++ nl)
     ++ ((bs "template <> " ++ o_visibility o ++ bs " void writeCustomType<::" ++ qname k ++ bs ">(BinarySerializer &serializer, const ::" ++ qname k
          ++ bs " &customObject, BinaryVersion version)" ++ nl ++ bs "{" ++ nl) ++ concat (map wtext (writer_lines rbs k)) ++ (bs "}" ++ nl))
     ++ (if cr_defctor (k_rec k) then ((bs "template <> " ++ o_visibility o ++ bs " BinaryVersion readCustomType<::" ++ qname k ++ bs ">(BinaryDeserializer &deserializer, ::" ++ qname k
          ++ bs " &customObject, BinaryVersion version)" ++ nl ++ bs "{" ++ nl) ++ concat (map (rtext (qname k)) (reader_lines rbs k)) ++ (bs "}" ++ nl ++ nl)) else []))
    by (destruct (cr_defctor (k_rec k)); rewrite <- ?app_assoc; reflexivity) end.
  apply defines_silent; [apply class_comment, HQ|]. apply (defines_app _ _ [_]).
  - apply defines_function; [apply write_head; assumption|exact CW|apply closes1].
  - destruct (cr_defctor (k_rec k)); [|apply defines_nil]. apply defines_function; [apply read_head; assumption|exact CR|apply closes2].
Qed.
Lemma json_class_defines o rbs k w r : (o_visibility o = [] \/ identifier (o_visibility o)) -> qualified_name (qname k) ->
  chunk (concat (map push_text (push_lines rbs k))) w -> chunk (concat (map pull_text (pull_lines rbs k))) r ->
  defines (json_class_text o rbs k) (json_functions k w r).
Proof.
  intros HV HQ CW CR. unfold json_class_text, json_functions.
  match goal with |- defines ?t _ => replace t with
    ((bs "// define code for (de)serializing " ++ qname k ++ bs " objects" ++ nl)
     ++ ((bs "template <> " ++ o_visibility o ++ bs " void push<::" ++ qname k ++ bs ">(const ::" ++ qname k
          ++ bs " &reflectable, ::RAPIDJSON_NAMESPACE::Value::Object &value, ::RAPIDJSON_NAMESPACE::Document::AllocatorType &allocator)" ++ nl ++ bs "{" ++ nl)
         ++ concat (map push_text (push_lines rbs k)) ++ (bs "}" ++ nl))
     ++ (if cr_defctor (k_rec k) then ((bs "template <> " ++ o_visibility o ++ bs " void pull<::" ++ qname k ++ bs ">(::" ++ qname k
          ++ bs " &reflectable, const ::RAPIDJSON_NAMESPACE::GenericValue<::RAPIDJSON_NAMESPACE::UTF8<char>>::ConstObject &value, JsonDeserializationErrors *errors)" ++ nl ++ bs "{" ++ nl)
         ++ concat (map pull_text (pull_lines rbs k)) ++ (bs "}" ++ nl ++ nl)) else []))
    by (destruct (cr_defctor (k_rec k)); rewrite <- ?app_assoc; reflexivity) end.
  apply defines_silent; [apply class_comment, HQ|]. apply (defines_app _ _ [_]).
  - apply defines_function; [apply push_head; assumption|exact CW|apply closes1].
  - destruct (cr_defctor (k_rec k)); [|apply defines_nil]. apply defines_function; [apply pull_head; assumption|exact CR|apply closes2].
Qed.

Lemma file_defines ns ct ds ks fs :
  opens (bs "namespace " ++ bs ns ++ bs " {" ++ nl ++ nl) (pat "namespace" ++ pat ns) -> closes (bs "} // namespace " ++ bs ns ++ nl) ->
  (forall k, In k ks -> defines (ct (find_bases ds ks k) k) (fs k)) -> file ns (generate_text ns ct ds ks) = Some (flat_map fs ks).
Proof.
  intros ON CN H. unfold generate_text. destruct ks as [|k0 ks0] eqn:E; [reflexivity|]. rewrite <- E in *. clear E k0 ks0.
  destruct (defines_concat (fun k => ct (find_bases ds ks k) k) fs ks H) as (l & C & F).
  assert (CF: chunk (bs "namespace ReflectiveRapidJSON {" ++ nl ++ bs "namespace " ++ bs ns ++ bs " {" ++ nl ++ nl
    ++ concat (map (fun k => ct (find_bases ds ks k) k) ks)
    ++ bs "} // namespace " ++ bs ns ++ nl ++ bs "} // namespace ReflectiveRapidJSON" ++ nl)
    [Block (pat "namespace ReflectiveRapidJSON") [Block (pat "namespace" ++ pat ns) l]]).
  { match goal with |- chunk ?t _ => replace t with
      ((bs "namespace ReflectiveRapidJSON {" ++ nl) ++ ((bs "namespace " ++ bs ns ++ bs " {" ++ nl ++ nl) ++ concat (map (fun k => ct (find_bases ds ks k) k) ks) ++ (bs "} // namespace " ++ bs ns ++ nl))
       ++ (bs "} // namespace ReflectiveRapidJSON" ++ nl)) by (rewrite <- !app_assoc; reflexivity) end.
    apply chunk_block; [apply opens_const; reflexivity| |apply closes_brace, lexed_const; reflexivity].
    apply chunk_block; assumption. }
  destruct (chunk_group _ _ CF) as (ts & TK & GR). unfold file. rewrite TK, GR, !tokens_eqb_refl. exact F.
Qed.
Lemma binary_file ct ds ks fs : (forall k, In k ks -> defines (ct (find_bases ds ks k) k) (fs k)) ->
  file "BinaryReflector" (generate_text "BinaryReflector" ct ds ks) = Some (flat_map fs ks).
Proof. apply file_defines; [apply opens_const; reflexivity|apply closes_brace, lexed_const; reflexivity]. Qed.
Lemma json_file ct ds ks fs : (forall k, In k ks -> defines (ct (find_bases ds ks k) k) (fs k)) ->
  file "JsonReflector" (generate_text "JsonReflector" ct ds ks) = Some (flat_map fs ks).
Proof. apply file_defines; [apply opens_const; reflexivity|apply closes_brace, lexed_const; reflexivity]. Qed.

Lemma relevant_proper o ds k : proper_names o ds -> In k (relevant_classes o ds) -> class_proper k.
Proof.
  intros (PV & PQ & PB & PM & PL) Hk. assert (Hr: In (DRecord (k_rec k)) ds).
  { apply relevant_iff with (o := o). apply in_map. exact Hk. }
  split; [apply PQ; exact Hr|]. split; [|split; [intros; eapply PM; eauto|intros; eapply PL; eauto]].
  intros b Hb.
  assert (HB: k_base k = None \/ k_base k = inherits_from (o_template o) (k_rec k)).
  { unfold relevant_classes, find_relevant in Hk. apply in_flat_map in Hk. destruct Hk as (r & _ & Hk).
    destruct (compute_relevant o _ r) as [[] b'] eqn:E; [destruct Hk as [<-|[]]|destruct Hk|destruct Hk]. cbn [k_rec k_base].
    unfold compute_relevant in E. destruct (negb (cr_complete r)); [discriminate|]. destruct (existsb _ _); [inversion E; auto|].
    destruct (only_included o r); [discriminate|]. destruct (inherits_from (o_template o) r); [inversion E; auto|].
    destruct (existsb _ _); inversion E; auto. }
  destruct HB as [HB|HB]; [congruence|]. rewrite Hb in HB. symmetry in HB. apply find_some in HB. eapply PB; eauto. apply HB.
Qed.
