(** ExamplesGen.v -- concrete declarations which meet the hypotheses of the theorems in
    PropertiesGen.v, the generator's test cases, and claims which are false of the code. *)
From Coq Require Import String List NArith ZArith Bool Lia.
From Verif Require Import Base Bytes Types BinModel BinSpec GenModel GenSem GenSpec GenMarkers GenSelect GenText GenLink PropertiesGen ExamplesEnv.
Import ListNotations.
Local Open Scope N_scope.

Definition jt := B "ReflectiveRapidJSON::JsonSerializable".
Definition ja := B "ReflectiveRapidJSON::AdaptedJsonSerializable".
Definition bt := B "ReflectiveRapidJSON::BinarySerializable".
Definition ba := B "ReflectiveRapidJSON::AdaptedBinarySerializable".
Definition mk (i : N) (q : string) (file : N) (bases : list cbase) (ds : list mdecl) : crecord :=
  {| cr_id := i; cr_qname := B q; cr_hasdef := true; cr_complete := true; cr_file := file; cr_spec := None;
     cr_bases := bases; cr_decls := ds; cr_friends := []; cr_defctor := true |}.
Definition pub (n : string) (t : ty) : mdecl := MField (B n) Public false t.
Definition base (i : N) (q : bytes) (printed : string) (v : N) : cbase := {| cb_id := Some i; cb_qname := q; cb_printed := B printed; cb_version := v |}.
Definition jopts (main : N) (l : list string) : gopts := {| o_template := jt; o_adaption := ja; o_classes := map B l; o_visibility := []; o_main := main |}.
Definition bopts (main : N) (l : list string) : gopts := {| o_template := bt; o_adaption := ba; o_classes := map B l; o_visibility := []; o_main := main |}.

(* ------------------------------------------------------------------ *)
(** ** generator/testfiles/some_structs.h *)
Definition some_structs : list decl :=
  [DOther;
   DRecord {| cr_id := 1; cr_qname := jt; cr_hasdef := true; cr_complete := true; cr_file := 7; cr_spec := Some [TArgType (Some (B "TestNamespace1::Person"))];
              cr_bases := []; cr_decls := [MOther]; cr_friends := []; cr_defctor := true |};
   DRecord (mk 2 "TestNamespace1::Person" 0 [base 1 jt "JsonSerializable<Person>" 0] [pub "age" i32; pub "alive" TBool]);
   DRecord (mk 3 "TestNamespace1::NonReflectableClass" 0 [] [pub "foo" i32]);
   DRecord (mk 4 "TestNamespace1::SomeOtherNonReflectableClass" 0 [base 3 (B "TestNamespace1::NonReflectableClass") "" 0] [pub "bar" i32]);
   DRecord (mk 5 "TestNamespace2::ThirdPartyStruct" 0 [] [pub "test1" TString; pub "test2" (TInt KU64)])].

(** generator/testfiles/some_structs_json_serialization.h is exactly what the model generates *)
Definition expected_json : string := "namespace ReflectiveRapidJSON {
namespace JsonReflector {

// define code for (de)serializing TestNamespace1::Person objects
template <>  void push<::TestNamespace1::Person>(const ::TestNamespace1::Person &reflectable, ::RAPIDJSON_NAMESPACE::Value::Object &value, ::RAPIDJSON_NAMESPACE::Document::AllocatorType &allocator)
{
    // push base classes
    // push members
    push(reflectable.age, ""age"", value, allocator);
    push(reflectable.alive, ""alive"", value, allocator);
}
template <>  void pull<::TestNamespace1::Person>(::TestNamespace1::Person &reflectable, const ::RAPIDJSON_NAMESPACE::GenericValue<::RAPIDJSON_NAMESPACE::UTF8<char>>::ConstObject &value, JsonDeserializationErrors *errors)
{
    // pull base classes
    // set error context for current record
    const char *previousRecord = nullptr;
    if (errors) {
        previousRecord = errors->currentRecord;
        errors->currentRecord = ""TestNamespace1::Person"";
    }
    // pull members
    pull(reflectable.age, ""age"", value, errors);
    pull(reflectable.alive, ""alive"", value, errors);
    // restore error context for previous record
    if (errors) {
        errors->currentRecord = previousRecord;
    }
}

// define code for (de)serializing TestNamespace2::ThirdPartyStruct objects
template <>  void push<::TestNamespace2::ThirdPartyStruct>(const ::TestNamespace2::ThirdPartyStruct &reflectable, ::RAPIDJSON_NAMESPACE::Value::Object &value, ::RAPIDJSON_NAMESPACE::Document::AllocatorType &allocator)
{
    // push base classes
    // push members
    push(reflectable.test1, ""test1"", value, allocator);
    push(reflectable.test2, ""test2"", value, allocator);
}
template <>  void pull<::TestNamespace2::ThirdPartyStruct>(::TestNamespace2::ThirdPartyStruct &reflectable, const ::RAPIDJSON_NAMESPACE::GenericValue<::RAPIDJSON_NAMESPACE::UTF8<char>>::ConstObject &value, JsonDeserializationErrors *errors)
{
    // pull base classes
    // set error context for current record
    const char *previousRecord = nullptr;
    if (errors) {
        previousRecord = errors->currentRecord;
        errors->currentRecord = ""TestNamespace2::ThirdPartyStruct"";
    }
    // pull members
    pull(reflectable.test1, ""test1"", value, errors);
    pull(reflectable.test2, ""test2"", value, errors);
    // restore error context for previous record
    if (errors) {
        errors->currentRecord = previousRecord;
    }
}

} // namespace JsonReflector
} // namespace ReflectiveRapidJSON
".
Example some_structs_text : generate_json (jopts 0 ["TestNamespace2::ThirdPartyStruct"%string]) some_structs = B expected_json.
Proof. vm_compute. reflexivity. Qed.

(* ------------------------------------------------------------------ *)
(** ** SomeNamespace::VersionedStruct of generator/tests/morestructs.h *)
Definition u32 := TInt KU32.
Definition versioned_decls : list mdecl :=
  [pub "a" u32; pub "b" u32; MVar (B "rrjUntilVersion0") (Some 2); MOther; pub "c" u32; pub "d" u32;
   MVar (B "rrjAsOfVersion1") (Some 3); MOther; pub "e" u32; pub "f" u32; MVar (B "rrjAsOfVersion2") (Some 4); MOther; pub "g" u32].
Definition versioned : crecord :=
  mk 2 "SomeNamespace::VersionedStruct" 0 [base 1 bt "BinarySerializable<SomeNamespace::VersionedStruct, 3>" 3] versioned_decls.
Definition expected_binary : string := "namespace ReflectiveRapidJSON {
namespace BinaryReflector {

// define code for (de)serializing SomeNamespace::VersionedStruct objects
template <>  void writeCustomType<::SomeNamespace::VersionedStruct>(BinarySerializer &serializer, const ::SomeNamespace::VersionedStruct &customObject, BinaryVersion version)
{
    // write base classes
    // write version
    using V = Versioning<BinarySerializable<SomeNamespace::VersionedStruct, 3>>;
    if constexpr (V::enabled) {
        serializer.writeVariableLengthUIntBE(V::applyDefault(version));
    }
    // write members
    serializer.write(customObject.a, version);
    serializer.write(customObject.b, version);
    if (version <= 2) {
        serializer.write(customObject.c, version);
        serializer.write(customObject.d, version);
    }
    if (version >= 3) {
        serializer.write(customObject.e, version);
        serializer.write(customObject.f, version);
    }
    if (version >= 4) {
        serializer.write(customObject.g, version);
    }
}
template <>  BinaryVersion readCustomType<::SomeNamespace::VersionedStruct>(BinaryDeserializer &deserializer, ::SomeNamespace::VersionedStruct &customObject, BinaryVersion version)
{
    // read base classes
    // read version
    using V = Versioning<BinarySerializable<SomeNamespace::VersionedStruct, 3>>;
    if constexpr (V::enabled) {
        V::assertVersion(version = deserializer.readVariableLengthUIntBE(), ""SomeNamespace::VersionedStruct"");
    }
    // read members
    deserializer.read(customObject.a, version);
    deserializer.read(customObject.b, version);
    if (version <= 2) {
        deserializer.read(customObject.c, version);
        deserializer.read(customObject.d, version);
    }
    if (version >= 3) {
        deserializer.read(customObject.e, version);
        deserializer.read(customObject.f, version);
    }
    if (version >= 4) {
        deserializer.read(customObject.g, version);
    }
    return version;
}

} // namespace BinaryReflector
} // namespace ReflectiveRapidJSON
".
Example versioned_text : generate_binary (bopts 0 []) [DRecord versioned] = B expected_binary.
Proof. vm_compute. reflexivity. Qed.

Definition kv : rclass := {| k_rec := versioned; k_base := Some (base 1 bt "BinarySerializable<SomeNamespace::VersionedStruct, 3>" 3) |}.
Definition member_names (r : res (N * list event)) : list bytes :=
  match r with ROk (_, evs) => flat_map (fun e => match e with EvMember n _ => [n] | _ => [] end) evs | _ => [] end.
Definition dflt (m v : N) : N := if v =? 0 then m else v.
Example versioned_1 : member_names (trace (dflt 3) (writer_lines [] kv) 1) = map B ["a"; "b"; "c"; "d"]%string.
Proof. vm_compute. reflexivity. Qed.
Example versioned_default : member_names (trace (dflt 3) (writer_lines [] kv) 0) = map B ["a"; "b"; "e"; "f"]%string.
Proof. vm_compute. reflexivity. Qed.
Example versioned_4 : member_names (trace (dflt 3) (reader_lines [] kv) 4) = map B ["a"; "b"; "e"; "f"; "g"]%string.
Proof. vm_compute. reflexivity. Qed.

(** the vocabulary of C19 on this class: [until_version(2)] is dropped by [as_of_version(3)],
    which is replaced by [as_of_version(4)] *)
Example marker_in_effect : as_of_in_effect (firstn 12 versioned_decls) 4 /\ ~ as_of_in_effect (firstn 12 versioned_decls) 3
  /\ (forall u, ~ until_in_effect (firstn 12 versioned_decls) u).
Proof.
  split; [|split].
  - exists (firstn 10 versioned_decls), (MVar (B "rrjAsOfVersion2") (Some 4)), [MOther]. split; [reflexivity|].
    split; [exists (B "2"); reflexivity|]. split; intros x y [<-|[]] (s & E); discriminate.
  - rewrite <- (firstn_skipn 11 (firstn 12 versioned_decls)). change (skipn 11 (firstn 12 versioned_decls)) with [MOther].
    rewrite as_eff_snoc. intros [(s & E)|(_ & _ & H)]; [discriminate|].
    change (firstn 11 (firstn 12 versioned_decls)) with (firstn 10 versioned_decls ++ [MVar (B "rrjAsOfVersion2") (Some 4)]) in H.
    rewrite as_eff_snoc in H. destruct H as [(s & E)|(N & _)]; [inversion E|]. apply (N 4). exists (B "2"). reflexivity.
  - intros u. change (firstn 12 versioned_decls) with ((firstn 2 versioned_decls ++ [MVar (B "rrjUntilVersion0") (Some 2)]) ++ [MOther; pub "c" u32; pub "d" u32; MVar (B "rrjAsOfVersion1") (Some 3)]
       ++ [MOther; pub "e" u32; pub "f" u32; MVar (B "rrjAsOfVersion2") (Some 4); MOther]).
    intros (p1 & d & p2 & E & (s & M) & _ & A). subst d.
    assert (P: p1 = firstn 2 versioned_decls).
    { clear A. do 14 (destruct p1 as [|? p1]; cbn in E; try (inversion E; subst; try reflexivity; fail); try discriminate; inversion E as [[E1 E2]]; clear E; rename E2 into E; subst). }
    subst p1. cbn in E. inversion E; subst. specialize (A (MVar (B "rrjAsOfVersion1") (Some 3)) 3).
    assert (3 <= 2); [|lia]. apply A; [cbn; auto 10|exists (B "1"); reflexivity].
Qed.

(* ------------------------------------------------------------------ *)
(** ** classes in two headers: a base (0), a derived class (0), a grandchild (0), something in header 9 *)
Definition family : list decl :=
  [DRecord (mk 10 "Other" 9 [base 1 bt "BinarySerializable<Other>" 0] [pub "o" i32]);
   DRecord (mk 11 "Grand" 0 [base 2 bt "BinarySerializable<Grand>" 0] [pub "g" i32]);
   DRecord (mk 12 "Parent" 0 [base 11 (B "Grand") "Grand" 0; base 3 bt "BinarySerializable<Parent, 1>" 1] [pub "p" TString; MField (B "c") Public true i32; MField (B "s") Private false i32]);
   DRecord (mk 13 "Child" 0 [base 12 (B "Parent") "Parent" 0; base 10 (B "Other") "Other" 0; base 4 bt "BinarySerializable<Child>" 0] [pub "x" i32]);
   DRecord (mk 14 "Plain" 0 [] [])].
Definition fo := bopts 0 [].
Example family_relevant : map (fun k => cr_id (k_rec k)) (relevant_classes fo family) = [11; 12; 13].
Proof. vm_compute. reflexivity. Qed.
Example family_defs : one_definition family /\ wf_bases family.
Proof.
  split.
  - intros r r' H H'. repeat (destruct H as [H|H]; [inversion H; subst; clear H; repeat (destruct H' as [H'|H']; [inversion H'; subst; cbn; intros; try discriminate; reflexivity|]); destruct H'|]). destruct H.
  - intros r b i H _. repeat (destruct H as [H|H]; [inversion H; subst; clear H; cbn; intros Hb; repeat (destruct Hb as [<-|Hb]; [cbn; intros E; inversion E; subst; reflexivity|]); destruct Hb|]). destruct H.
Qed.
Example family_plain : plain_names fo family /\ plain_names (jopts 0 ["TestNamespace2::ThirdPartyStruct"%string]) some_structs.
Proof.
  split; (split; [reflexivity|split; [|split]]).
  1, 4: intros r H; repeat (destruct H as [H|H]; [inversion H; subst; reflexivity|]); destruct H.
  1, 3: intros r b H; repeat (destruct H as [H|H]; [inversion H; subst; clear H; cbn; intros Hb; repeat (destruct Hb as [<-|Hb]; [reflexivity|]); destruct Hb|]); destruct H.
  all: intros r n a c t H; repeat (destruct H as [H|H]; [inversion H; subst; clear H; cbn; intros Hb; repeat (destruct Hb as [Hb|Hb]; [inversion Hb; subst; reflexivity|]); destruct Hb|]); destruct H.
Qed.

(** C39: the grandparent's member is written twice, the base class from the other header not at all *)
Definition kchild : rclass := {| k_rec := mk 13 "Child" 0 [base 12 (B "Parent") "Parent" 0; base 10 (B "Other") "Other" 0; base 4 bt "BinarySerializable<Child>" 0] [pub "x" i32];
  k_base := Some (base 4 bt "BinarySerializable<Child>" 0) |}.
Example child_relevant : In kchild (relevant_classes fo family).
Proof. vm_compute. auto. Qed.
Theorem C39_bases_once_refuted :
  map qname (find_bases family (relevant_classes fo family) kchild) = map B ["Grand"; "Parent"]%string
  /\ (forall k, In k (relevant_classes fo family) -> qname k = B "Parent" -> map qname (find_bases family (relevant_classes fo family) k) = [B "Grand"])
  /\ derives family 13 10.
Proof.
  split; [vm_compute; reflexivity|]. split.
  - intros k H. vm_compute in H. repeat (destruct H as [<-|H]; [vm_compute; intros; try discriminate; reflexivity|]). destruct H.
  - eapply (der_direct family (mk 13 "Child" 0 _ _)) with (x := base 10 (B "Other") "Other" 0); [cbn; auto 10|reflexivity|cbn; auto|reflexivity].
Qed.

(** class environment with the generated code of [family]: hypotheses of C20 *)
Definition fam_class (k : rclass) : rtclass :=
  let rbs := find_bases family (relevant_classes fo family) k in
  {| rc_name := qname k; rc_layout := []; rc_dinit := []; rc_vinit := []; rc_wr := writer_prog rbs k; rc_rd := reader_prog rbs k;
     rc_push := push_prog rbs k; rc_pull := pull_prog rbs k |}.
Definition GF : genv := {|
  g_class := fun c => option_map fam_class (find (fun k => cr_id (k_rec k) =? c) (relevant_classes fo family));
  g_lt := g_lt GE; g_eq := g_eq GE; g_place := g_place GE; g_alloc := g_alloc GE |}.
Example family_generated : forall k, In k (relevant_classes fo family) -> exists rc, g_class GF (cr_id (k_rec k)) = Some rc /\ generated_binary fo family k rc.
Proof.
  intros k H. exists (fam_class k). split; [|split; reflexivity].
  vm_compute in H. repeat (destruct H as [<-|H]; [vm_compute; reflexivity|]). destruct H.
Qed.
Example family_visits : exists L, visits GF 1 1 13 L.
Proof.
  apply (C20_generated_round_trips fo family GF 1 1) with (k := kchild); [apply family_defs|apply family_defs|exact family_generated|exact child_relevant|].
  intros b [->|H]; [|vm_compute in H; destruct H as [<-|[<-|[]]]]; vm_compute; intuition discriminate.
Qed.
Definition fam_resolve (q : bytes) : option N := option_map (fun k => cr_id (k_rec k)) (find (fun k => bytes_eqb (qname k) q) (relevant_classes fo family)).
Example family_resolves : forall k, In k (relevant_classes fo family) -> fam_resolve (qname k) = Some (cr_id (k_rec k)).
Proof. intros k H. vm_compute in H. repeat (destruct H as [<-|H]; [vm_compute; reflexivity|]). destruct H. Qed.

(* ------------------------------------------------------------------ *)
(** ** stronger claims which are false of the code *)

(** C19: [until_version(0)] is not "no bound": it also drops the other bound *)
Theorem C19_until_zero_refuted : exists ds,
  as_of_in_effect ds 3 /\ until_marker (MVar (B "rrjUntilVersion1") (Some 0)) 0
  /\ (forall a, ~ as_of_in_effect (ds ++ [MVar (B "rrjUntilVersion1") (Some 0)]) a)
  /\ let k := {| k_rec := mk 2 "C" 0 [] (ds ++ [MVar (B "rrjUntilVersion1") (Some 0); pub "m" i32]); k_base := None |} in
     member_names (trace id (writer_lines [] k) 1) = [B "m"].
Proof.
  exists [MVar (B "rrjAsOfVersion0") (Some 3)]. split; [|split; [exists (B "1"); reflexivity|split; [|vm_compute; reflexivity]]].
  - exists [], (MVar (B "rrjAsOfVersion0") (Some 3)), []. split; [reflexivity|]. split; [exists (B "0"); reflexivity|]. split; intros ? ? [].
  - intros a. change [MVar (B "rrjAsOfVersion0") (Some 3)] with ([] ++ [MVar (B "rrjAsOfVersion0") (Some 3)]). rewrite !as_eff_snoc.
    intros [(s & E)|(_ & L & [(s & E)|(N & _)])]; [discriminate| |].
    + inversion E; subst. assert (3 <= 0); [apply (L 0); exists (B "1"); reflexivity|lia].
    + apply (N 3). exists (B "0"). reflexivity.
Qed.

(** C20: with only one of the functions befriended, reader and writer disagree *)
Theorem C20_one_friend_refuted : exists k, cr_defctor (k_rec k) = true
  /\ member_names (trace id (writer_lines [] k) 0) = [B "s"] /\ member_names (trace id (reader_lines [] k) 0) = [].
Proof.
  exists {| k_rec := {| cr_id := 1; cr_qname := B "C"; cr_hasdef := true; cr_complete := true; cr_file := 0; cr_spec := None; cr_bases := [];
                        cr_decls := [MField (B "s") Private false i32]; cr_friends := [None; Some fn_write]; cr_defctor := true |}; k_base := None |}.
  repeat split; vm_compute; reflexivity.
Qed.

(** C38: a class inheriting from the template in one header and adapted in another one gets code
    in both runs *)
Definition twice : list decl :=
  [DRecord (mk 2 "C" 0 [base 1 bt "BinarySerializable<C>" 0] []);
   DRecord {| cr_id := 3; cr_qname := ba; cr_hasdef := true; cr_complete := true; cr_file := 9; cr_spec := Some [TArgType (Some (B "C"))];
              cr_bases := []; cr_decls := []; cr_friends := []; cr_defctor := true |}].
Theorem C38_generated_once_refuted :
  map qname (relevant_classes (bopts 0 []) twice) = [B "C"] /\ map qname (relevant_classes (bopts 9 []) twice) = [B "C"].
Proof. split; vm_compute; reflexivity. Qed.

Print Assumptions C39_bases_once_refuted.
Print Assumptions C19_until_zero_refuted.
Print Assumptions C20_one_friend_refuted.
Print Assumptions C38_generated_once_refuted.
