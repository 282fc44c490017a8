(** ExamplesDispatch.v -- property C55: concrete classes and types which meet the hypotheses of the theorems, and types
    for which the library cannot be used although one might expect it. *)
From Coq Require Import String List NArith ZArith Bool Lia.
From Verif Require Import Base Bytes Types BinModel BinSafeSpec JsonModel JsonSafeSpec DispatchModel DispatchSpec DispatchFacts DispatchExact
  PropertiesDispatch ExamplesEnv.
Import ListNotations.
Open Scope nat_scope.

(** the C++ types of the members of the classes of ExamplesEnv.v *)
Definition x_int := CInt KI32.
Definition x_test : list cxx :=
  [x_int; CDouble; CSpec StdVector [x_int]; std_string; CBool; CSpec StdMap [std_string; x_int]; CSpec StdUnorderedMap [std_string; CBool];
   CSpec StdSet [std_string]; CSpec StdMultiSet [std_string]; CSpec StdUnorderedSet [std_string]; CSpec StdUnorderedMultiSet [std_string];
   CEnum KU32; CEnum KU16; CTimeSpan; CDateTime].
Definition x_node : list cxx := [x_int; CSpec StdShared [CClass 1]].
Definition x_ver : list cxx := [x_int; std_string; x_int; CSpec StdOptional [CClass 1]].
Definition x_derived : list cxx := [CSpec StdMap [std_string; CSpec StdList [x_int]]; CSpec StdVariant [x_int; std_string; CMono]].
Definition x_outer : list cxx := [CClass 2; CSpec StdDeque [CClass 2]].

Definition object (serializable : bool) (l : option (list cxx)) : kclass :=
  {| k_serializable := serializable; k_iteratable := false; k_size := false; k_resize := false; k_reserve := false; k_emplace := false;
     k_map := false; k_multimap := false; k_set := false; k_multiset := false; k_elements := [];
     k_read := l; k_written := l; k_pulled := l; k_pushed := l |}.
(** a container class for which one of the REFLECTIVE_RAPIDJSON_TREAT_AS_* macros is used *)
Definition container (map multi : bool) (els : list cxx) : kclass :=
  {| k_serializable := false; k_iteratable := true; k_size := true; k_resize := false; k_reserve := false; k_emplace := true;
     k_map := map && negb multi; k_multimap := map && multi; k_set := negb map && negb multi; k_multiset := negb map && multi;
     k_elements := els; k_read := None; k_written := None; k_pulled := None; k_pushed := None |}.
(** a class which is marked as serialisable object and iterable as well (it derives from std::vector<int>, say) *)
Definition both : kclass :=
  {| k_serializable := true; k_iteratable := true; k_size := true; k_resize := true; k_reserve := true; k_emplace := true;
     k_map := false; k_multimap := false; k_set := false; k_multiset := false; k_elements := [x_int];
     k_read := None; k_written := None; k_pulled := None; k_pushed := None |}.
Definition KE (c : N) : kclass :=
  match c with
  | 0 => object true (Some x_test) | 1 => object true (Some x_node) | 2 => object false (Some x_ver)
  | 3 => object true (Some x_derived) | 4 => object true (Some x_outer)
  | 5 => container true false [std_string; CClass 0] | 6 => container false true [CDouble]
  | 7 => both
  | _ => object false None
  end%N.

Lemma KE_ordinary c : (c < 5)%N -> ordinary (KE c).
Proof.
  intros L. assert (c = 0 \/ c = 1 \/ c = 2 \/ c = 3 \/ c = 4)%N as [-> | [-> | [-> | [-> | ->]]]] by lia; repeat split.
Qed.
Ltac den := repeat first
  [ apply Forall2_nil | apply Forall2_cons
  | apply de_sequence; [reflexivity | now intros [? ?] |]
  | eapply de_set; [reflexivity |] | eapply de_map; [reflexivity | |]
  | apply de_struct; apply KE_ordinary; reflexivity
  | apply de_variant; [| discriminate]
  | constructor ].
Lemma KE_programs c l : KE c = object true l \/ KE c = object false l -> l <> None -> exists rc, g_class GE c = Some rc.
Proof.
  intros E N. destruct c as [|p]; [cbn; eauto |].
  destruct p as [[[]|[]|]|[[]|[]|]|]; cbn; eauto; destruct E as [E | E]; cbn in E; try discriminate E; injection E as <-; congruence.
Qed.

(** the hypotheses of the theorems hold *)
Lemma KE_GE : same_classes KE GE.
Proof.
  assert (A : forall c rc, g_class GE c = Some rc -> exists l, k_read (KE c) = Some l /\ k_written (KE c) = Some l /\ k_pulled (KE c) = Some l
    /\ k_pushed (KE c) = Some l /\ Forall2 (denotes KE) l (map bf_ty (bp_fields (rc_wr rc)))
    /\ Forall2 (denotes KE) l (map jf_ty (jp_fields (rc_push rc)))
    /\ (forall p, rc_rd rc = Some p -> map bf_ty (bp_fields p) = map bf_ty (bp_fields (rc_wr rc)))
    /\ (forall p, rc_pull rc = Some p -> map jf_ty (jp_fields p) = map jf_ty (jp_fields (rc_push rc)))).
  { intros c rc H. class_cases H; (eexists; do 4 (split; [reflexivity |]); split; [cbn; den |]; split; [cbn; den |]);
      (split; intros p E; cbn in E; injection E as <-; reflexivity). }
  constructor.
  - intros c rc p H E. destruct (A c rc H) as (l & H1 & H2 & H3 & H4 & H5 & H6 & H7 & H8). exists l. split; [exact H1 |]. now rewrite (H7 p E).
  - intros c rc H. destruct (A c rc H) as (l & H1 & H2 & H3 & H4 & H5 & H6 & H7 & H8). exists l. split; assumption.
  - intros c rc p H E. destruct (A c rc H) as (l & H1 & H2 & H3 & H4 & H5 & H6 & H7 & H8). exists l. split; [exact H3 |]. now rewrite (H8 p E).
  - intros c rc H. destruct (A c rc H) as (l & H1 & H2 & H3 & H4 & H5 & H6 & H7 & H8). exists l. split; assumption.
  - intros c l E. assert (exists rc, g_class GE c = Some rc) as [rc H].
    { destruct c as [|p]; [cbn; eauto |]. destruct p as [[[]|[]|]|[[]|[]|]|]; cbn in E; try discriminate E; cbn; eauto. }
    exists rc. class_cases H; eexists; split; reflexivity.
  - intros c l E. destruct c as [|p]; [cbn; eauto |]. destruct p as [[[]|[]|]|[[]|[]|]|]; cbn in E; try discriminate E; cbn; eauto.
  - intros c l E. assert (exists rc, g_class GE c = Some rc) as [rc H].
    { destruct c as [|p]; [cbn; eauto |]. destruct p as [[[]|[]|]|[[]|[]|]|]; cbn in E; try discriminate E; cbn; eauto. }
    exists rc. class_cases H; eexists; split; reflexivity.
  - intros c l E. destruct c as [|p]; [cbn; eauto |]. destruct p as [[[]|[]|]|[[]|[]|]|]; cbn in E; try discriminate E; cbn; eauto.
Qed.
Ltac each_field := repeat match goal with H : _ \/ _ |- _ => destruct H as [<- | H] end; try contradiction.
Ltac simple_type := cbn; repeat first
  [ exact I | reflexivity | discriminate | match goal with |- exists _, _ => eexists end | match goal with |- _ /\ _ => split end
  | match goal with |- _ = _ \/ _ => first [left; reflexivity | right] end | assumption | intro; discriminate ].
Lemma GE_readable_members : readable_members GE.
Proof.
  intros c rc p fd H E I. class_cases H; cbn in E; injection E as <-; cbn in I; each_field; simple_type.
Qed.
Lemma GE_writable_members : writable_members GE.
Proof. intros c rc fd H I. class_cases H; cbn in I; each_field; simple_type. Qed.
Lemma GE_pushable_members : pushable_members GE.
Proof. intros c rc fd H I. class_cases H; cbn in I; each_field; simple_type. Qed.
Lemma GE_pullable_members : pullable_members GE.
Proof.
  intros c rc p fd H E I. class_cases H; cbn in E; injection E as <-; cbn in I; each_field; simple_type.
Qed.

(** a type with all kinds of nesting: std::unordered_map<std::string, std::vector<std::optional<std::pair<Derived, Bag>>>> where Bag
    is a class treated as multiset *)
Definition nested : cxx :=
  CSpec StdUnorderedMap [std_string; CSpec StdVector [CSpec StdOptional [CSpec StdPair [CClass 3; CClass 6]]]].
Definition nested_ty : ty := TMap false false TString (TSeq (TOptional (TPair (TStruct 3) (TSet true true TF64)))).
Lemma nested_denotes : denotes KE nested nested_ty.
Proof.
  unfold nested, nested_ty. eapply de_map; [reflexivity | constructor |]. apply de_sequence; [reflexivity | now intros [? ?] |].
  apply de_optional. apply de_pair; [apply de_struct, KE_ordinary; reflexivity |].
  apply de_set_class with (a := CDouble); [repeat split | reflexivity | constructor].
Qed.
Theorem dispatch_nested_example :
  bcompiles KE (CallRead nested) /\ bcompiles KE (CallWrite nested) /\ jcompiles KE (Push user nested) /\ jcompiles KE (Pull user nested).
Proof.
  split; [| split; [| split]].
  - apply (C55_read_exactly KE GE nested nested_ty KE_GE GE_readable_members nested_denotes). simple_type.
  - apply (C55_write_exactly KE GE nested nested_ty KE_GE GE_writable_members nested_denotes). simple_type.
  - apply (C55_push_exactly KE GE nested nested_ty KE_GE GE_pushable_members nested_denotes). simple_type.
  - apply (C55_pull_exactly KE GE nested nested_ty KE_GE GE_pullable_members nested_denotes). simple_type.
Qed.
(** the calls for the elements are reached *)
Theorem dispatch_nested_reaches_example :
  breaches KE (CallRead nested) (CallReadVersion (CSpec StdVariant [x_int; std_string; CMono]))
  /\ resolve_read KE nested = Some BMaps /\ resolve_read KE (CClass 6) = Some BIteratable
  /\ jresolve KE (Pull user (CClass 6)) = Some PullPlain /\ jresolve KE (PullFromArray 638 (CClass 6)) = Some PullArrayMultiSet
  /\ jresolve KE (Push user (CClass 5)) = Some PushMap.
Proof.
  split; [| repeat split; reflexivity].
  eapply br_step; [reflexivity | reflexivity | left; reflexivity |].
  eapply br_step; [reflexivity | reflexivity | right; left; reflexivity |].
  eapply br_step; [reflexivity | reflexivity | left; reflexivity |].
  eapply br_step; [reflexivity | reflexivity | left; reflexivity |].
  eapply br_step; [reflexivity | reflexivity | left; reflexivity |].
  eapply br_step; [reflexivity | reflexivity | right; left; reflexivity |]. apply br_self.
Qed.

(* ------------------------------------------------------------------ *)
(** * Types which cannot be used *)

(** "A std::optional, std::unique_ptr or std::shared_ptr of a std::variant can be serialised to JSON like any other": the overload of
    push for variants is declared after the one for pointers calls it, so such members do not compile (whatever the alternatives) *)
Theorem C55_pointer_to_variant_push_refuted (tm : tmpl) (alternatives : list cxx) (line : nat) :
  In tm [StdUnique; StdShared; StdOptional] -> 338 < line ->
  ~ jcompiles KE (Push line (CSpec tm [CSpec StdVariant alternatives]))
  /\ ~ jcompiles KE (PushAsMember line (CSpec tm [CSpec StdVariant alternatives])).
Proof.
  intros T L.
  assert (A : forall line, 338 < line -> ~ jcompiles KE (Push line (CSpec tm [CSpec StdVariant alternatives]))).
  { clear line L. intros line L C.
    assert (R : jresolve KE (Push line (CSpec tm [CSpec StdVariant alternatives])) = Some PushPointer).
    { rewrite (jresolve_lines KE). 2:{ intros o Ho E. unfold candidates, is_push, push_overloads in Ho. cbn [In] in Ho. cbn [call_line].
        repeat match goal with H : _ \/ _ |- _ => destruct H as [<- | H] end; cbn; try lia; contradiction. }
      destruct T as [<- | [<- | [<- | []]]]; reflexivity. }
    destruct (C (Push 332 (CSpec StdVariant alternatives))) as (o & l & E & _).
    - apply (jr_step KE _ PushPointer [Push 332 (CSpec StdVariant alternatives)] (Push 332 (CSpec StdVariant alternatives))); [exact R | | left; reflexivity | apply jr_self].
      destruct T as [<- | [<- | [<- | []]]]; reflexivity.
    - rewrite (hidden_variant KE) in E. discriminate E. }
  split; [exact (A line L) |]. intros C. apply (A 408); [lia |].
  intros c' B. apply C. eapply (jr_step KE _ PushMemberOther); [| reflexivity | left; reflexivity | exact B].
  rewrite (push_member_resolves KE); [| lia]. destruct T as [<- | [<- | [<- | []]]]; reflexivity.
Qed.
(** pulling them and writing them to binary data works *)
Theorem dispatch_pointer_to_variant_pull_example :
  jcompiles KE (Pull user (CSpec StdOptional [CSpec StdVariant [x_int; std_string]]))
  /\ bcompiles KE (CallWrite (CSpec StdOptional [CSpec StdVariant [x_int; std_string]])).
Proof.
  assert (D : denotes KE (CSpec StdOptional [CSpec StdVariant [x_int; std_string]]) (TOptional (TVariant [TInt KI32; TString])))
    by (apply de_optional, de_variant; [repeat constructor | discriminate]).
  split.
  - apply (C55_pull_exactly KE GE _ _ KE_GE GE_pullable_members D). simple_type.
  - apply (C55_write_exactly KE GE _ _ KE_GE GE_writable_members D). simple_type.
Qed.

(** "toJson(std::string) works": toJson is enabled for strings, but no overload of toJsonDocument can be called in its body *)
Theorem C55_toJson_string_refuted :
  toJson_enabled KE std_string = true /\ resolve_document KE std_string = None
  /\ toJson_enabled KE CChars = true /\ resolve_document KE CChars = None
  /\ resolve_parse KE std_string = Some TopString.
Proof. repeat split; reflexivity. Qed.

(** "every class is either an object or an array": a class which is marked as serialisable and iterable is ambiguous
    at top level, and as a member it cannot be pushed because the overload for objects excludes iterable classes *)
Theorem C55_serializable_iterable_refuted :
  resolve_document KE (CClass 7) = None /\ toJson_enabled KE (CClass 7) = true
  /\ ~ jcompiles KE (PushAsMember user (CClass 7)).
Proof.
  split; [reflexivity |]. split; [reflexivity |]. intros C.
  destruct (C (PushToObject 396 (CClass 7))) as (o & l & E & _); [| discriminate E].
  eapply jr_step; [reflexivity | reflexivity | left; reflexivity | apply jr_self].
Qed.

(** "std::vector<bool> is supported like other vectors": it can be pushed and written, but neither pulled nor read *)
Theorem C55_vector_bool_refuted :
  ~ bcompiles KE (CallRead (CSpec StdVector [CBool])) /\ ~ jcompiles KE (Pull user (CSpec StdVector [CBool]))
  /\ bcompiles KE (CallWrite (CSpec StdVector [CBool])) /\ jcompiles KE (Push user (CSpec StdVector [CBool])).
Proof.
  split; [| split; [| split]].
  - intros C. destruct (C _ (br_self _ _)) as (o & l & E & I). cbn in E. injection E as <-. discriminate I.
  - intros C. destruct (C (PullFromArray 655 (CSpec StdVector [CBool]))) as (o & l & E & I).
    + eapply jr_step; [reflexivity | reflexivity | left; reflexivity | apply jr_self].
    + cbn in E. injection E as <-. discriminate I.
  - intros c' B. inversion B as [x | x o l y z E I Hin B' E1 E2]; subst.
    + exists BIteratable, [CallWrite CBool]. split; reflexivity.
    + cbn in E. injection E as <-. cbn in I. injection I as <-. destruct Hin as [<- | []].
      inversion B' as [x | x o l y z E I Hin B'' E1 E2]; subst.
      * exists BBase, []. split; reflexivity.
      * cbn in E. injection E as <-. cbn in I. injection I as <-. destruct Hin.
  - intros c' B. inversion B as [x | x o l y z E I Hin B' E1 E2]; subst.
    + exists PushSized, [PushToArray 224 CBool]. split; reflexivity.
    + cbn in E. injection E as <-. cbn in I. injection I as <-. destruct Hin as [<- | []].
      inversion B' as [x | x o l y z E I Hin B'' E1 E2]; subst.
      * exists PushArrayOther, [Push 383 CBool]. split; reflexivity.
      * cbn in E. injection E as <-. cbn in I. injection I as <-. destruct Hin as [<- | []].
        inversion B'' as [x | x o l y z E I Hin B3 E1 E2]; subst.
        -- exists PushArith, []. split; reflexivity.
        -- cbn in E. injection E as <-. cbn in I. injection I as <-. destruct Hin.
Qed.

(** other containers and types: std::forward_list (no size) and std::array cannot be restored, std::string_view can be
    written but not read, std::tuple and std::int8_t have no binary representation, std::weak_ptr is accepted as built-in but cannot be
    dereferenced, and std::basic_string<wchar_t> has no overload at all *)
Theorem C55_unsupported_refuted :
  resolve_write KE (CSpec StdForwardList [x_int]) = None
  /\ (exists o, resolve_read KE (CSpec StdArray [x_int]) = Some o /\ read_inner KE o (CSpec StdArray [x_int]) = None)
  /\ (exists o, jresolve KE (PullFromArray 638 (CSpec StdArray [x_int])) = Some o /\ jinner KE o (CSpec StdArray [x_int]) = None)
  /\ (exists o, resolve_read KE std_string_view = Some o /\ read_inner KE o std_string_view = None)
  /\ (exists o, resolve_write KE (CSpec StdTuple [x_int]) = Some o /\ write_inner KE o (CSpec StdTuple [x_int]) = None)
  /\ (exists o, resolve_write KE (CInt KI8) = Some o /\ write_inner KE o (CInt KI8) = None)
  /\ (exists o, jresolve KE (Push user (CSpec StdWeak [x_int])) = Some o /\ jinner KE o (CSpec StdWeak [x_int]) = None)
  /\ jresolve KE (Push user (CSpec StdBasicString [COther])) = None
  /\ resolve_read KE (CSpec StdBasicString [COther]) = None.
Proof.
  split; [reflexivity |].
  split; [exists BIteratable; split; reflexivity |]. split; [exists PullArrayArray; split; reflexivity |].
  split; [exists BIteratable; split; reflexivity |]. split; [exists BCustom; split; reflexivity |].
  split; [exists BCustom; split; reflexivity |]. split; [exists PushPointer; split; reflexivity |].
  split; reflexivity.
Qed.

(** sets, pairs, optionals and enums can be members but not top-level values of toJson/fromJson *)
Theorem dispatch_top_level_example :
  map (resolve_document KE) [CSpec StdSet [x_int]; CSpec StdPair [x_int; x_int]; CSpec StdOptional [x_int]; CEnum KI32; CClass 2]
    = [None; None; None; None; None]
  /\ map (resolve_document KE) [x_int; CSpec StdVector [x_int]; CSpec StdMap [std_string; x_int]; CClass 0; CClass 5; std_string_view]
    = [Some TopArith; Some TopArray; Some TopObject; Some TopObject; Some TopObject; Some TopArray].
Proof. split; reflexivity. Qed.

(** a std::string_view written to binary data: size and characters *)
Theorem dispatch_view_example :
  write GE [] 5 0 TView (VOpt (Some (VStr (B "abc")))) [] = ROk (hex [131; 97; 98; 99]%N, []).
Proof. reflexivity. Qed.

(** "signed and unsigned integral types" (README.md, Supported datatypes) does not include the 16-bit ones and char in JSON: RapidJSON's
    Set/Is/Get have no such types.  They do have a binary representation. *)
Theorem C55_short_integers_refuted (k : ikind) :
  In k [KI16; KU16; KChar] ->
  ~ jcompiles KE (Push user (CInt k)) /\ ~ jcompiles KE (Pull user (CInt k))
  /\ bcompiles KE (CallWrite (CInt k)) /\ bcompiles KE (CallRead (CInt k)).
Proof.
  intros Hk. pose proof (de_int KE k) as D.
  rewrite (C55_push_exactly KE GE _ _ KE_GE GE_pushable_members D), (C55_pull_exactly KE GE _ _ KE_GE GE_pullable_members D),
    (C55_write_exactly KE GE _ _ KE_GE GE_writable_members D), (C55_read_exactly KE GE _ _ KE_GE GE_readable_members D).
  destruct Hk as [<- | [<- | [<- | []]]]; cbn; (split; [intros [H | H]; discriminate H |]); (split; [intros [H _]; discriminate H |]); split; reflexivity.
Qed.

(** hypotheses of C55_without_size: std::forward_list<std::string> can be pushed; with C55_forward_list it cannot be pulled *)
Theorem dispatch_forward_list_example :
  jcompiles KE (Push user (CSpec StdForwardList [std_string])) /\ ~ jcompiles KE (Pull user (CSpec StdForwardList [std_string]))
  /\ ~ bcompiles KE (CallWrite (CSpec StdForwardList [std_string])).
Proof.
  split; [| split; apply C55_forward_list].
  apply (C55_without_size KE GE (CSpec StdForwardList [std_string]) std_string TString KE_GE GE_pushable_members (de_string KE)); [left; reflexivity | exact I].
Qed.

Print Assumptions C55_pointer_to_variant_push_refuted.
Print Assumptions C55_toJson_string_refuted.
Print Assumptions C55_serializable_iterable_refuted.
Print Assumptions C55_vector_bool_refuted.
Print Assumptions C55_unsupported_refuted.
Print Assumptions C55_short_integers_refuted.
