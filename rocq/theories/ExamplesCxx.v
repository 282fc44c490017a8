(** ExamplesCxx.v -- concrete declarations which meet the hypotheses of the theorems in PropertiesCxx.v, the expected test
    files of the generator read as C++ code, and text which is not accepted. *)
From Coq Require Import String List NArith ZArith Bool Lia.
From Verif Require Import Base Bytes Types BinModel GenModel GenSem GenSpec JsonModel JsonGen CxxText CxxTop PropertiesCxx ExamplesEnv ExamplesGen.
Import ListNotations.
Local Open Scope list_scope.
Local Open Scope N_scope.

(* ------------------------------------------------------------------ *)
(** ** proper names *)
Ltac names_of l := exists l; split; [discriminate|split; [repeat constructor; vm_compute; auto|reflexivity]].
Example cxx_family_proper : proper_names fo family.
Proof.
  split; [left; reflexivity|split; [|split; [|split]]].
  - intros r H. repeat (destruct H as [H|H]; [inversion H; subst; clear H; cbn [cr_qname mk]; eexists [_]; split; [discriminate|split; [|reflexivity]]; repeat constructor; vm_compute; auto|]). destruct H.
  - intros r b H. repeat (destruct H as [H|H]; [inversion H; subst; clear H; cbn; intros Hb; repeat (destruct Hb as [<-|Hb]; [vm_compute; auto|]); destruct Hb|]). destruct H.
  - intros r n a c t H. repeat (destruct H as [H|H]; [inversion H; subst; clear H; cbn; intros Hb; repeat (destruct Hb as [Hb|Hb]; [inversion Hb; subst; vm_compute; auto|]); destruct Hb|]). destruct H.
  - intros r n v H. repeat (destruct H as [H|H]; [inversion H; subst; clear H; cbn; intros Hb; repeat (destruct Hb as [Hb|Hb]; [discriminate|]); destruct Hb|]). destruct H.
Qed.
Definition vo := bopts 0 [].
Example cxx_versioned_proper : proper_names vo [DRecord versioned].
Proof.
  split; [left; reflexivity|split; [|split; [|split]]].
  - intros r [H|[]]. inversion H; subst. names_of (map B ["SomeNamespace"; "VersionedStruct"]%string).
  - intros r b [H|[]]. inversion H; subst. intros [<-|[]]. vm_compute; auto.
  - intros r n a c t [H|[]]. inversion H; subst. cbn. intros Hb; repeat (destruct Hb as [Hb|Hb]; [inversion Hb; subst; vm_compute; auto|]); destruct Hb.
  - intros r n v [H|[]]. inversion H; subst. cbn. intros Hb; repeat (destruct Hb as [Hb|Hb]; [inversion Hb; subst; vm_compute; reflexivity|]); destruct Hb.
Qed.

(* ------------------------------------------------------------------ *)
(** ** the text of SomeNamespace::VersionedStruct, as C++ *)
(** functions which record how they are called *)
Definition note_base (q : bytes) (v : N) (l : list event) : res (list event) := ROk (l ++ [EvBase q v]).
Definition note_member (n : bytes) (v : N) (l : list event) : res (list event) := ROk (l ++ [EvMember n v]).
Definition note_version (v : N) (l : list event) : res (list event) := ROk (l ++ [EvVersion [] v]).
Definition found_version (v : N) (l : list event) : res (N * list event) := ROk (v, l ++ [EvVersion [] v]).
(** the constant BinarySerializable<..., 3>::version *)
Definition three (T : list token) : N := if tokens_eqb T (pat "BinarySerializable<SomeNamespace::VersionedStruct, 3>") then 3 else 0.
Example cxx_version_constant : version_constant three kv.
Proof. intros b ts [= <-] E. vm_compute in E. injection E as <-. vm_compute. reflexivity. Qed.
Definition bodies (t : string) : list (list CxxText.node) :=
  match file "BinaryReflector" (B t) with Some l => map f_body l | None => [] end.
Example cxx_versioned_file : option_map (map (fun f => (f_kind f, f_class f))) (file "BinaryReflector" (B expected_binary))
  = Some [(FWrite, B "SomeNamespace::VersionedStruct"); (FRead, B "SomeNamespace::VersionedStruct")].
Proof. vm_compute. reflexivity. Qed.
Example cxx_versioned_write : forall ver out, In (ver, out) [(0, (3, ["a"; "b"; "e"; "f"])); (2, (2, ["a"; "b"; "c"; "d"])); (7, (7, ["a"; "b"; "e"; "f"; "g"]))]%string ->
  run_write three note_base note_member note_version (nth 0 (bodies expected_binary) []) ver []
  = ROk (fst out, EvVersion [] (fst out) :: map (fun n => EvMember (B n) (fst out)) (snd out)).
Proof. intros ver out H. repeat (destruct H as [H|H]; [injection H as <- <-; vm_compute; reflexivity|]). destruct H. Qed.
Example cxx_versioned_read : forall ver out, In (ver, out) [(0, ["a"; "b"; "c"; "d"]); (2, ["a"; "b"; "c"; "d"]); (3, ["a"; "b"; "e"; "f"])]%string ->
  run_read three note_base note_member (found_version ver) (nth 1 (bodies expected_binary) []) 99 []
  = ROk (ver, EvVersion [] ver :: map (fun n => EvMember (B n) ver) out).
Proof. intros ver out H. repeat (destruct H as [H|H]; [injection H as <- <-; vm_compute; reflexivity|]). destruct H. Qed.
Example cxx_versioned_refuse :
  run_read three note_base note_member (found_version 4) (nth 1 (bodies expected_binary) []) 99 [] = RThrow (ExVersion 4 3 (B "SomeNamespace::VersionedStruct")).
Proof. vm_compute. reflexivity. Qed.

(* ------------------------------------------------------------------ *)
(** ** the expected JSON code of the generator's tests, as C++ *)
Definition note_jbase (q : bytes) (l : list bytes) : res (list bytes) := ROk (l ++ [q]).
Definition note_jmember (n name : bytes) (l : list bytes) : res (list bytes) := ROk (l ++ [n; name]).
Definition note_pbase (q : bytes) (l : list (bytes * option bytes)) : M (list (bytes * option bytes)) := ret (l ++ [(q, None)]).
(** the name, and the current record at that time *)
Definition note_pmember (n name : bytes) (l : list (bytes * option bytes)) : M (list (bytes * option bytes)) :=
  fun s => POk (l ++ [(name, match p_err s with Some e => es_record e | None => None end)]) s.
Definition jfuncs : list func := match file "JsonReflector" (B expected_json) with Some l => l | None => [] end.
Example cxx_json_file : map (fun f => (f_kind f, f_class f)) jfuncs
  = [(FPush, B "TestNamespace1::Person"); (FPull, B "TestNamespace1::Person"); (FPush, B "TestNamespace2::ThirdPartyStruct"); (FPull, B "TestNamespace2::ThirdPartyStruct")].
Proof. vm_compute. reflexivity. Qed.
Example cxx_json_push : map (fun f => run_push_text note_jbase note_jmember (f_body f) []) (filter (fun f => match f_kind f with FPush => true | _ => false end) jfuncs)
  = map (fun l => ROk (map B l)) [["age"; "age"; "alive"; "alive"]; ["test1"; "test1"; "test2"; "test2"]]%string.
Proof. vm_compute. reflexivity. Qed.
Definition some_errors : est := {| es_errs := []; es_throw := 0; es_record := Some (B "outer"); es_member := None; es_index := None |}.
Example cxx_json_pull : run_pull_text note_pbase note_pmember (f_body (nth 3 jfuncs {| f_kind := FPull; f_class := []; f_body := [] |})) [] {| p_heap := []; p_err := Some some_errors |}
  = POk (map (fun n => (B n, Some (B "TestNamespace2::ThirdPartyStruct"))) ["test1"; "test2"]%string) {| p_heap := []; p_err := Some some_errors |}.
Proof. vm_compute. reflexivity. Qed.

(* ------------------------------------------------------------------ *)
(** ** the classes of [family] in the environment with their generated code: hypotheses of [C56_text_writes] and the like *)
Definition fam_types (n : bytes) : ty := if bytes_eqb n (B "p") then TString else i32.
Definition fam_versions (T : list token) : N := if tokens_eqb T (pat "BinarySerializable<Parent, 1>") then 1 else 0.
Example cxx_family_types : forall k, In k (relevant_classes fo family) -> declared_types k fam_types /\ version_constant fam_versions k.
Proof.
  intros k H. vm_compute in H. repeat (destruct H as [<-|H]; [split|]); try (destruct H; fail).
  1, 3, 5: intros n a c t Hm; vm_compute in Hm; repeat (destruct Hm as [Hm|Hm]; [try discriminate; injection Hm as <- <- <- <-; vm_compute; reflexivity|]); destruct Hm.
  all: intros b ts E T; injection E as <-; vm_compute in T; injection T as <-; vm_compute; reflexivity.
Qed.
Example cxx_family_writes : exists W R, file "BinaryReflector" (generate_binary fo family) = Some (file_functions FWrite FRead (relevant_classes fo family) W R)
  /\ forall H f fs ver Ws,
     (let! (_, s) := run_write fam_versions (lib_write_base GF H f fam_resolve fs) (lib_write_member GF H f 13 fam_types fs) lib_write_varint (W kchild) ver ([], Ws) in ROk s)
     = write_cls GF H (S f) ver 13 fs Ws.
Proof.
  destruct (C56_binary_file fo family cxx_family_proper) as (W & R & F). exists W, R. split; [exact F|]. intros H f fs ver Ws.
  destruct (family_generated kchild child_relevant) as (rc & C & Gk). destruct (cxx_family_types kchild child_relevant) as [T V].
  exact (C56_text_writes fo family GF fam_resolve W R cxx_family_proper family_resolves F kchild rc fam_types fam_versions child_relevant C Gk T V H f fs ver Ws).
Qed.

(* ------------------------------------------------------------------ *)
(** ** text which means something else, or nothing *)
Definition body_of (s : string) : list CxxText.node := match tokens (B s) with Some ts => match group ts with Some l => l | None => [] end | None => [] end.
Example cxx_other_condition :
  run_write three note_base note_member note_version (body_of "if (version > 2) { serializer.write(customObject.a, version); }") 2 [] = ROk (2, [])
  /\ run_write three note_base note_member note_version (body_of "if (version >= 2) { serializer.write(customObject.a, version); }") 2 [] = ROk (2, [EvMember (B "a") 2]).
Proof. split; vm_compute; reflexivity. Qed.
Example cxx_no_code : forall s, In s ["if (&& version >= 2) { serializer.write(customObject.a, version); }"; "serializer.write(customObject.int, version);";
    "serializer.write(customObject.a);"; "if (version >= 010) { serializer.write(customObject.a, version); }"; "return version;"]%string ->
  run_write three note_base note_member note_version (body_of s) 2 [] = RStuck.
Proof. intros s H. repeat (destruct H as [<-|H]; [vm_compute; reflexivity|]). destruct H. Qed.
Example cxx_no_return : run_read three note_base note_member (found_version 1) (body_of "deserializer.read(customObject.a, version);") 1 [] = RUB.
Proof. vm_compute. reflexivity. Qed.
Example cxx_no_file : file "BinaryReflector" (B expected_json) = None /\ file "JsonReflector" (B "namespace ReflectiveRapidJSON { namespace JsonReflector { } ") = None.
Proof. split; vm_compute; reflexivity. Qed.

(** a marker macro with a version beyond the signed integers is printed without suffix: such a literal has no type in standard
    C++ (compilers warn "integer constant is so large that it is unsigned") *)
Definition big : crecord := mk 2 "Big" 0 [base 1 bt "BinarySerializable<Big>" 0] [MVar (B "rrjAsOfVersion0") (Some (2 ^ 63)); pub "a" i32].
Theorem C56_large_literal_refuted : exists w r,
  option_map (map f_body) (file "BinaryReflector" (generate_binary vo [DRecord big])) = Some [w; r]
  /\ run_write (fun _ => 0) note_base note_member note_version w 2 [] = RStuck.
Proof. eexists _, _. split; [vm_compute; reflexivity|vm_compute; reflexivity]. Qed.

Print Assumptions C56_large_literal_refuted.
