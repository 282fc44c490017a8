(** ExamplesCMake.v -- concrete calls of add_reflection_generator_invocation, and where it does not do what one expects. *)
From Coq Require Import String List NArith ZArith Bool Lia.
From Verif Require Import Base BaseFacts Types GenModel ToolModel ToolFacts CMakeModel CMakeSpec CMakeFacts CMakeTop PropertiesCMake.
Import ListNotations.
Local Open Scope list_scope.
Local Open Scope N_scope.

(** a configuration: one target with properties, one dependency with an interface *)
Definition cpv (t : bytes) (p : property) : list bytes :=
  if bytes_eqb t (bs "app") then
    match p with
    | PStandard => [bs "17"]
    | POptions => map bs ["-Wall"; "-Wextra"]%string
    | PDefinitions => map bs ["A=1"; "B"]%string
    | PIncludes => [bs "/usr/include/x"]
    | _ => []
    end
  else if bytes_eqb t (bs "dep") then
    match p with PInterfaceDefinitions => [bs "DEP"] | _ => [] end
  else [].
Definition CE : cmake_env := {|
  ce_source_dir := bs "/src"; ce_binary_dir := bs "/build"; ce_executable := bs "reflective_rapidjson_generator";
  ce_resource_dir := bs "/usr/lib/clang/16"; ce_triple := bs "x86_64-w64-mingw32"; ce_includes := bs "/cross/include;/cross/c++"; ce_cross := true;
  ce_is_dir := fun d => bytes_eqb d (bs "/cross/include") || bytes_eqb d (bs "/cross/c++"); ce_target := bytes_eqb (bs "dep");
  ce_prop := fun t p => joined (cpv t p) |}.
Definition cincs : list bytes := map bs ["/cross/include"; "/cross/c++"]%string.

Ltac plain_tac := split; [discriminate|]; repeat constructor; cbn; intros [?|[?|[?|[?|[]]]]]; discriminate.
Ltac not_off_tac := let H := fresh in intros H; apply is_off_spec in H; vm_compute in H; discriminate H.
Ltac value_tac := split; [plain_tac|cbn; intros H; repeat (destruct H as [H|H]; [discriminate H|]); exact H].
Ltac values_tac := repeat (constructor; [value_tac|]); constructor.

Lemma CE_good : good_config CE cpv cincs.
Proof.
  split; [plain_tac|]. split; [plain_tac|]. split; [right; split; [plain_tac|not_off_tac]|]. split; [reflexivity|].
  split; [repeat (constructor; [plain_tac|]); constructor|]. split.
  - intros t p. split; [reflexivity|]. unfold cpv. destruct (bytes_eqb t (bs "app")), (bytes_eqb t (bs "dep")), p;
      (split; [repeat (constructor; [plain_tac|]); constructor|]); (left; reflexivity) || (right; not_off_tac).
  - intros t. unfold cpv. destruct (bytes_eqb t (bs "app")), (bytes_eqb t (bs "dep")); cbn; lia.
Qed.

(** a call like the one in generator/CMakeLists.txt:78-98 *)
Definition ccall : list (bytes * list bytes) :=
  [(bs "INPUT_FILES", map bs ["tests/structs.h"; "tests/more.structs.h"; "visitor.cpp"]%string);
   (bs "GENERATORS", map bs ["json"; "binary"]%string);
   (bs "ERROR_RESILIENT", []);
   (bs "OUTPUT_LISTS", [bs "HEADERS"]);
   (bs "CLANG_OPTIONS", [bs "-std=c++17"]);
   (bs "CLANG_OPTIONS_FROM_TARGETS", [bs "app"]);
   (bs "CLANG_OPTIONS_FROM_DEPENDENCIES", map bs ["dep"; "other"]%string);
   (bs "JSON_CLASSES", map bs ["OtherNotJsonSerializable"; "SomeOtherClassName"]%string);
   (bs "JSON_VISIBILITY", [bs "CPP_UTILITIES_GENERIC_LIB_EXPORT"])].

Lemma ccall_good : good_call ccall.
Proof.
  split; [|split].
  - assert (M: forall k vs, In k multi_words -> Forall value vs -> group (k, vs)) by (intros; apply group_multi; assumption).
    unfold ccall. cbn [map].
    constructor; [apply M; [cbn; tauto|values_tac]|]. constructor; [apply M; [cbn; tauto|values_tac]|]. constructor; [apply group_flag; cbn; tauto|].
    constructor; [apply M; [cbn; tauto|values_tac]|]. constructor; [apply M; [cbn; tauto|values_tac]|]. constructor; [apply M; [cbn; tauto|values_tac]|].
    constructor; [apply M; [cbn; tauto|values_tac]|]. constructor; [apply M; [cbn; tauto|values_tac]|].
    constructor; [apply group_single; [cbn; tauto|value_tac]|]. constructor.
  - cbn [map ccall fst]. repeat (constructor; [cbn; intros H; repeat (destruct H as [H|H]; [discriminate H|]); exact H|]). constructor.
  - intros k H. repeat (destruct H as [<-|H]; [(left; reflexivity) || (right; not_off_tac)|]). destruct H.
Qed.
Ltac no_option_tac := split; intros [r H]; discriminate H.
Lemma ccall_no_options : Forall no_option (wanted_options CE cpv cincs ccall) /\ Forall no_option (given ccall "GENERATORS") /\ Forall no_option (given ccall "JSON_CLASSES").
Proof. repeat split; cbn; repeat (constructor; [no_option_tac|]); constructor. Qed.

(** what comes out: three commands; the options clang gets *)
Example ccall_commands :
  match add_invocation CE (fun n => if bytes_eqb n (bs "HEADERS") then bs "old.h" else []) (written ccall) with
  | Some (cs, v) => map co_output cs = map bs ["/build/reflection/structs.h"; "/build/reflection/more.h"; "/build/reflection/visitor.h"]%string
                    /\ v (bs "HEADERS") = bs "old.h;/build/reflection/structs.h;/build/reflection/more.h;/build/reflection/visitor.h"
                    /\ map (fun c => option_map tr_input (read_cli (co_args c))) cs = map Some (map bs ["tests/structs.h"; "tests/more.structs.h"; "visitor.cpp"]%string)
  | None => False
  end.
Proof. vm_compute. repeat split. Qed.
Example ccall_options :
  wanted_options CE cpv cincs ccall =
  map bs ["-std=c++17"; "-resource-dir"; "/usr/lib/clang/16"; "-target"; "x86_64-w64-mingw32"; "-Xclang"; "-triple"; "-Xclang"; "x86_64-w64-mingw32";
          "-I"; "/cross/include"; "-I"; "/cross/c++"; "-nostdinc"; "-std=c++17"; "-Wall"; "-Wextra"; "-DA=1"; "-DB"; "-I/usr/include/x"; "-DDEP"]%string.
Proof. reflexivity. Qed.
Example ccall_theorem : exists cs v, add_invocation CE (fun _ => []) (written ccall) = Some (cs, v) /\
  Forall2 (fun input c => exists out, output_for CE ccall input out
             /\ denotes (bs "/build") out (co_output c) /\ co_program c = ce_executable CE
             /\ denotes (bs "/src") input (co_depends c) /\ co_dir c = bs "/src"
             /\ read_cli (co_args c) = Some (told CE cpv cincs ccall input out))
          (given ccall "INPUT_FILES") cs.
Proof.
  destruct (add_invocation CE (fun _ => []) (written ccall)) as [[cs v]|] eqn:E; [|vm_compute in E; discriminate].
  exists cs, v. split; [reflexivity|]. destruct ccall_no_options as (N1 & N2 & N3). exact (C63_commands CE cpv cincs ccall (fun _ => []) cs v ccall_good CE_good N1 N2 N3 E).
Qed.

(* ------------------------------------------------------------------ *)
(** * Not as expected *)

Definition E0 : cmake_env := {|
  ce_source_dir := bs "/src"; ce_binary_dir := bs "/build"; ce_executable := bs "gen"; ce_resource_dir := bs "/clang"; ce_triple := []; ce_includes := [];
  ce_cross := false; ce_is_dir := fun _ => true; ce_target := fun _ => true; ce_prop := fun _ _ => [] |}.

(** REFUTED: that the files are generated where the build expects them when OUTPUT_DIRECTORY is a relative path such as
    custom/directory (the example README.md gives): the generator writes relative to the source directory, the
    output is declared relative to the binary directory. *)
Theorem C63_relative_directory_refuted :
  exists c v r, add_invocation E0 (fun _ => []) (map bs ["INPUT_FILES"; "a.h"; "GENERATORS"; "json"; "OUTPUT_DIRECTORY"; "custom/directory"]%string) = Some ([c], v)
    /\ read_cli (co_args c) = Some r /\ tr_output r = Some (bs "custom/directory/a.h")
    /\ denotes (co_dir c) (bs "custom/directory/a.h") (bs "/src/custom/directory/a.h")
    /\ co_output c = bs "/build/custom/directory/a.h".
Proof.
  match goal with |- exists c v r, ?x = _ /\ _ => destruct x as [[cs v]|] eqn:E; [|vm_compute in E; discriminate] end.
  vm_compute in E. inversion E; subst. do 3 eexists. split; [reflexivity|]. split; [vm_compute; reflexivity|]. split; [reflexivity|].
  split; [|reflexivity]. apply (denotes_relative (bs "/src") (bs "custom/directory/a.h")). intros [p P]. discriminate P.
Qed.

(** REFUTED: that a separate file is generated for each input file: two input files with the same name up to the first dot
    make configuring fail. *)
Theorem C63_same_name_refuted : forall v,
  add_invocation E0 v (map bs ["INPUT_FILES"; "a/x.h"; "b/x.h"; "GENERATORS"; "json"]%string) = None
  /\ add_invocation E0 v (map bs ["INPUT_FILES"; "x.first.h"; "x.second.h"; "GENERATORS"; "json"]%string) = None.
Proof. intros v. split; reflexivity. Qed.

(** REFUTED: that the visibility attribute for the binary generator can be specified as BINARY_VISIBILITY: the keyword the function
    knows is misspelled, so the word and the attribute become values of the keyword before, for instance names of generators,
    and the tool refuses to run (exit code -5). *)
Theorem C63_binary_visibility_refuted :
  exists c v r, add_invocation E0 (fun _ => []) (map bs ["INPUT_FILES"; "a.h"; "GENERATORS"; "json"; "binary"; "BINARY_VISIBILITY"; "EXPORT"]%string) = Some ([c], v)
    /\ read_cli (co_args c) = Some r /\ tr_binary_visibility r = []
    /\ tr_generators r = Some (map bs ["json"; "binary"; "BINARY_VISIBILITY"; "EXPORT"]%string)
    /\ (forall cl, cl_names cl = tr_generators r -> cl_help cl = false -> cl_generate cl = true -> cl_output cl <> Some false -> fst (main_run cl) = (-5)%Z).
Proof.
  match goal with |- exists c v r, ?x = _ /\ _ => destruct x as [[cs v]|] eqn:E; [|vm_compute in E; discriminate] end.
  vm_compute in E. inversion E; subst. do 3 eexists. split; [reflexivity|]. split; [vm_compute; reflexivity|]. split; [reflexivity|]. split; [reflexivity|].
  intros cl N H G O. unfold main_run. rewrite H, G, N. cbn [tr_generators orb negb]. destruct (cl_output cl) as [[|]|]; [reflexivity|congruence|reflexivity].
Qed.
Example binary_visbility_works :
  exists c v r, add_invocation E0 (fun _ => []) (map bs ["INPUT_FILES"; "a.h"; "GENERATORS"; "binary"; "BINARY_VISBILITY"; "EXPORT"]%string) = Some ([c], v)
    /\ read_cli (co_args c) = Some r /\ tr_binary_visibility r = bs "EXPORT".
Proof.
  match goal with |- exists c v r, ?x = _ /\ _ => destruct x as [[cs v]|] eqn:E; [|vm_compute in E; discriminate] end.
  vm_compute in E. inversion E; subst. do 3 eexists. split; [reflexivity|]. split; [vm_compute; reflexivity|reflexivity].
Qed.

Definition with_prop (p : property) (v : bytes) : cmake_env := {|
  ce_source_dir := bs "/src"; ce_binary_dir := bs "/build"; ce_executable := bs "gen"; ce_resource_dir := bs "/clang"; ce_triple := []; ce_includes := [];
  ce_cross := false; ce_is_dir := fun _ => true; ce_target := fun _ => true;
  ce_prop := fun _ q => match p, q with PDefinitions, PDefinitions => v | PFlags, PFlags => v | _, _ => [] end |}.
Definition clang_of (e : cmake_env) : option (list bytes) :=
  match add_invocation e (fun _ => []) (map bs ["INPUT_FILES"; "a.h"; "GENERATORS"; "json"; "CLANG_OPTIONS_FROM_TARGETS"; "app"]%string) with
  | Some ([c], _) => option_map tr_clang (read_cli (co_args c))
  | _ => None
  end.

(** REFUTED: that all compile definitions of a target are passed: a definition which is the only one and is called like a false
    constant of CMake (here N) is not. *)
Theorem C63_definition_lost_refuted :
  clang_of (with_prop PDefinitions (bs "N")) = Some (map bs ["-resource-dir"; "/clang"]%string)
  /\ clang_of (with_prop PDefinitions (bs "N;M")) = Some (map bs ["-resource-dir"; "/clang"; "-DN"; "-DM"]%string).
Proof. split; reflexivity. Qed.

(** REFUTED: that all compile flags of a target are passed: COMPILE_FLAGS is not a list but a string of flags separated by
    spaces, which is passed as one argument. *)
Theorem C63_flags_refuted :
  clang_of (with_prop PFlags (bs "-Wall -DX")) = Some (map bs ["-resource-dir"; "/clang"; "-Wall -DX"]%string).
Proof. reflexivity. Qed.

(** REFUTED: that every input file gets its own command if a name contains an opening square bracket. *)
Theorem C63_bracket_refuted : forall v,
  option_map (fun r => map (fun c => option_map tr_input (read_cli (co_args c))) (fst r))
    (add_invocation E0 v (map bs ["GENERATORS"; "json"; "INPUT_FILES"; "a[1.h"; "b.h"]%string)) = Some [None].
Proof. intros v. reflexivity. Qed.

Print Assumptions C63_relative_directory_refuted.
Print Assumptions C63_same_name_refuted.
Print Assumptions C63_binary_visibility_refuted.
Print Assumptions C63_definition_lost_refuted.
Print Assumptions C63_flags_refuted.
Print Assumptions C63_bracket_refuted.
