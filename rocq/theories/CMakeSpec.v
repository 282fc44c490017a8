(** CMakeSpec.v -- what calling the CMake function is supposed to do, independently of how CMake's lists are stored. *)
From Coq Require Import String List NArith ZArith Bool Lia.
From Verif Require Import Base Types GenModel ToolModel ToolFacts CMakeModel.
Import ListNotations.
Local Open Scope list_scope.
Local Open Scope N_scope.

(** a value CMake does not treat specially as element of a list: not empty and without any of ; [ ] and backslash *)
Definition plain (s : bytes) : Prop := s <> [] /\ Forall (fun b => ~ In b [Byte.x3b; Byte.x5b; Byte.x5d; Byte.x5c]) s.

(** values CMake takes for false *)
Definition off (s : bytes) : Prop :=
  s = [] \/ In (map upper s) (map bs ["0"; "OFF"; "NO"; "FALSE"; "N"; "IGNORE"]%string)
  \/ s = bs "NOTFOUND" \/ exists p, s = p ++ bs "-NOTFOUND".

(* ------------------------------------------------------------------ *)
(** * A call *)

Definition flag_words : list bytes := [bs "ERROR_RESILIENT"].
Definition single_words : list bytes := map bs ["OUTPUT_DIRECTORY"; "JSON_VISIBILITY"; "BINARY_VISBILITY"]%string.
Definition multi_words : list bytes :=
  map bs ["INPUT_FILES"; "GENERATORS"; "OUTPUT_LISTS"; "CLANG_OPTIONS"; "CLANG_OPTIONS_FROM_TARGETS"; "CLANG_OPTIONS_FROM_DEPENDENCIES";
          "JSON_CLASSES"]%string.
Definition value (v : bytes) : Prop := plain v /\ ~ In v (flag_words ++ single_words ++ multi_words).

(** a keyword with its values *)
Inductive group : bytes * list bytes -> Prop :=
| group_flag k : In k flag_words -> group (k, [])
| group_single k v : In k single_words -> value v -> group (k, [v])
| group_multi k vs : In k multi_words -> Forall value vs -> group (k, vs).

(** the values given for keyword [k], and whether it is given *)
Definition given (call : list (bytes * list bytes)) (k : String.string) : list bytes :=
  flat_map (fun g => if bytes_eqb (fst g) (bs k) then snd g else []) call.
Definition mentioned (call : list (bytes * list bytes)) (k : String.string) : bool :=
  existsb (fun g => bytes_eqb (fst g) (bs k)) call.

(** A call: keywords in any order, each at most once. The value of a keyword which is tested is not one CMake takes for false. *)
Definition good_call (call : list (bytes * list bytes)) : Prop :=
  Forall group call /\ NoDup (map fst call)
  /\ (forall k, In k ["OUTPUT_DIRECTORY"; "JSON_VISIBILITY"; "BINARY_VISBILITY"; "CLANG_OPTIONS_FROM_TARGETS";
                      "CLANG_OPTIONS_FROM_DEPENDENCIES"; "OUTPUT_LISTS"]%string ->
      given call k = [] \/ ~ off (joined (given call k))).

(** what is written between the parentheses *)
Definition written (call : list (bytes * list bytes)) : list bytes := flat_map (fun g => fst g :: snd g) call.

(* ------------------------------------------------------------------ *)
(** * The configuration *)

(** [pv t p] are the values of property [p] of target [t], [incs] those of REFLECTION_GENERATOR_INCLUDE_DIRECTORIES *)
Definition good_config (e : cmake_env) (pv : bytes -> property -> list bytes) (incs : list bytes) : Prop :=
  plain (ce_binary_dir e) /\ plain (ce_resource_dir e) /\ (ce_triple e = [] \/ (plain (ce_triple e) /\ ~ off (ce_triple e)))
  /\ ce_includes e = joined incs /\ Forall plain incs
  /\ (forall t p, ce_prop e t p = joined (pv t p) /\ Forall plain (pv t p) /\ (pv t p = [] \/ ~ off (joined (pv t p))))
  /\ (forall t, (List.length (pv t PStandard) <= 1)%nat).

(** the options clang is supposed to get *)
Definition from_target (pv : bytes -> property -> list bytes) (t : bytes) : list bytes :=
  map (app (bs "-std=c++")) (pv t PStandard) ++ pv t PFlags ++ pv t POptions
  ++ map (app (bs "-D")) (pv t PDefinitions) ++ map (app (bs "-I")) (pv t PIncludes).
Definition from_dependency (e : cmake_env) (pv : bytes -> property -> list bytes) (t : bytes) : list bytes :=
  if ce_target e t then
    pv t PInterfaceOptions ++ map (app (bs "-D")) (pv t PInterfaceDefinitions) ++ map (app (bs "-I")) (pv t PInterfaceIncludes)
  else [].
Definition wanted_options (e : cmake_env) (pv : bytes -> property -> list bytes) (incs : list bytes) (call : list (bytes * list bytes))
  : list bytes :=
  given call "CLANG_OPTIONS"
  ++ [bs "-resource-dir"; ce_resource_dir e]
  ++ match ce_triple e with [] => [] | t => [bs "-target"; t; bs "-Xclang"; bs "-triple"; bs "-Xclang"; t] end
  ++ flat_map (fun d => [bs "-I"; d]) incs
  ++ (if ce_cross e then [bs "-nostdinc"] else [])
  ++ flat_map (from_target pv) (given call "CLANG_OPTIONS_FROM_TARGETS")
  ++ flat_map (from_dependency e pv) (given call "CLANG_OPTIONS_FROM_DEPENDENCIES").

(** a value which the command line parser of the tool takes for a value *)
Definition no_option (s : bytes) : Prop := ~ (exists r, s = bs "--" ++ r) /\ ~ (exists r, s = bs "-h" ++ r).

(* ------------------------------------------------------------------ *)
(** * Files *)

(** [s] is the file name of [path] up to the first dot *)
Definition stem (path s : bytes) : Prop :=
  exists dir ext, path = dir ++ s ++ ext
    /\ (dir = [] \/ exists d, dir = d ++ bs "/") /\ ~ In Byte.x2f (s ++ ext)
    /\ ~ In Byte.x2e s /\ (ext = [] \/ exists x, ext = bs "." ++ x).

Definition absolute (path : bytes) : Prop := exists p, path = bs "/" ++ p.

(** the file [path] denotes when it is used in [dir] *)
Inductive denotes (dir : bytes) : bytes -> bytes -> Prop :=
| denotes_absolute p : absolute p -> denotes dir p p
| denotes_relative p : ~ absolute p -> denotes dir p (dir ++ bs "/" ++ p).

(** [out] is what is passed as output file for [input] *)
Definition output_for (e : cmake_env) (call : list (bytes * list bytes)) (input out : bytes) : Prop :=
  exists s, stem input s
    /\ out = match given call "OUTPUT_DIRECTORY" with [] => ce_binary_dir e ++ bs "/reflection" | d :: _ => d end ++ bs "/" ++ s ++ bs ".h".

(** what the code generator is supposed to be told about [input] *)
Definition told (e : cmake_env) (pv : bytes -> property -> list bytes) (incs : list bytes) (call : list (bytes * list bytes))
    (input out : bytes) : tool_run :=
  {| tr_input := input; tr_output := Some out;
     tr_generators := Some (given call "GENERATORS"); tr_clang := wanted_options e pv incs call;
     tr_resilient := mentioned call "ERROR_RESILIENT";
     tr_json_classes := given call "JSON_CLASSES"; tr_json_visibility := concat (given call "JSON_VISIBILITY");
     tr_binary_classes := []; tr_binary_visibility := concat (given call "BINARY_VISBILITY") |}.
