(** CMakeModel.v -- the CMake function which adds invocations of the code generator (lib/cmake/modules/ReflectionGenerator.cmake)
    and how the code generator reads the command line it is invoked with (generator/main.cpp).

    Trusted descriptions of other code: CMake's lists (cmExpandList, list(APPEND), set), cmake_parse_arguments, if(<variable>),
    get_filename_component(NAME_WE), generator expressions, add_custom_command; CppUtilities::ArgumentParser. *)
From Coq Require Import String List NArith ZArith Bool Lia.
From Verif Require Import Base Types GenModel ToolModel.
Import ListNotations.
Local Open Scope list_scope.
Local Open Scope N_scope.

(* ------------------------------------------------------------------ *)
(** * Strings as lists *)

Section Lists.
(** The elements of a string are bytes or whole generator expressions ([ch] below); [sym] is the byte CMake sees. *)
Context {A : Type} (sym : A -> Byte.byte).

(** cmExpandList of CMake with [emptyArgs]: the elements of a list given as string. A ';' inside of square brackets or after a
    backslash does not separate elements. *)
Fixpoint split_list (nest : Z) (cur : list A) (s : list A) : list (list A) :=
  match s with
  | [] => [cur]
  | c :: s' =>
      if beqb (sym c) Byte.x5c then
        match s' with
        | d :: s'' => if beqb (sym d) semicolon then split_list nest (cur ++ [d]) s'' else split_list nest (cur ++ [c]) s'
        | [] => [cur ++ [c]]
        end
      else if beqb (sym c) Byte.x5b then split_list (nest + 1) (cur ++ [c]) s'
      else if beqb (sym c) Byte.x5d then split_list (nest - 1) (cur ++ [c]) s'
      else if beqb (sym c) semicolon && (nest =? 0)%Z then cur :: split_list nest [] s'
      else split_list nest (cur ++ [c]) s'
  end.

Definition nonempty (s : list A) : bool := match s with [] => false | _ => true end.

(** cmExpandList without [emptyArgs]: what the unquoted argument "${X}" stands for *)
Definition expand (s : list A) : list (list A) := filter nonempty (split_list 0 [] s).

(** cmJoin with ";" and the like: the string for a list *)
Fixpoint join (glue : list A) (l : list (list A)) : list A :=
  match l with [] => [] | [x] => x | x :: l' => x ++ glue ++ join glue l' end.

(** list(APPEND <variable> <elements>...) *)
Definition list_append (glue : list A) (var : list A) (l : list (list A)) : list A :=
  match l, var with [], _ => var | _, [] => join glue l | _, _ => var ++ glue ++ join glue l end.
End Lists.

Definition idb (b : Byte.byte) : Byte.byte := b.
Definition semi : bytes := [semicolon].

(* ------------------------------------------------------------------ *)
(** * Conditions and file names *)

Definition upper (b : Byte.byte) : Byte.byte :=
  if (Byte.to_N Byte.x61 <=? Byte.to_N b) && (Byte.to_N b <=? Byte.to_N Byte.x7a) then
    match Byte.of_N (Byte.to_N b - 32) with Some c => c | None => b end
  else b.

(** cmIsOff of CMake: the values which if(<variable>) and $<BOOL:...> take for false *)
Definition off_words : list bytes := map bs ["0"; "OFF"; "NO"; "FALSE"; "N"; "IGNORE"]%string.
Definition is_off (v : bytes) : bool :=
  match v with [] => true | _ =>
    existsb (bytes_eqb (map upper v)) off_words
    || bytes_eqb v (bs "NOTFOUND")
    || bytes_eqb (skipn (List.length v - 9) v) (bs "-NOTFOUND")
  end.

(** get_filename_component(... NAME_WE): the file name without directory and without everything from the first '.' *)
Fixpoint file_name (cur s : bytes) : bytes :=
  match s with [] => cur | b :: s' => if beqb b Byte.x2f then file_name [] s' else file_name (cur ++ [b]) s' end.
Fixpoint before_dot (s : bytes) : bytes :=
  match s with [] => [] | b :: s' => if beqb b Byte.x2e then [] else b :: before_dot s' end.
Definition name_we (path : bytes) : bytes := before_dot (file_name [] path).

(** what a path denotes when it is used in directory [base] *)
Definition resolve (base path : bytes) : bytes :=
  match path with b :: _ => if beqb b Byte.x2f then path else base ++ bs "/" ++ path | [] => base ++ bs "/" end.

(* ------------------------------------------------------------------ *)
(** * cmake_parse_arguments *)

Inductive kind := Flag | Single | Multi.

(** OPTIONAL_ARGS, ONE_VALUE_ARGS and MULTI_VALUE_ARGS (lib/cmake/modules/ReflectionGenerator.cmake:90-99) *)
Definition keywords : list (bytes * kind) :=
  [(bs "ERROR_RESILIENT", Flag);
   (bs "OUTPUT_DIRECTORY", Single); (bs "JSON_VISIBILITY", Single); (bs "BINARY_VISBILITY", Single);
   (bs "INPUT_FILES", Multi); (bs "GENERATORS", Multi); (bs "OUTPUT_LISTS", Multi); (bs "CLANG_OPTIONS", Multi);
   (bs "CLANG_OPTIONS_FROM_TARGETS", Multi); (bs "CLANG_OPTIONS_FROM_DEPENDENCIES", Multi); (bs "JSON_CLASSES", Multi)].

Fixpoint lookup {A} (l : list (bytes * A)) (k : bytes) : option A :=
  match l with [] => None | (n, a) :: l' => if bytes_eqb n k then Some a else lookup l' k end.

Definition store := bytes -> list bytes.
Definition put (st : store) (k : bytes) (vs : list bytes) : store := fun n => if bytes_eqb n k then vs else st n.

(** cmake_parse_arguments(ARGS ...): [cur] is the keyword whose value(s) are expected. Values before the first keyword and
    after the value of a one-value keyword are ignored (the function does not look at ARGS_UNPARSED_ARGUMENTS). *)
Fixpoint parse_arguments (cur : option (bytes * kind)) (st : store) (args : list bytes) : store :=
  match args with
  | [] => st
  | a :: args' =>
      match lookup keywords a with
      | Some Flag => parse_arguments None (put st a [bs "TRUE"]) args'
      | Some k => parse_arguments (Some (a, k)) st args'
      | None =>
          match cur with
          | Some (n, Single) => parse_arguments None (put st n [a]) args'
          | Some (n, Multi) => parse_arguments cur (put st n (st n ++ [a])) args'
          | _ => parse_arguments cur st args'
          end
      end
  end.

(* ------------------------------------------------------------------ *)
(** * Generator expressions *)

Inductive property :=
  PStandard | PFlags | POptions | PDefinitions | PIncludes | PInterfaceOptions | PInterfaceDefinitions | PInterfaceIncludes.

(** The two forms of generator expressions the function composes: -std=c++... and the values of a property which are joined
    with a prefix each (lib/cmake/modules/ReflectionGenerator.cmake:140-172) *)
Inductive genex := GxStd (target : bytes) | GxList (prefix target : bytes) (p : property).

(** one element of a string in CMake: a byte or a generator expression, whose text contains none of ; [ ] and backslash
    (provided that the name of the target contains none of them) *)
Inductive ch := Ch (b : Byte.byte) | Gx (g : genex).
Definition chb (c : ch) : Byte.byte := match c with Ch b => b | Gx _ => Byte.x24 end.
Definition lit (s : bytes) : list ch := map Ch s.

(** what the configuration consists of *)
Record cmake_env := {
  ce_source_dir : bytes;          (* CMAKE_CURRENT_SOURCE_DIR *)
  ce_binary_dir : bytes;          (* CMAKE_CURRENT_BINARY_DIR *)
  ce_executable : bytes;          (* REFLECTION_GENERATOR_EXECUTABLE *)
  ce_resource_dir : bytes;        (* REFLECTION_GENERATOR_CLANG_RESOURCE_DIR *)
  ce_triple : bytes;              (* REFLECTION_GENERATOR_TRIPLE *)
  ce_includes : bytes;            (* REFLECTION_GENERATOR_INCLUDE_DIRECTORIES, a list *)
  ce_cross : bool;                (* CMAKE_CROSSCOMPILING *)
  ce_is_dir : bytes -> bool;      (* IS_DIRECTORY *)
  ce_target : bytes -> bool;      (* TARGET *)
  ce_prop : bytes -> property -> bytes }. (* $<TARGET_PROPERTY:target,property>, a list; CMake reports an error if there is no such target *)

(** _reflective_rapidjson_set_prop (lib/cmake/modules/ReflectionGenerator.cmake:70-84), for CMake 3.15 and newer:
    $<FILTER:...,EXCLUDE,^$> *)
Definition set_prop (e : cmake_env) (t : bytes) (p : property) : bytes :=
  join semi (filter nonempty (split_list idb 0 [] (ce_prop e t p))).

Definition eval_genex (e : cmake_env) (g : genex) : bytes :=
  match g with
  (* "$<$<BOOL:$<TARGET_PROPERTY:t,CXX_STANDARD>>:-std=c++$<TARGET_PROPERTY:t,CXX_STANDARD>>" *)
  | GxStd t => let v := ce_prop e t PStandard in if is_off v then [] else bs "-std=c++" ++ v
  (* "$<$<BOOL:${PROP}>:prefix$<JOIN:${PROP},$<SEMICOLON>prefix>>" *)
  | GxList prefix t p =>
      let v := set_prop e t p in
      if is_off v then [] else prefix ++ join (semi ++ prefix) (expand idb v)
  end.
Definition eval (e : cmake_env) (s : list ch) : bytes :=
  flat_map (fun c => match c with Ch b => [b] | Gx g => eval_genex e g end) s.

(* ------------------------------------------------------------------ *)
(** * add_reflection_generator_invocation *)

(** if (X) foreach (Y ${X}): the elements the loop runs over *)
Definition if_foreach (v : bytes) : list bytes := if is_off v then [] else expand idb v.

(** add_custom_command(OUTPUT ... COMMAND ... DEPENDS ... WORKING_DIRECTORY ... VERBATIM) *)
Record command := { co_output : bytes; co_program : bytes; co_args : list bytes; co_depends : bytes; co_dir : bytes }.

Definition chsemi : list ch := [Ch semicolon].

(** lib/cmake/modules/ReflectionGenerator.cmake:140-156, options from one target *)
Definition target_options (t : bytes) : list (list ch) :=
  [[Gx (GxStd t)]; [Gx (GxList [] t PFlags)]; [Gx (GxList [] t POptions)]; [Gx (GxList (bs "-D") t PDefinitions)];
   [Gx (GxList (bs "-I") t PIncludes)]].
(** lib/cmake/modules/ReflectionGenerator.cmake:161-172, options from one dependency *)
Definition dependency_options (e : cmake_env) (t : bytes) : list (list ch) :=
  if ce_target e t then
    [[Gx (GxList [] t PInterfaceOptions)]; [Gx (GxList (bs "-D") t PInterfaceDefinitions)]; [Gx (GxList (bs "-I") t PInterfaceIncludes)]]
  else [].

(** ARGS_CLANG_OPTIONS (lib/cmake/modules/ReflectionGenerator.cmake:108-174); [None]: a specified include directory
    does not exist *)
Definition clang_list (e : cmake_env) (args : store) : option (list ch) :=
  let s := lit (join semi (args (bs "CLANG_OPTIONS"))) in
  let s := list_append chsemi s [lit (bs "-resource-dir"); lit (ce_resource_dir e)] in
  let s := if is_off (ce_triple e) then s
           else list_append chsemi s (map lit [bs "-target"; ce_triple e; bs "-Xclang"; bs "-triple"; bs "-Xclang"; ce_triple e]) in
  let dirs := expand idb (ce_includes e) in
  if forallb (ce_is_dir e) dirs then
    let s := fold_left (fun s d => list_append chsemi s [lit (bs "-I"); lit d]) dirs s in
    let s := if ce_cross e then list_append chsemi s [lit (bs "-nostdinc")] else s in
    let s := fold_left (fun s t => fold_left (fun s o => list_append chsemi s [o]) (target_options t) s)
                       (if_foreach (join semi (args (bs "CLANG_OPTIONS_FROM_TARGETS")))) s in
    Some (fold_left (fun s t => fold_left (fun s o => list_append chsemi s [o]) (dependency_options e t) s)
                    (if_foreach (join semi (args (bs "CLANG_OPTIONS_FROM_DEPENDENCIES")))) s)
  else None.

(** CLI_ARGUMENTS (lib/cmake/modules/ReflectionGenerator.cmake:184-203) *)
Definition cli_list (args : store) (clang : list ch) (output input : bytes) : list ch :=
  let var k := join semi (args (bs k)) in
  let unquoted k := map lit (expand idb (var k)) in
  let s := join chsemi ([lit (bs "--output-file"); lit output; lit (bs "--input-file"); lit input]
                        ++ [lit (bs "--generators")] ++ unquoted "GENERATORS"%string
                        ++ [lit (bs "--clang-opt")] ++ expand chb clang
                        ++ [lit (bs "--json-classes")] ++ unquoted "JSON_CLASSES"%string) in
  let s := if is_off (var "JSON_VISIBILITY"%string) then s
           else list_append chsemi s [lit (bs "--json-visibility"); lit (var "JSON_VISIBILITY"%string)] in
  let s := if is_off (var "BINARY_VISBILITY"%string) then s
           else list_append chsemi s [lit (bs "--binary-visibility"); lit (var "BINARY_VISBILITY"%string)] in
  if is_off (var "ERROR_RESILIENT"%string) then s else list_append chsemi s [lit (bs "--error-resilient")].

Definition vars := bytes -> bytes.
Definition vput (v : vars) (k s : bytes) : vars := fun n => if bytes_eqb n k then s else v n.

(** the output directory (lib/cmake/modules/ReflectionGenerator.cmake:102-106) *)
Definition output_directory (e : cmake_env) (args : store) : bytes :=
  let d := join semi (args (bs "OUTPUT_DIRECTORY")) in
  if is_off d then ce_binary_dir e ++ bs "/reflection" else d.

(** one input file (lib/cmake/modules/ReflectionGenerator.cmake:177-224): the custom command and the variables afterwards.
    [v] are the variables of the function; the variables of the caller get the values of those named by OUTPUT_LISTS.
    (The names of variables the function uses itself, such as OUTPUT_FILE, are not supposed to be passed as OUTPUT_LISTS.) *)
Definition add_command (e : cmake_env) (args : store) (clang : list ch) (v : vars) (input : bytes) : command * vars :=
  let output := output_directory e args ++ bs "/" ++ name_we input ++ bs ".h" in
  ({| co_output := resolve (ce_binary_dir e) output; co_program := ce_executable e;
      co_args := map (eval e) (expand chb (cli_list args clang output input));
      co_depends := resolve (ce_source_dir e) input; co_dir := ce_source_dir e |},
   fold_left (fun v l => vput v l (list_append semi (v l) [output])) (if_foreach (join semi (args (bs "OUTPUT_LISTS")))) v).

Fixpoint add_commands (e : cmake_env) (args : store) (clang : list ch) (v : vars) (inputs : list bytes) : list command * vars :=
  match inputs with
  | [] => ([], v)
  | i :: is => let '(c, v1) := add_command e args clang v i in let '(cs, v2) := add_commands e args clang v1 is in (c :: cs, v2)
  end.

(** add_reflection_generator_invocation(args...) (lib/cmake/modules/ReflectionGenerator.cmake:88-225): the custom commands and
    the caller's variables afterwards. The arguments do not contain generator expressions. CMake refuses a second custom
    command for the same output; [None]: configuring fails. *)
Fixpoint distinct (l : list bytes) : bool :=
  match l with [] => true | x :: l' => negb (existsb (bytes_eqb x) l') && distinct l' end.
Definition add_invocation (e : cmake_env) (v : vars) (argv : list bytes) : option (list command * vars) :=
  let args := parse_arguments None (fun _ => []) (expand idb (join semi argv)) in
  match clang_list e args with
  | None => None
  | Some clang =>
      let '(cs, v') := add_commands e args clang v (expand idb (join semi (args (bs "INPUT_FILES")))) in
      if distinct (map co_output cs) then Some (cs, v') else None
  end.

(* ------------------------------------------------------------------ *)
(** * The command line of the code generator *)

(** the arguments of the operation "generate" and the number of their values: [Flag] none, [Single] one, [Multi] any number
    (generator/main.cpp:31-49, generator/jsonserializationcodegenerator.cpp:20-27, generator/binaryserializationcodegenerator.cpp:25-32) *)
Definition tool_options : list (bytes * kind) :=
  [(bs "--input-file", Single); (bs "--output-file", Single); (bs "--generators", Multi); (bs "--clang-opt", Multi);
   (bs "--log-clang-opt", Flag); (bs "--error-resilient", Flag); (bs "--json-classes", Multi); (bs "--json-visibility", Single);
   (bs "--binary-classes", Multi); (bs "--binary-visibility", Single)].

(** what CppUtilities::ArgumentParser might not take for a value: "--..." and "-h..." (the abbreviation of --help).
    The forms "--name=value", "--help" and "--no-color" are not modelled: [None]. *)
Definition dashed (a : bytes) : bool :=
  bytes_eqb (firstn 2 a) (bs "--") || bytes_eqb (firstn 2 a) (bs "-h").

(** CppUtilities::ArgumentParser::parseArgs for this tool: the values of each argument which is present.
    [cur]: how many values the argument last seen, the first one of [st], takes. *)
Fixpoint parse_cli (cur : option kind) (st : list (bytes * list bytes)) (args : list bytes) : option (list (bytes * list bytes)) :=
  match args with
  | [] => match cur with Some Single => None | _ => Some st end
  | a :: args' =>
      match cur, st with
      | Some Single, (n, vs) :: st' => parse_cli None ((n, vs ++ [a]) :: st') args'
      | _, _ =>
          match lookup tool_options a with
          | Some k => match lookup st a with
                      | Some _ => None
                      | None => parse_cli (Some k) ((a, []) :: st) args'
                      end
          | None =>
              if dashed a then None else
              match cur, st with
              | Some Multi, (n, vs) :: st' => parse_cli cur ((n, vs ++ [a]) :: st') args'
              | _, _ => None
              end
          end
      end
  end.

(** what main does with the command line (generator/main.cpp:51-127) *)
Record tool_run := {
  tr_input : bytes; tr_output : option bytes;
  tr_generators : option (list bytes); tr_clang : list bytes; tr_resilient : bool;
  tr_json_classes : list bytes; tr_json_visibility : bytes; tr_binary_classes : list bytes; tr_binary_visibility : bytes }.

Definition values (o : option (list bytes)) : list bytes := match o with Some vs => vs | None => [] end.
Definition first_value (o : option (list bytes)) : bytes := match o with Some (v :: _) => v | _ => [] end.
Definition read_cli (args : list bytes) : option tool_run :=
  match parse_cli None [] args with
  | None => None
  | Some st =>
      match lookup st (bs "--input-file") with
      | None => None (* required *)
      | Some i =>
          Some {| tr_input := first_value (Some i);
                  tr_output := match lookup st (bs "--output-file") with Some o => Some (first_value (Some o)) | None => None end;
                  tr_generators := lookup st (bs "--generators");
                  tr_clang := clang_options (values (lookup st (bs "--clang-opt")));
                  tr_resilient := match lookup st (bs "--error-resilient") with Some _ => true | None => false end;
                  tr_json_classes := values (lookup st (bs "--json-classes"));
                  tr_json_visibility := first_value (lookup st (bs "--json-visibility"));
                  tr_binary_classes := values (lookup st (bs "--binary-classes"));
                  tr_binary_visibility := first_value (lookup st (bs "--binary-visibility")) |}
      end
  end.
