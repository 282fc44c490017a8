(** ToolModel.v -- the command line tool: options passed to clang, generators by name, diagnostics and exit code.

    Trusted descriptions of other code: CppUtilities::splitStringSimple, clang::DiagnosticIDs::ProcessDiag,
    clang::DiagnosticConsumer, clang::CompilerInstance::ExecuteAction. *)
From Coq Require Import String List NArith ZArith Bool Lia.
From Verif Require Import Base Types GenModel.
Import ListNotations.
Local Open Scope list_scope.
Local Open Scope N_scope.

(* ------------------------------------------------------------------ *)
(** * Options passed to clang *)

Definition semicolon : Byte.byte := Byte.x3b.

(** splitStringSimple<std::vector<std::string_view>>(value, ";") of CppUtilities without limit on the number of parts:
    the parts between the delimiters. (Whether a trailing empty part is returned does not matter as empty parts are dropped.) *)
Fixpoint split_simple (s : bytes) : list bytes :=
  match s with
  | [] => [[]]
  | b :: s' =>
      if beqb b semicolon then [] :: split_simple s'
      else match split_simple s' with [] => [[b]] | p :: ps => (b :: p) :: ps end
  end.

Definition is_empty (s : bytes) : bool := match s with [] => true | _ => false end.

(** main (generator/main.cpp:72-84): [values] are the values of --clang-opt *)
Definition clang_options (values : list bytes) : list bytes :=
  flat_map (fun value => filter (fun p => negb (is_empty p)) (split_simple value)) values.

(** the flags in makeClangArgs (generator/codefactory.cpp:55-56); PROJECT_VARNAME_UPPER is derived from
    META_PROJECT_NAME (generator/CMakeLists.txt:4) *)
Definition fixed_flags : list bytes :=
  map bs ["-x"; "c++"; "-Wno-pragma-once-outside-header"; "-std=c++14"; "-fsyntax-only"; "-DREFLECTIVE_RAPIDJSON_GENERATOR"]%string.

(** CodeFactory::makeClangArgs (generator/codefactory.cpp:53-63). [flags] is a local static variable: its first element is
    the application path of the factory which called this function first. [cached] is that variable before the call
    ([None]: not initialised yet). *)
Definition makeClangArgs (cached : option bytes) (app : bytes) (options files : list bytes) : list bytes * option bytes :=
  let a := match cached with Some a => a | None => app end in
  (a :: fixed_flags ++ options ++ files, Some a).

(* ------------------------------------------------------------------ *)
(** * Diagnostics *)

(** clang::DiagnosticsEngine::Level (ordered) *)
Inductive dlevel := DIgnored | DNote | DRemark | DWarning | DError | DFatal.
Definition lnum (l : dlevel) : N := match l with DIgnored => 0 | DNote => 1 | DRemark => 2 | DWarning => 3 | DError => 4 | DFatal => 5 end.
Definition is_error (l : dlevel) : bool := lnum DError <=? lnum l.
Definition leqb (a b : dlevel) : bool := lnum a =? lnum b.

(** a diagnostic; the text is an arbitrary [d_text] *)
Record diag := { d_level : dlevel; d_category : N; d_text : bytes }.

(** clang::DiagnosticsEngine: ErrorOccurred, FatalErrorOccurred, NumErrors, LastDiagLevel *)
Record engine := { en_error : bool; en_fatal : bool; en_errors : N; en_last : dlevel }.
(** DiagnosticsEngine::Reset *)
Definition engine0 : engine := {| en_error := false; en_fatal := false; en_errors := 0; en_last := DIgnored |}.

(** DiagConsumer (generator/consumer.h:49-66): [dc_errors] is NumErrors of the base class DiagnosticConsumer,
    [dc_proxy] what the previous consumer got, [dc_real] m_realErrorCount (unsigned int; overflow is not modelled) *)
Record consumer := { dc_resilient : bool; dc_real : N; dc_errors : N; dc_proxy : list diag }.
Definition consumer0 (resilient : bool) : consumer := {| dc_resilient := resilient; dc_real := 0; dc_errors := 0; dc_proxy := [] |}.

(** DiagConsumer::HandleDiagnostic (generator/consumer.cpp:62-88): returns whether the engine is reset *)
Definition handle_diagnostic (c : consumer) (d : diag) : consumer * bool :=
  let '(level, real, reset) :=
    if dc_resilient c && is_error (d_level d) then
      if d_category d =? 2 then (DWarning, dc_real c, dc_real c =? 0)
      else (d_level d, dc_real c + 1, false)
    else (d_level d, dc_real c, false) in
  ({| dc_resilient := dc_resilient c; dc_real := real;
      (* DiagnosticConsumer::HandleDiagnostic *)
      dc_errors := dc_errors c + (if is_error level then 1 else 0);
      dc_proxy := dc_proxy c ++ [{| d_level := level; d_category := d_category d; d_text := d_text d |}] |}, reset).

(** fatal_too_many_errors (no category) *)
Definition too_many : diag := {| d_level := DFatal; d_category := 0; d_text := bs "too many errors emitted, stopping now" |}.

Definition emit (e : engine) (c : consumer) (d : diag) : engine * consumer :=
  let '(c', reset) := handle_diagnostic c d in (if reset then engine0 else e, c').

(** DiagnosticIDs::ProcessDiag of clang: [limit] is the error limit (-ferror-limit; 0: none) *)
Definition process (limit : N) (s : engine * consumer) (d : diag) : engine * consumer :=
  let '(e, c) := s in
  let l := d_level d in
  let e := if leqb l DNote then e
           else {| en_error := en_error e; en_fatal := en_fatal e || leqb (en_last e) DFatal; en_errors := en_errors e; en_last := l |} in
  if en_fatal e then
    ({| en_error := en_error e; en_fatal := true; en_errors := if is_error l then en_errors e + 1 else en_errors e; en_last := en_last e |}, c)
  else if leqb l DIgnored || (leqb l DNote && leqb (en_last e) DIgnored) then (e, c)
  else if is_error l then
    let e := {| en_error := true; en_fatal := false; en_errors := en_errors e + 1; en_last := en_last e |} in
    if negb (limit =? 0) && (limit <? en_errors e) && leqb l DError then
      (* the delayed diagnostic is reported instead *)
      emit {| en_error := true; en_fatal := true; en_errors := en_errors e + 1; en_last := DFatal |} c too_many
    else emit e c d
  else emit e c d.

Definition process_all (limit : N) (resilient : bool) (ds : list diag) : engine * consumer :=
  fold_left (process limit) ds (engine0, consumer0 resilient).

(** CodeFactory::run (generator/codefactory.cpp:91-99): CompilerInstance::ExecuteAction returns whether the client counted no
    error; the client is the DiagConsumer (generator/frontendaction.cpp:23-25) *)
Definition run_succeeds (limit : N) (resilient : bool) (ds : list diag) : bool :=
  dc_errors (snd (process_all limit resilient ds)) =? 0.

(* ------------------------------------------------------------------ *)
(** * Generators and exit code *)

Inductive gname := GJson | GBinary.

(** generatorsByName (generator/main.cpp:100-103) *)
Definition generator_by_name (s : bytes) : option gname :=
  if bytes_eqb s (bs "json") then Some GJson else if bytes_eqb s (bs "binary") then Some GBinary else None.

(** generator/main.cpp:98-126: the generators which are added, [None] if there is an unknown one *)
Fixpoint select_generators (names : list bytes) : option (list gname) :=
  match names with
  | [] => Some []
  | n :: ns => match generator_by_name n, select_generators ns with Some g, Some gs => Some (g :: gs) | _, _ => None end
  end.
Definition generators (names : option (list bytes)) : option (list gname) :=
  match names with Some ns => select_generators ns | None => Some [GJson] end.

(** CodeFactory::generate (generator/codefactory.cpp:80-86), [code g] is what generator [g] writes *)
Definition generate (code : gname -> bytes) (gs : list gname) : bytes := flat_map code gs.

(** what a run of the program depends on *)
Record cmdline := {
  cl_help : bool; cl_generate : bool;            (* --help given, the (implicit) generate operation present *)
  cl_output : option bool;                       (* --output-file: whether it can be opened *)
  cl_names : option (list bytes);                (* --generators *)
  cl_resilient : bool;                           (* --error-resilient *)
  cl_limit : N; cl_diags : list diag;            (* error limit and what clang reports *)
  cl_code : gname -> bytes }.                    (* generated code *)

(** exit code and what is written to the output ([None]: the output is not touched), generator/main.cpp:52-145.
    Clang calls HandleTranslationUnit, which generates the code, even when there were errors
    (generator/consumer.cpp:33-37). Errors when writing the output are not modelled. *)
Definition main_run (cl : cmdline) : Z * option bytes :=
  if cl_help cl || negb (cl_generate cl) then (0%Z, None)
  else match cl_output cl with
  | Some false => ((-4)%Z, None)
  | _ =>
      match generators (cl_names cl) with
      | None => ((-5)%Z, Some [])
      | Some gs =>
          let text := generate (cl_code cl) gs in
          if run_succeeds (cl_limit cl) (cl_resilient cl) (cl_diags cl) then (0%Z, Some text)
          else ((-2)%Z, Some text)
      end
  end.
