(** ExamplesMisc.v -- concrete cases for PropertiesMisc.v and stronger claims which are false of the code *)
From Coq Require Import String List NArith ZArith Bool Lia.
From Verif Require Import Base BaseFacts Types GenModel ToolModel ToolFacts DiagSpec JsonModel ErrFormat PropertiesMisc.
Import ListNotations.
Local Open Scope list_scope.
Local Open Scope N_scope.

(* ------------------------------------------------------------------ *)
(** ** C41 *)
Definition dg (l : dlevel) (c : N) (s : string) : diag := {| d_level := l; d_category := c; d_text := bs s |}.
Definition unknown_type := dg DError 2 "unknown type name".
Definition missing_header := dg DFatal 1 "file not found".
Definition sem_fatal := dg DFatal 2 "recursive template instantiation exceeded maximum depth".
Definition unused := dg DWarning 2 "unused variable".

Example resilient_ok : run_succeeds 2 true (repeat unknown_type 50 ++ [sem_fatal; unused] ++ repeat unknown_type 50) = true
  /\ dc_real (snd (process_all 2 true (repeat unknown_type 50 ++ [sem_fatal; unused]))) = 0
  /\ List.length (dc_proxy (snd (process_all 2 true (repeat unknown_type 50 ++ [sem_fatal; unused])))) = 52%nat.
Proof. vm_compute. auto. Qed.
Example resilient_ok_hyp : Forall (fun d => ~ real_error d) (repeat unknown_type 50 ++ [sem_fatal; unused]).
Proof. apply (proj1 (C41_success 2 _)). vm_compute. reflexivity. Qed.
Example resilient_fails : run_succeeds 0 true [unknown_type; missing_header] = false /\ run_succeeds 0 false [unknown_type] = false.
Proof. vm_compute. auto. Qed.
(** once there was a real error, semantic errors count for the error limit and make clang stop *)
Example limit_after_real_error :
  map d_level (dc_proxy (snd (process_all 2 true ([dg DError 4 "a"] ++ repeat unknown_type 3 ++ [unused])))) = [DError; DWarning; DFatal]
  /\ dc_real (snd (process_all 2 true ([dg DError 4 "a"] ++ repeat unknown_type 3 ++ [unused]))) = 2.
Proof. vm_compute. auto. Qed.
(** seen through the specification, step by step *)
Example reported_case : reported 2 true false 0 true
  [unknown_type; dg DNote 2 "did you mean ..."; dg DError 4 "a"; dg DNote 4 "b"; unknown_type; unknown_type; unused]
  [dg DWarning 2 "unknown type name"; dg DError 4 "a"; dg DNote 4 "b"; dg DWarning 2 "unknown type name"; dg DFatal 0 "too many errors emitted, stopping now"].
Proof. apply C41_reported. vm_compute. reflexivity. Qed.
(** the notes which belong to a semantic error are lost as resetting the engine makes it ignore notes *)
Theorem C41_notes_refuted :
  dc_proxy (snd (process_all 0 true [unknown_type; dg DNote 2 "did you mean ..."])) = [dg DWarning 2 "unknown type name"]
  /\ dc_proxy (snd (process_all 0 false [unknown_type; dg DNote 2 "did you mean ..."])) = [unknown_type; dg DNote 2 "did you mean ..."].
Proof. vm_compute. auto. Qed.

(* ------------------------------------------------------------------ *)
(** ** C42 *)
Example some_options : clang_options (map bs ["-I/a;-Ib"; ";;-DX=1;"; ""; "-Wall"]%string) = map bs ["-I/a"; "-Ib"; "-DX=1"; "-Wall"]%string.
Proof. vm_compute. reflexivity. Qed.
Example every_option_hyp : Forall (fun o => o <> [] /\ ~ In semicolon o) (map bs ["-I/a b"; "-DX='""'"]%string).
Proof. repeat constructor; try discriminate; vm_compute; intuition discriminate. Qed.
(** an option which contains a ';' cannot be passed *)
Theorem C42_semicolon_refuted : forall values, ~ In (bs "-DX=a;b") (clang_options values).
Proof.
  intros values H. unfold clang_options in H. apply in_flat_map in H. destruct H as (v & _ & H). apply filter_In in H. destruct H as [H _].
  destruct (split_parts v) as (_ & F & _). rewrite Forall_forall in F. apply (F _ H). vm_compute. auto 10.
Qed.
(** the application path is that of the first factory of the process, even for other factories (static variable) *)
Theorem C42_second_factory_refuted : forall app1 app2 o1 f1 o2 f2, app1 <> app2 ->
  let (_, cached) := makeClangArgs None app1 o1 f1 in hd [] (fst (makeClangArgs cached app2 o2 f2)) <> app2.
Proof. intros; cbn. assumption. Qed.

(* ------------------------------------------------------------------ *)
(** ** C45 *)
Definition err (k : ekind) (r m : option string) (i : option N) : jerror :=
  {| e_kind := k; e_expected := JTString; e_actual := JTNull; e_record := option_map bs r; e_member := option_map bs m; e_index := i |}.
Example messages : map format_error
    [err TypeMismatch (Some "Foo"%string) (Some "bar"%string) (Some 3); err ArraySizeMismatch (Some "Foo"%string) None (Some 13); err UnexpectedDuplicate (Some "[document]"%string) None None; err InvalidVariantIndex None None None]
  = map bs ["type mismatch within record ""Foo"" and member ""bar"": expected ""string"", got ""null"""; "array size mismatch within record ""Foo"" and index ""13""";
            "unexpected duplicate within record ""[document]"""; "invalid variant index in document"]%string.
Proof. vm_compute. reflexivity. Qed.
Example messages_plain : plain_context (err TypeMismatch (Some "Foo"%string) (Some "bar"%string) (Some 3)).
Proof. split; intros s H; inversion H; subst; split; vm_compute; intuition discriminate. Qed.
(** the index within an array which is a member's value is not part of the message *)
Theorem C45_index_hidden_refuted : forall k e a r m i j,
  format_error {| e_kind := k; e_expected := e; e_actual := a; e_record := Some r; e_member := Some m; e_index := i |}
  = format_error {| e_kind := k; e_expected := e; e_actual := a; e_record := Some r; e_member := Some m; e_index := j |}.
Proof. intros. reflexivity. Qed.
(** names with quotes may make messages of errors at different places equal *)
Theorem C45_quotes_refuted : exists x y, format_error x = format_error y /\ e_record x <> e_record y /\ e_member x <> e_member y.
Proof.
  exists (err ConversionError (Some "a"" and member ""b"%string) None None), (err ConversionError (Some "a"%string) (Some "b"%string) None).
  split; [vm_compute; reflexivity|]. split; discriminate.
Qed.

(* ------------------------------------------------------------------ *)
(** ** C49 *)
Definition cl0 (names : option (list string)) (out : option bool) (ds : list diag) : cmdline :=
  {| cl_help := false; cl_generate := true; cl_output := out; cl_names := option_map (map bs) names; cl_resilient := true; cl_limit := 20; cl_diags := ds;
     cl_code := fun g => match g with GJson => bs "J" | GBinary => bs "B" end |}.
Example exit_codes : map main_run
    [cl0 (Some ["binary"; "json"; "binary"]%string) (Some true) [unknown_type]; cl0 None None [missing_header]; cl0 (Some ["json"; "xml"]%string) (Some true) []; cl0 None (Some false) []]
  = [(0%Z, Some (bs "BJB")); ((-2)%Z, Some (bs "J")); ((-5)%Z, Some []); ((-4)%Z, None)].
Proof. vm_compute. reflexivity. Qed.
(** the help says that all generators are enabled by default *)
Theorem C49_all_by_default_refuted : generators None = Some [GJson].
Proof. reflexivity. Qed.
(** the output file is truncated although nothing can be generated *)
Theorem C49_truncated_refuted : forall n ns, n <> bs "json" -> n <> bs "binary" ->
  main_run (cl0 None (Some true) []) = (0%Z, Some (bs "J")) /\ forall cl, cl_help cl = false -> cl_generate cl = true -> cl_output cl = Some true -> cl_names cl = Some (n :: ns) ->
  main_run cl = ((-5)%Z, Some []).
Proof.
  intros n ns H1 H2. split; [vm_compute; reflexivity|]. intros cl E1 E2 E3 E4. unfold main_run. rewrite E1, E2, E3, E4. cbn [orb negb generators select_generators].
  unfold generator_by_name. destruct (bytes_eqb n (bs "json")) eqn:Q1; [apply bytes_eqb_eq in Q1; contradiction|]. destruct (bytes_eqb n (bs "binary")) eqn:Q2; [apply bytes_eqb_eq in Q2; contradiction|]. reflexivity.
Qed.

Print Assumptions C41_notes_refuted.
Print Assumptions C42_semicolon_refuted.
Print Assumptions C42_second_factory_refuted.
Print Assumptions C45_index_hidden_refuted.
Print Assumptions C45_quotes_refuted.
Print Assumptions C49_all_by_default_refuted.
Print Assumptions C49_truncated_refuted.
