(** PropertiesMisc.v -- C41, C42, C44, C45, C49 *)
From Coq Require Import String List NArith ZArith Bool Lia.
From Verif Require Import Base BaseFacts Types TypesFacts GenModel ToolModel ToolFacts DiagSpec DiagFacts JsonModel JsonRel ErrFormat.
Import ListNotations.
Local Open Scope list_scope.
Local Open Scope N_scope.

(* ------------------------------------------------------------------ *)
(** * C41: only real errors fail the generator *)

(** Whatever clang reports and whatever the error limit is: in error-resilient mode the run succeeds iff no real
    (non-semantic) error is reported, otherwise iff no error at all is reported. *)
Theorem C41_success : forall limit ds,
  (run_succeeds limit true ds = true <-> Forall (fun d => ~ real_error d) ds)
  /\ (run_succeeds limit false ds = true <-> Forall (fun d => ~ any_error d) ds).
Proof. intros. split; [apply resilient_success|apply plain_success]. Qed.

(** Any sequence of diagnostics handed to the consumer: it forwards all of them in order, with semantic errors turned into
    warnings, and the number of real errors - which is also the number of errors clang knows about - is the number of
    non-semantic errors. Without error-resilience everything is forwarded as it is. *)
Theorem C41_forwarded : forall ds,
  (exists n ds', counted real_error ds n /\ Forall2 softened ds ds'
     /\ handle_all (consumer0 true) ds = {| dc_resilient := true; dc_real := n; dc_errors := n; dc_proxy := ds' |})
  /\ (exists n, counted any_error ds n
     /\ handle_all (consumer0 false) ds = {| dc_resilient := false; dc_real := 0; dc_errors := n; dc_proxy := ds |}).
Proof.
  intros ds. split.
  - destruct (handle_all_resilient ds (consumer0 true) eq_refl) as (n & ds' & H1 & H2 & H3). exists n, ds'. auto.
  - destruct (handle_all_plain ds (consumer0 false) eq_refl) as (n & H1 & H2). exists n. auto.
Qed.

(** As long as there was no real error, clang itself has forgotten all errors - so neither a fatal semantic error nor many
    semantic errors stop it - and the user sees all diagnostics except notes. *)
Theorem C41_engine : forall limit ds, Forall (fun d => ~ real_error d) ds ->
  (let e := fst (process_all limit true ds) in en_error e = false /\ en_fatal e = false /\ en_errors e = 0)
  /\ Forall2 softened (filter shown ds) (filter shown (dc_proxy (snd (process_all limit true ds)))).
Proof.
  intros limit ds F. split; [apply resilient_engine, F|]. destruct (proxy_clean_all limit ds _ clean0 F) as (l & P & Q & _).
  unfold process_all. rewrite P. exact Q.
Qed.

(** Whatever clang comes across and whatever the error limit is, the user sees exactly what DiagSpec.reported describes. *)
Theorem C41_reported : forall limit resilient ds out,
  reported limit resilient false 0 true ds out <-> out = dc_proxy (snd (process_all limit resilient ds)).
Proof.
  intros limit res ds out. destruct (reported_all limit res ds (engine0, consumer0 res) false 0 true) as (o & R & P).
  { repeat split; cbn; auto; discriminate. }
  cbn [app snd consumer0 dc_proxy] in P. fold (process_all limit res ds) in P. rewrite P. split; [intros H; eapply reported_fun; eassumption|intros ->; exact R].
Qed.

(* ------------------------------------------------------------------ *)
(** * C42: options passed to clang *)

(** Every option value has exactly one list of parts; the arguments of the first run are the application, the fixed flags,
    the non-empty parts of all values in order, and the files. *)
Theorem C42_arguments : forall app values files,
  exists pss opts, Forall2 parts_of values pss /\ (forall pss', Forall2 parts_of values pss' -> pss' = pss)
    /\ nonempties (concat pss) opts /\ (forall opts', nonempties (concat pss) opts' -> opts' = opts)
    /\ fst (makeClangArgs None app (clang_options values) files)
       = app :: map bs ["-x"; "c++"; "-Wno-pragma-once-outside-header"; "-std=c++14"; "-fsyntax-only"; "-DREFLECTIVE_RAPIDJSON_GENERATOR"]%string ++ opts ++ files.
Proof.
  intros. destruct (clang_options_spec values) as (pss & H1 & H2). exists pss, (clang_options values). split; [exact H1|]. split.
  { intros pss' H. clear H2. revert pss H1. induction H as [|v ps vs pss' P H IH]; intros pss H1; inversion H1 as [|? q ? qs P2 H2]; subst; [reflexivity|].
    f_equal; [eapply parts_unique; eassumption|apply IH, H2]. }
  split; [exact H2|]. split; [intros; eapply nonempties_fun; eassumption|reflexivity].
Qed.

(** Every list of options without ';' (and without empty options) can be passed: as one value joined by ';' or as one value each. *)
Theorem C42_every_option : forall opts, Forall (fun o => o <> [] /\ ~ In semicolon o) opts ->
  clang_options [joined opts] = opts /\ clang_options opts = opts.
Proof.
  intros opts F. assert (FI: filter (fun p => negb (is_empty p)) opts = opts).
  { apply filter_id. eapply Forall_impl; [|exact F]. intros [|] [H _]; [contradiction|reflexivity]. }
  split.
  - unfold clang_options. cbn [flat_map]. rewrite app_nil_r. destruct opts as [|o opts]; [reflexivity|].
    rewrite (parts_unique _ _ (o :: opts) (split_parts (joined (o :: opts)))); [exact FI|]. split; [discriminate|]. split; [|reflexivity].
    eapply Forall_impl; [|exact F]. intros ? [_ H]; exact H.
  - unfold clang_options. induction opts as [|o opts IH]; [reflexivity|]. inversion F as [|? ? [H1 H2] F']; subst. cbn [flat_map].
    rewrite split_free by exact H2. cbn [filter]. destruct o; [contradiction|]. cbn [is_empty negb app]. f_equal. apply IH; [exact F'|].
    cbn [filter is_empty negb] in FI. inversion FI as [Q]. rewrite !Q. reflexivity.
Qed.

(* ------------------------------------------------------------------ *)
(** * C44: sizes passed to RapidJSON *)

Theorem C44_sizes : forall n,
  (n < 2 ^ 32 -> rapidJsonSize n = n) /\ (2 ^ 32 <= n -> rapidJsonSize n = 2 ^ 32 - 1)
  /\ (forall m, n <= m -> rapidJsonSize n <= rapidJsonSize m).
Proof.
  assert (P: 2 ^ 32 = 4294967296) by reflexivity. intros n. unfold rapidJsonSize, size_max. rewrite !P. repeat split.
  - intros H. destruct (N.ltb_spec (4294967296 - 1) n); lia.
  - intros H. destruct (N.ltb_spec (4294967296 - 1) n); lia.
  - intros m H. destruct (N.ltb_spec (4294967296 - 1) n), (N.ltb_spec (4294967296 - 1) m); lia.
Qed.

(** a string is written completely if it is shorter than 4 GiB, otherwise its first 2^32 - 1 characters are written *)
Theorem C44_long_strings : forall G J H f s, exists s1 s2, s = s1 ++ s2
  /\ push G J H (S f) TString (VStr s) = ROk (JStr s1) /\ N.of_nat (length s1) = N.min (N.of_nat (length s)) (2 ^ 32 - 1).
Proof.
  intros. cbn [push]. rewrite ?push_S. cbn [push_body]. unfold sized. cbv zeta. set (n := N.of_nat (length s)).
  destruct (C44_sizes n) as (S1 & S2 & _). destruct (N.ltb_spec (rapidJsonSize n) n) as [L|L].
  - exists (firstn (N.to_nat (rapidJsonSize n)) s), (skipn (N.to_nat (rapidJsonSize n)) s). rewrite firstn_skipn. split; [reflexivity|]. split; [reflexivity|].
    rewrite firstn_length. assert (2 ^ 32 <= n) by (destruct (N.lt_ge_cases n (2 ^ 32)) as [Q|Q]; [rewrite S1 in L by exact Q; lia|exact Q]).
    rewrite S2 in * by assumption. subst n. lia.
  - exists s, []. rewrite app_nil_r. split; [reflexivity|]. split; [reflexivity|]. fold n.
    destruct (N.lt_ge_cases n (2 ^ 32)) as [Q|Q]; [|rewrite S2 in L by exact Q]; assert (P: 2 ^ 32 = 4294967296) by reflexivity; rewrite P in *; lia.
Qed.

(* ------------------------------------------------------------------ *)
(** * C45: error messages *)

(** The message names the kind; with a record also the record and the member if there is one, otherwise the index if
    there is one; and for a mismatch both types. *)
Theorem C45_names : forall x, plain_context x ->
  (exists t, format_error x = kind_name (e_kind x) ++ t)
  /\ (forall r, e_record x = Some r -> occurs (bs "record """ ++ r ++ quote) (format_error x))
  /\ (forall r m, e_record x = Some r -> e_member x = Some m -> occurs (bs "member """ ++ m ++ quote) (format_error x))
  /\ (forall r i, e_record x = Some r -> e_member x = None -> e_index x = Some i -> occurs (bs "index """ ++ dec i ++ quote) (format_error x))
  /\ (e_kind x = TypeMismatch ->
      occurs (bs ": expected """ ++ type_name (e_expected x) ++ bs """, got """ ++ type_name (e_actual x) ++ quote) (format_error x)).
Proof.
  intros x [P1 P2]. split; [rewrite format_split; eexists; reflexivity|].
  split; [|split; [|split]].
  - intros r R. destruct (P1 r R) as [_ N]. exists (kind_name (e_kind x) ++ bs " within "). unfold format_error. rewrite R.
    change (bs " within record """) with (bs " within " ++ bs "record """).
    destruct (e_member x); [|destruct (e_index x)]; rewrite (cstr_plain r N).
    + change (bs """ and member """) with (quote ++ bs " and member """). eexists; rewrite <- !app_assoc; reflexivity.
    + change (bs """ and index """) with (quote ++ bs " and index """). eexists; rewrite <- !app_assoc; reflexivity.
    + eexists; rewrite <- !app_assoc; reflexivity.
  - intros r m R M. destruct (P2 m M) as [_ N]. exists (kind_name (e_kind x) ++ bs " within record """ ++ cstr r ++ bs """ and "), (additional x). unfold format_error. rewrite R, M, (cstr_plain m N).
    change (bs """ and member """) with (bs """ and " ++ bs "member """). rewrite <- !app_assoc. reflexivity.
  - intros r i R M I. exists (kind_name (e_kind x) ++ bs " within record """ ++ cstr r ++ bs """ and "), (additional x). unfold format_error. rewrite R, M, I.
    change (bs """ and index """) with (bs """ and " ++ bs "index """). rewrite <- !app_assoc. reflexivity.
  - intros K. rewrite format_split. exists (kind_name (e_kind x) ++ context x), []. rewrite app_nil_r, <- app_assoc. unfold additional. rewrite K. reflexivity.
Qed.

(** Two messages are equal iff the errors have the same kind, types (mismatches), record, and member or index. *)
Theorem C45_different : forall x y, plain_context x -> plain_context y -> (format_error x = format_error y <-> same_message x y).
Proof. exact format_inj. Qed.

(* ------------------------------------------------------------------ *)
(** * C49: exit code *)

(** 0 iff nothing was to be done or the output file could be opened, all generators exist and no (with --error-resilient: no
    real) error was reported *)
Theorem C49_exit_code : forall cl,
  fst (main_run cl) = 0%Z <->
  (cl_help cl = true \/ cl_generate cl = false)
  \/ (cl_output cl <> Some false
      /\ (forall ns n, cl_names cl = Some ns -> In n ns -> n = bs "json" \/ n = bs "binary")
      /\ Forall (fun d => ~ if cl_resilient cl then real_error d else any_error d) (cl_diags cl)).
Proof.
  intros cl. unfold main_run. destruct (cl_help cl) eqn:HH; cbn [orb]; [split; auto|].
  destruct (cl_generate cl) eqn:HG; cbn [negb]; [|split; auto].
  assert (SG: forall ns, (exists gs, select_generators ns = Some gs) <-> (forall n, In n ns -> n = bs "json" \/ n = bs "binary")).
  { intros ns. split.
    - intros [gs S] n Hn. apply select_spec in S. induction S as [|m g ms gs E S IH]; [destruct Hn|]. destruct Hn as [->|Hn]; [|auto]. subst n. destruct g; auto.
    - induction ns as [|n ns IH]; intros A; [exists []; reflexivity|]. destruct IH as [gs S]; [intros; apply A; right; assumption|]. cbn [select_generators]. rewrite S.
      destruct (A n ltac:(left; reflexivity)) as [-> | ->]; eexists; reflexivity. }
  assert (RS: run_succeeds (cl_limit cl) (cl_resilient cl) (cl_diags cl) = true <-> Forall (fun d => ~ if cl_resilient cl then real_error d else any_error d) (cl_diags cl)).
  { destruct (cl_resilient cl); [apply resilient_success|apply plain_success]. }
  destruct (cl_output cl) as [[|]|] eqn:HO.
  2: { split; [discriminate|]. intros [[X|X]|(X & _)]; try discriminate X; contradiction. }
  1, 2: destruct (generators (cl_names cl)) as [gs|] eqn:EG; cbv zeta;
    [destruct (run_succeeds (cl_limit cl) (cl_resilient cl) (cl_diags cl)) eqn:ER|]; cbn [fst]; (split; [try discriminate; intros _; right|]).
  all: try (split; [discriminate|]; split; [|apply RS; reflexivity]; intros ns n E Hn; rewrite E in EG; cbn in EG; apply (SG ns); eauto).
  all: try reflexivity.
  all: intros [[X|X]|(_ & Hn & F)]; try discriminate X; exfalso.
  1, 3: apply RS in F; discriminate F.
  all: unfold generators in EG; destruct (cl_names cl) as [ns|]; [|discriminate EG]; destruct (proj2 (SG ns) ltac:(intros; eauto)) as [gs S]; congruence.
Qed.

(** what is written: the code of the requested generators in the given order; by default only JSON code; nothing if a
    generator does not exist *)
Theorem C49_output : forall cl t, snd (main_run cl) = Some t ->
  match cl_names cl with
  | None => t = cl_code cl GJson
  | Some ns => (exists gs, Forall2 (fun n g => n = match g with GJson => bs "json" | GBinary => bs "binary" end) ns gs /\ t = concat (map (cl_code cl) gs))
               \/ ((exists n, In n ns /\ n <> bs "json" /\ n <> bs "binary") /\ t = [])
  end.
Proof.
  intros cl t. unfold main_run. destruct (cl_help cl || negb (cl_generate cl)); [discriminate|].
  assert (W: forall r : Z * option bytes, snd r = Some t -> (exists gs z, generators (cl_names cl) = Some gs /\ r = (z, Some (generate (cl_code cl) gs))) \/ (generators (cl_names cl) = None /\ exists z, r = (z, Some [])) -> 
    match cl_names cl with
    | None => t = cl_code cl GJson
    | Some ns => (exists gs, Forall2 (fun n g => n = match g with GJson => bs "json" | GBinary => bs "binary" end) ns gs /\ t = concat (map (cl_code cl) gs))
               \/ ((exists n, In n ns /\ n <> bs "json" /\ n <> bs "binary") /\ t = [])
    end).
  { intros r R [(gs & z & EG & ->)|(EG & z & ->)]; cbn in R; inversion R; subst; clear R; unfold generators in EG; destruct (cl_names cl) as [ns|].
    - left. exists gs. split; [apply select_spec, EG|]. unfold generate. apply flat_map_concat_map.
    - inversion EG; subst. unfold generate. cbn. apply app_nil_r.
    - right. split; [|reflexivity]. clear -EG. induction ns as [|n ns IH]; [discriminate EG|]. cbn [select_generators] in EG.
      destruct (generator_by_name n) as [g|] eqn:E.
      + destruct (select_generators ns) eqn:S; [discriminate EG|]. destruct (IH eq_refl) as (m & H1 & H2). exists m. split; [right; exact H1|exact H2].
      + exists n. split; [left; reflexivity|]. split; intros ->; vm_compute in E; discriminate E.
    - discriminate EG. }
  destruct (cl_output cl) as [[|]|]; try discriminate; intros H; eapply W; try exact H; destruct (generators (cl_names cl)) as [gs|]; cbv zeta.
  all: try (left; exists gs; destruct (run_succeeds _ _ _); eexists; split; reflexivity).
  all: right; split; [reflexivity|eexists; reflexivity].
Qed.

Print Assumptions C41_success.
Print Assumptions C41_reported.
Print Assumptions C41_forwarded.
Print Assumptions C41_engine.
Print Assumptions C42_arguments.
Print Assumptions C42_every_option.
Print Assumptions C44_sizes.
Print Assumptions C44_long_strings.
Print Assumptions C45_names.
Print Assumptions C45_different.
Print Assumptions C49_exit_code.
Print Assumptions C49_output.
