(** PropertiesCMake.v -- C63: what calling the CMake function add_reflection_generator_invocation amounts to. *)
From Coq Require Import String List NArith ZArith Bool Lia.
From Verif Require Import Base BaseFacts Types GenModel ToolModel ToolFacts CMakeModel CMakeSpec CMakeFacts CMakeTop.
Import ListNotations.
Local Open Scope list_scope.
Local Open Scope N_scope.

(** Configuring succeeds if and only if all include directories which are specified for the generator exist and no two input
    files have the same name up to the first dot. *)
Theorem C63_configures : forall e pv incs call v, good_call call -> good_config e pv incs ->
  ((exists r, add_invocation e v (written call) = Some r)
   <-> Forall (fun d => ce_is_dir e d = true) incs
       /\ (forall stems, Forall2 stem (given call "INPUT_FILES") stems -> NoDup stems)).
Proof.
  intros e pv incs call v GC GE. rewrite (add_invocation_spec e pv incs call v GC GE).
  assert (D: distinct (map (fun i => resolve (ce_binary_dir e) (out_file e call i)) (given call "INPUT_FILES")) = true
             <-> (forall stems, Forall2 stem (given call "INPUT_FILES") stems -> NoDup stems)).
  { rewrite distinct_spec, (outputs_distinct e pv incs call _ GC GE). split.
    - intros N stems F. assert (E: map name_we (given call "INPUT_FILES") = stems); [|congruence]. clear N. induction F as [|i s is ss S F IH]; [reflexivity|].
      cbn [map]. rewrite (stem_name_we _ _ S). congruence.
    - intros H. apply H. clear. induction (given call "INPUT_FILES") as [|i is IH]; constructor; [apply name_we_stem|exact IH]. }
  assert (I: forallb (ce_is_dir e) incs = true <-> Forall (fun d => ce_is_dir e d = true) incs) by (rewrite forallb_forall, Forall_forall; reflexivity).
  rewrite <- D, <- I. destruct (forallb (ce_is_dir e) incs), (distinct _); cbn [andb]; split; try (intros [? ?]; discriminate); eauto.
Qed.

(** Every input file gets its own command: it is executed in the source directory, depends on the input file, is declared to
    produce <output directory>/<name up to the first dot>.h, and from its arguments the code generator reads exactly what was
    specified, including the options from the targets one by one. *)
Theorem C63_commands : forall e pv incs call v cs v', good_call call -> good_config e pv incs ->
  Forall no_option (wanted_options e pv incs call) -> Forall no_option (given call "GENERATORS") -> Forall no_option (given call "JSON_CLASSES") ->
  add_invocation e v (written call) = Some (cs, v') ->
  Forall2 (fun input c => exists out, output_for e call input out
             /\ denotes (ce_binary_dir e) out (co_output c) /\ co_program c = ce_executable e
             /\ denotes (ce_source_dir e) input (co_depends c) /\ co_dir c = ce_source_dir e
             /\ read_cli (co_args c) = Some (told e pv incs call input out))
          (given call "INPUT_FILES") cs.
Proof.
  intros e pv incs call v cs v' GC GE NW NG NC H. rewrite (add_invocation_spec e pv incs call v GC GE) in H.
  destruct (_ && _); [|discriminate]. inversion H; subst; clear H.
  assert (P: Forall plain (given call "INPUT_FILES")) by (apply given_plain, GC).
  induction P as [|i is P _ IH]; [constructor|]. cbn [map]. constructor; [|exact IH].
  exists (out_file e call i). split; [apply out_file_spec|].
  split; [apply resolve_denotes, (out_file_plain e pv incs call i GC GE P)|]. split; [reflexivity|].
  split; [apply resolve_denotes, P|]. split; [reflexivity|]. apply cli_read; assumption.
Qed.

(** The output files are appended to every variable named by OUTPUT_LISTS, in the order of the input files; no other variable
    of the caller is changed. *)
Theorem C63_output_lists : forall e pv incs call v cs v', good_call call -> good_config e pv incs ->
  NoDup (given call "OUTPUT_LISTS") -> add_invocation e v (written call) = Some (cs, v') ->
  exists outs, Forall2 (output_for e call) (given call "INPUT_FILES") outs
    /\ (forall l old, In l (given call "OUTPUT_LISTS") -> v l = joined old -> Forall plain old -> v' l = joined (old ++ outs))
    /\ (forall n, ~ In n (given call "OUTPUT_LISTS") -> v' n = v n).
Proof.
  intros e pv incs call v cs v' GC GE ND H. rewrite (add_invocation_spec e pv incs call v GC GE) in H.
  destruct (_ && _); [|discriminate]. inversion H; subst; clear H. exists (map (out_file e call) (given call "INPUT_FILES")).
  assert (P: Forall plain (given call "INPUT_FILES")) by (apply given_plain, GC). split; [|split].
  - clear. induction (given call "INPUT_FILES") as [|i is IH]; constructor; [apply out_file_spec|exact IH].
  - intros l old I E PO. apply vars_all_list; try assumption. rewrite Forall_map. eapply Forall_impl; [|exact P]. intros i Pi. eapply out_file_plain; eassumption.
  - intros n N. apply vars_all_other, N.
Qed.

(** The file the code generator writes is the one the command is declared to produce if and only if the output directory is
    absolute or the build is done in the source directory. *)
Theorem C63_written_where_declared : forall e pv incs call v cs v' c r out f, good_call call -> good_config e pv incs ->
  Forall no_option (wanted_options e pv incs call) -> Forall no_option (given call "GENERATORS") -> Forall no_option (given call "JSON_CLASSES") ->
  add_invocation e v (written call) = Some (cs, v') -> In c cs ->
  read_cli (co_args c) = Some r -> tr_output r = Some out -> denotes (co_dir c) out f ->
  (f = co_output c <-> absolute (match given call "OUTPUT_DIRECTORY" with [] => ce_binary_dir e | d :: _ => d end) \/ ce_source_dir e = ce_binary_dir e).
Proof.
  intros e pv incs call v cs v' c r out f GC GE NW NG NC H Hc R O D.
  pose proof (C63_commands _ _ _ _ _ _ _ GC GE NW NG NC H) as F.
  assert (X: exists input, In input (given call "INPUT_FILES") /\ exists out, output_for e call input out
             /\ denotes (ce_binary_dir e) out (co_output c) /\ co_program c = ce_executable e
             /\ denotes (ce_source_dir e) input (co_depends c) /\ co_dir c = ce_source_dir e
             /\ read_cli (co_args c) = Some (told e pv incs call input out)).
  { clear -F Hc. induction F as [|i c0 is cs H F IH]; [destruct Hc|]. destruct Hc as [<-|Hc]; [exists i; split; [left; reflexivity|exact H]|].
    destruct (IH Hc) as (j & J & K). exists j. split; [right; exact J|exact K]. }
  destruct X as (input & _ & out' & OF & DO & _ & _ & DIR & R'). rewrite R in R'. inversion R'; subst r. cbn in O. inversion O; subst out'. clear O R R'.
  apply output_for_unique in OF. rewrite DIR in D.
  assert (N: out_dir e call <> []) by apply (out_dir_plain e pv incs call GC GE).
  assert (AB: absolute out <-> absolute (out_dir e call)).
  { rewrite OF. unfold out_file, absolute. change (bs "/") with [Byte.x2f]. split.
    - intros [p E]. destruct (out_dir e call) as [|b d]; [congruence|]. cbn in E. inversion E; subst. exists d. reflexivity.
    - intros [p ->]. cbn. eexists. reflexivity. }
  assert (AB2: absolute (out_dir e call) <-> absolute (match given call "OUTPUT_DIRECTORY" with [] => ce_binary_dir e | d :: _ => d end)).
  { unfold out_dir. destruct (given call "OUTPUT_DIRECTORY"); [|reflexivity]. assert (NB: ce_binary_dir e <> []) by apply GE.
    unfold absolute. change (bs "/") with [Byte.x2f]. destruct (ce_binary_dir e) as [|b d]; [congruence|]. split; intros [p E]; cbn in E; inversion E; subst; eexists; reflexivity. }
  rewrite <- AB2, <- AB. assert (NO: out <> []) by (rewrite OF; unfold out_file; destruct (out_dir e call); [congruence|discriminate]).
  assert (DR: forall dir p g, p <> [] -> denotes dir p g -> g = resolve dir p).
  { intros dir p g Np Dg. destruct Dg as [p A|p A]; [symmetry; apply resolve_abs, A|]. destruct (resolve_denotes dir p Np) as [p A2|p A2]; [contradiction|reflexivity]. }
  rewrite (DR _ _ _ NO D), (DR _ _ _ NO DO). split.
  - intros E. destruct (out) as [|b o] eqn:EO; [congruence|]. destruct (beqb b Byte.x2f) eqn:EB.
    + left. apply beqb_eq in EB. subst b. exists o. reflexivity.
    + right. apply (resolve_same_rel _ _ (b :: o)); [|exact E]. intros [q Q]. change (bs "/" ++ q) with (Byte.x2f :: q) in Q. inversion Q; subst. discriminate EB.
  - intros [A|E]; [rewrite !resolve_abs by exact A; reflexivity|rewrite E; reflexivity].
Qed.

(** REFUTED: that, as --help and the usage say, generators are enabled by default. When GENERATORS is not specified, the option is
    passed without values, and the generated file is empty. *)
Theorem C63_default_generators_refuted : forall e pv incs call v cs v' c r cl, good_call call -> good_config e pv incs ->
  Forall no_option (wanted_options e pv incs call) -> Forall no_option (given call "JSON_CLASSES") ->
  given call "GENERATORS" = [] ->
  add_invocation e v (written call) = Some (cs, v') -> In c cs -> read_cli (co_args c) = Some r ->
  cl_names cl = tr_generators r -> forall text, snd (main_run cl) = Some text -> text = [].
Proof.
  intros e pv incs call v cs v' c r cl GC GE NW NC G H Hc R CL text T.
  assert (NG: Forall no_option (given call "GENERATORS")) by (rewrite G; constructor).
  pose proof (C63_commands _ _ _ _ _ _ _ GC GE NW NG NC H) as F.
  assert (X: exists input out, read_cli (co_args c) = Some (told e pv incs call input out)).
  { clear -F Hc. induction F as [|i c0 is cs H F IH]; [destruct Hc|]. destruct Hc as [<-|Hc]; [|apply IH, Hc]. destruct H as (out & _ & _ & _ & _ & _ & H). eauto. }
  destruct X as (input & out & R'). rewrite R in R'. inversion R'; subst r. cbn in CL. rewrite G in CL.
  unfold main_run in T. destruct (cl_help cl || negb (cl_generate cl)); [discriminate|]. rewrite CL in T. cbn in T.
  destruct (cl_output cl) as [[|]|]; [|discriminate|]; destruct (run_succeeds _ _ _); cbn in T; congruence.
Qed.

Print Assumptions C63_configures.
Print Assumptions C63_commands.
Print Assumptions C63_output_lists.
Print Assumptions C63_written_where_declared.
Print Assumptions C63_default_generators_refuted.
