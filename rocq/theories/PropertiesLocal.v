(** PropertiesLocal.v -- property C79: the code generated for a class depends on the class and its base classes, not on what else is declared *)
From Coq Require Import String List NArith ZArith Bool Lia Permutation.
From Verif Require Import Base BaseFacts Types GenModel GenSem GenSpec GenSelect JsonGen LocalSpec LocalFacts.
Import ListNotations.
Local Open Scope list_scope.
Local Open Scope N_scope.

(** C79: further declarations for which no code is to be generated do not change the output, wherever they are *)
Theorem C79_irrelevant_declarations : forall o ds ds', inserted (fun d => another o ds d /\ unwanted o ds' d) ds ds' ->
  generate_binary o ds' = generate_binary o ds /\ generate_json o ds' = generate_json o ds.
Proof. intros o ds ds' H. split; apply (text_further _ _ o ds ds' H). Qed.
Print Assumptions C79_irrelevant_declarations.

(** C79: in particular, including further headers changes nothing, unless a class there is adapted in the main file *)
Theorem C79_further_headers : forall o ds ds', inserted (fun d => another o ds d /\ elsewhere o d /\ (forall r, d = DRecord r -> ~ adapted o ds' r)) ds ds' ->
  generate_binary o ds' = generate_binary o ds /\ generate_json o ds' = generate_json o ds.
Proof.
  intros o ds ds' H. apply C79_irrelevant_declarations. eapply inserted_impl; [|exact H]. intros d (A & E & NA). split; [exact A|]. intros r -> (_ & _ & _ & _ & [W|[W _]]).
  - exact (NA r eq_refl W).
  - exact (E r eq_refl W).
Qed.
Print Assumptions C79_further_headers.

(** C79: further classes for which code is generated, too, only add sections to the output: there is one per class, and those of the other classes stay as they are *)
Theorem C79_further_classes : forall o ds ds', inserted (another o ds) ds ds' ->
  (exists S S', inserted anything S S'
    /\ map fst S = map qname (relevant_classes o ds) /\ map fst S' = map qname (relevant_classes o ds')
    /\ (forall q t, In (q, t) S' -> section q t)
    /\ generate_binary o ds = output "BinaryReflector" S /\ generate_binary o ds' = output "BinaryReflector" S')
  /\ (exists S S', inserted anything S S'
    /\ map fst S = map qname (relevant_classes o ds) /\ map fst S' = map qname (relevant_classes o ds')
    /\ (forall q t, In (q, t) S' -> section q t)
    /\ generate_json o ds = output "JsonReflector" S /\ generate_json o ds' = output "JsonReflector" S').
Proof.
  intros o ds ds' H. split.
  - exists (sections_of (binary_class_text o) ds (relevant_classes o ds)), (sections_of (binary_class_text o) ds' (relevant_classes o ds')).
    split; [apply sections_further; exact H|]. split; [unfold sections_of; rewrite map_map; reflexivity|]. split; [unfold sections_of; rewrite map_map; reflexivity|].
    split; [|split; apply text_sections]. intros q t Hin. unfold sections_of in Hin. apply in_map_iff in Hin. destruct Hin as (k & E & _). injection E as <- <-. apply binary_section.
  - exists (sections_of (json_class_text o) ds (relevant_classes o ds)), (sections_of (json_class_text o) ds' (relevant_classes o ds')).
    split; [apply sections_further; exact H|]. split; [unfold sections_of; rewrite map_map; reflexivity|]. split; [unfold sections_of; rewrite map_map; reflexivity|].
    split; [|split; apply text_sections]. intros q t Hin. unfold sections_of in Hin. apply in_map_iff in Hin. destruct Hin as (k & E & _). injection E as <- <-. apply json_section.
Qed.
Print Assumptions C79_further_classes.

(** C79: so programs using the class work as before (every theorem about [generated_binary] and [generated_json] applies unchanged) *)
Theorem C79_same_functions : forall o ds ds' k, inserted (another o ds) ds ds' -> In k (relevant_classes o ds) ->
  In k (relevant_classes o ds')
  /\ (forall rc, generated_binary o ds' k rc <-> generated_binary o ds k rc) /\ (forall rc, generated_json o ds' k rc <-> generated_json o ds k rc).
Proof.
  intros o ds ds' k H Hk. split; [eapply inserted_in; [apply relevant_further; exact H|exact Hk]|].
  assert (E := bases_further o ds ds' k H Hk). split; intros rc; split; intros [A B C]; split; congruence.
Qed.
Print Assumptions C79_same_functions.

(** C79: the list of classes passed to the generator is a set: order and duplicates do not matter, nor do names of classes which are not there *)
Theorem C79_listed_classes : forall o l ds, (forall r, In (DRecord r) ds -> (In (cr_qname r) l <-> In (cr_qname r) (o_classes o))) ->
  let o' := {| o_template := o_template o; o_adaption := o_adaption o; o_classes := l; o_visibility := o_visibility o; o_main := o_main o |} in
  generate_binary o' ds = generate_binary o ds /\ generate_json o' ds = generate_json o ds.
Proof.
  intros o l ds H o'. assert (E : relevant_classes o' ds = relevant_classes o ds) by (apply (relevant_listed o l ds H)).
  split; [unfold generate_binary|unfold generate_json]; rewrite E; reflexivity.
Qed.
Print Assumptions C79_listed_classes.

(** C79: methods, friends, nested types, static member variables and, for binary (de)serialisation, const members may be added to classes or removed
    from them, and base classes be listed in another order: the output stays as it is *)
Theorem C79_methods_binary : forall o ds ds', extended o silent_binary ds ds' -> generate_binary o ds' = generate_binary o ds.
Proof. intros o ds ds' H. apply (extended_text o silent_binary); [exact H|]. intros. apply extended_binary_text; assumption. Qed.
Print Assumptions C79_methods_binary.
Theorem C79_methods_json : forall o ds ds', extended o silent_json ds ds' -> generate_json o ds' = generate_json o ds.
Proof. intros o ds ds' H. apply (extended_text o silent_json); [exact H|]. intros. apply extended_json_text; assumption. Qed.
Print Assumptions C79_methods_json.

(** C79: base classes are written, read, pushed and pulled in the order in which they are declared, not in the one in which they are listed *)
Theorem C79_base_order : forall o ds k, exists rs, inserted anything rs (records ds)
  /\ (forall rc, generated_binary o ds k rc -> bp_bases (rc_wr rc) = map cr_id rs /\ (forall p, rc_rd rc = Some p -> bp_bases p = map cr_id rs))
  /\ (forall rc, generated_json o ds k rc -> jp_bases (rc_push rc) = map cr_id rs /\ (forall p, rc_pull rc = Some p -> jp_bases p = map cr_id rs)).
Proof.
  intros o ds k. exists (map k_rec (find_bases ds (relevant_classes o ds) k)). split; [apply bases_ordered|]. rewrite map_map. split.
  - intros rc [_ W R]. rewrite W. split; [reflexivity|]. intros p Hp. rewrite R in Hp. unfold reader_prog in Hp. destruct (cr_defctor (k_rec k)); [injection Hp as <-; reflexivity|discriminate].
  - intros rc [_ W R]. rewrite W. split; [reflexivity|]. intros p Hp. rewrite R in Hp. unfold pull_prog in Hp. destruct (cr_defctor (k_rec k)); [injection Hp as <-; reflexivity|discriminate].
Qed.
Print Assumptions C79_base_order.
