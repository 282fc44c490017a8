(** PropertiesGen.v -- the properties about the code generator (C19..C21, C38..C40), see
    /verif/properties.jsonl.  Only statements; the vocabulary is in GenSpec.v and GenSem.v. *)
From Coq Require Import String List NArith ZArith Bool.
From Verif Require Import Base Bytes Types BinModel BinSpec GenModel GenSem GenSpec GenMarkers GenSelect GenText GenLink.
Import ListNotations.
Local Open Scope N_scope.

(** C19: the members the generated functions access are, in declaration order, the accessible
    ones selected by the version according to the markers before them; base classes come first
    and get the version passed by the caller *)
Theorem C19_writer_members : forall eff rbs k ver, exists v vev names,
  (v, vev) = match k_base k with Some b => (eff ver, [EvVersion (cb_printed b) (eff ver)]) | None => (ver, []) end
  /\ selected (befriends (k_rec k) fn_write) v [] (cr_decls (k_rec k)) names
  /\ trace eff (writer_lines rbs k) ver
     = ROk (v, map (fun b => EvBase (qname b) ver) rbs ++ vev ++ map (fun n => EvMember n v) names).
Proof. exact writer_events. Qed.
Print Assumptions C19_writer_members.

Theorem C19_reader_members : forall eff rbs k ver, cr_defctor (k_rec k) = true -> exists v vev names,
  (v, vev) = match k_base k with Some b => (eff ver, [EvVersion (cb_printed b) (eff ver)]) | None => (ver, []) end
  /\ selected (befriends (k_rec k) fn_read) v [] (cr_decls (k_rec k)) names
  /\ trace eff (reader_lines rbs k) ver
     = ROk (v, map (fun b => EvBase (qname b) ver) rbs ++ vev ++ map (fun n => EvMember n v) names).
Proof. exact reader_events. Qed.
Print Assumptions C19_reader_members.

(** C19: what is selected is determined by the declarations *)
Theorem C19_selection_unique : forall friend ver ds l1 l2,
  selected friend ver [] ds l1 -> selected friend ver [] ds l2 -> l1 = l2.
Proof. intros. eapply selected_fun; eauto. Qed.
Print Assumptions C19_selection_unique.

(** C20: reader and writer access the same base classes and members in the same order under the
    same conditions, if both or neither are friends *)
Theorem C20_same_accesses : forall eff rbs k ver,
  cr_defctor (k_rec k) = true -> befriends (k_rec k) fn_write = befriends (k_rec k) fn_read ->
  trace eff (writer_lines rbs k) ver = trace eff (reader_lines rbs k) ver.
Proof.
  intros eff rbs k ver D F. destruct (writer_events eff rbs k ver) as (v & vev & ns & E & S & ->).
  destruct (reader_events eff rbs k ver D) as (v' & vev' & ns' & E' & S' & ->). rewrite F in S.
  assert (Q: (v, vev) = (v', vev')) by congruence. inversion Q; subst. rewrite (selected_fun _ _ _ _ _ S _ S'). reflexivity.
Qed.
Print Assumptions C20_same_accesses.

(** C20: executing the generated statements with the library's functions is what the class
    programs used for the binary properties (C04..C18) do *)
Theorem C20_writer_is_class_program : forall o ds G resolve,
  (forall k, In k (relevant_classes o ds) -> resolve (qname k) = Some (cr_id (k_rec k))) ->
  forall H f k rc ver fs W, g_class G (cr_id (k_rec k)) = Some rc -> generated_binary o ds k rc ->
  run_writer G H f resolve (cr_id (k_rec k)) (class_version k) fs (writer_lines (find_bases ds (relevant_classes o ds) k) k) ver W
  = write_cls G H (S f) ver (cr_id (k_rec k)) fs W.
Proof. exact run_writer_is_model. Qed.
Print Assumptions C20_writer_is_class_program.

Theorem C20_reader_is_class_program : forall o ds G resolve,
  (forall k, In k (relevant_classes o ds) -> resolve (qname k) = Some (cr_id (k_rec k))) ->
  forall f k rc ver os s st, g_class G (cr_id (k_rec k)) = Some rc -> generated_binary o ds k rc -> cr_defctor (k_rec k) = true ->
  run_reader G f resolve (cr_id (k_rec k)) (class_version k) (qname k) (reader_lines (find_bases ds (relevant_classes o ds) k) k) ver os s st
  = read_cls G (S f) ver (cr_id (k_rec k)) os s st.
Proof. exact run_reader_is_model. Qed.
Print Assumptions C20_reader_is_class_program.

(** C20: hence classes with generated code meet what the round trip theorems require of classes *)
Theorem C20_generated_round_trips : forall o ds G wv rv,
  one_definition ds -> wf_bases ds ->
  (forall k, In k (relevant_classes o ds) -> exists rc, g_class G (cr_id (k_rec k)) = Some rc /\ generated_binary o ds k rc) ->
  forall k, In k (relevant_classes o ds) ->
  (forall b, b = k \/ In b (find_bases ds (relevant_classes o ds) k) ->
     cr_defctor (k_rec b) = true /\ befriends (k_rec b) fn_write = befriends (k_rec b) fn_read
     /\ (class_version b = 0 -> wv = rv)
     /\ (class_version b <> 0 -> wv <= class_version b /\ class_version b < 2 ^ 56)) ->
  exists L, visits G wv rv (cr_id (k_rec k)) L.
Proof. exact generated_visits. Qed.
Print Assumptions C20_generated_round_trips.

(** C21: brackets of the generated text are balanced, whatever classes there are *)
Theorem C21_binary_balanced : forall o ds, plain_names o ds -> balanced (generate_binary o ds).
Proof. exact generate_binary_balanced. Qed.
Print Assumptions C21_binary_balanced.
Theorem C21_json_balanced : forall o ds, plain_names o ds -> balanced (generate_json o ds).
Proof. exact generate_json_balanced. Qed.
Print Assumptions C21_json_balanced.
(** C21: each version condition is closed before the next one is opened and before the function ends *)
Theorem C21_conditions_closed : forall rbs k, blocks false (writer_lines rbs k) /\ blocks false (reader_lines rbs k).
Proof. intros; split; [apply writer_blocks|apply reader_blocks]. Qed.
Print Assumptions C21_conditions_closed.

(** C38: code is generated for exactly the wanted classes *)
Theorem C38_generated_iff_wanted : forall o ds r, In r (map k_rec (relevant_classes o ds)) <-> wanted o ds r.
Proof. exact relevant_iff. Qed.
Print Assumptions C38_generated_iff_wanted.
(** C38: in declaration order, each as often as its definition is declared *)
Theorem C38_declaration_order : forall o ds, exists p, map k_rec (relevant_classes o ds) = filter p (records ds)
  /\ forall r, In r (records ds) -> (p r = true <-> wanted o ds r).
Proof.
  intros o ds. destruct (relevant_map o ds) as (p & E & P). exists p. split; [exact E|]. intros r Hr.
  rewrite P. unfold wanted. apply in_records in Hr. tauto.
Qed.
Print Assumptions C38_declaration_order.
(** C38: running the generator for two headers on the same declarations generates code for the
    same class only if one of the headers adapts it *)
Theorem C38_two_headers : forall o o' ds r,
  o_template o = o_template o' -> o_adaption o = o_adaption o' -> o_main o <> o_main o' ->
  In r (map k_rec (relevant_classes o ds)) -> In r (map k_rec (relevant_classes o' ds)) -> adapted o ds r \/ adapted o' ds r.
Proof. exact two_runs. Qed.
Print Assumptions C38_two_headers.
(** C38: a class is only versioned if it is selected by inheritance *)
Theorem C38_relevant_base : forall o ds k, In k (relevant_classes o ds) ->
  (adapted o ds (k_rec k) -> k_base k = None)
  /\ (~ adapted o ds (k_rec k) -> k_base k = inherits_from (o_template o) (k_rec k)).
Proof. exact relevant_base. Qed.
Print Assumptions C38_relevant_base.

(** C39: base classes which are considered *)
Theorem C39_base_classes : forall o ds k b, one_definition ds -> wf_bases ds ->
  (In b (find_bases ds (relevant_classes o ds) k) <->
   In b (relevant_classes o ds) /\ cr_id (k_rec k) <> cr_id (k_rec b) /\ derives ds (cr_id (k_rec k)) (cr_id (k_rec b))).
Proof. exact find_bases_spec. Qed.
Print Assumptions C39_base_classes.
(** C39: a base of a base is visited directly as well *)
Theorem C39_grand_parents_directly : forall o ds k p g, one_definition ds -> wf_bases ds ->
  In p (find_bases ds (relevant_classes o ds) k) -> In g (find_bases ds (relevant_classes o ds) p) ->
  In g (find_bases ds (relevant_classes o ds) k).
Proof.
  intros o ds k p g OD WF Hp Hg. apply find_bases_spec in Hp; auto. apply find_bases_spec in Hg; auto.
  destruct Hp as (_ & _ & Dp), Hg as (Hg & _ & Dg). apply find_bases_spec; auto. split; [exact Hg|].
  pose proof (derives_trans _ _ _ _ Dp Dg) as D. split; [|exact D]. pose proof (derives_lt _ WF _ _ D) as L. intros E. rewrite E in L. apply N.lt_irrefl in L. exact L.
Qed.
Print Assumptions C39_grand_parents_directly.

(** C40: which members occur in the four generated functions *)
Theorem C40_member_access : forall rbs k n t,
  let r := k_rec k in
  let may fn acc := befriends r fn = true \/ acc = Public in
  (In (LMember n t) (writer_lines rbs k) <-> exists acc, In (MField n acc false t) (cr_decls r) /\ may fn_write acc)
  /\ (In (LMember n t) (reader_lines rbs k) <-> exists acc, In (MField n acc false t) (cr_decls r) /\ may fn_read acc)
  /\ (In (JMember n t) (push_lines rbs k) <-> exists acc const, In (MField n acc const t) (cr_decls r) /\ may fn_push acc)
  /\ (In (JMember n t) (pull_lines rbs k) <-> exists acc, In (MField n acc false t) (cr_decls r) /\ may fn_pull acc).
Proof. exact lines_members. Qed.
Print Assumptions C40_member_access.
