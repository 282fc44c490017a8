(** ExamplesVisit.v -- property C77: concrete objects which meet the hypotheses of the theorems *)
From Coq Require Import String List NArith ZArith Bool Lia Relations.
From Verif Require Import Base BaseFacts Bytes Types TypesFacts BinModel BinSpec BinSafeSpec BinFacts JsonModel JsonSpec JsonTop JsonSafeSpec
  JsonText JsonTextSpec DispatchSpec SerSpec SerFacts SerJson VisitSpec PropertiesVisit
  ExamplesEnv ExamplesBin ExamplesJson ExamplesText ExamplesDispatch ExamplesSer.
Import ListNotations.
Local Open Scope list_scope.
Local Open Scope N_scope.

(** the pointer of a node *)
Example node_points v a : points GE (TStruct 1) (nodeval v (Some a)) a.
Proof.
  eapply (pt_member GE 1 1 cNode (nth 1 (jp_fields (rc_push cNode)) (nth 0 (jp_fields (rc_push cNode)) {| jf_name := []; jf_key := (0, []); jf_ty := TBool |})));
    [apply pb_self|reflexivity|cbn; auto|cbn; reflexivity|]. cbn. constructor.
Qed.
(** nothing but this pointer *)
Example node_points_inv v n a : points GE (TStruct 1) (nodeval v n) a -> n = Some a.
Proof.
  intros P. inversion P; subst.
  match goal with B : pushed_base GE 1 _ |- _ => inversion B; subst end.
  2: { match goal with E : g_class GE 1 = Some ?r, I : In _ (jp_bases (rc_push ?r)) |- _ => cbn in E; injection E as <-; destruct I end. }
  match goal with E : g_class GE 1 = Some _ |- _ => cbn in E; injection E as <- end.
  match goal with I : In ?fd _ |- _ => cbn in I; destruct I as [<-|[<-|[]]] end; cbn in *;
  match goal with E : Some _ = Some ?x |- _ => injection E as <- end;
  match goal with Q : points GE _ _ a |- _ => inversion Q; subst; try reflexivity end.
Qed.

(** ** a cycle of two nodes is written to binary data (C57) but never pushed *)
Lemma HC_get a t x : hget HC a = Some (t, x) -> t = TStruct 1 /\ exists v b, in_range KI32 v = true /\ hty HC b = Some (TStruct 1) /\ x = nodeval v (Some b).
Proof.
  unfold HC, hget. cbn [alookup]. destruct (a =? a1); [intros [= <- <-]; split; [reflexivity|exists 7%Z, a2; auto]|].
  destruct (a =? a2); [intros [= <- <-]; split; [reflexivity|exists (-1)%Z, a1; auto]|discriminate].
Qed.
Example HC_typed : heap_typed GE false HC.
Proof. intros a t x E. destruct (HC_get a t x E) as (-> & v & b & Hv & Hb & ->). apply node_typed; [exact Hv|]. intros ? [= <-]. exact Hb. Qed.
Example HC_cycle : leads_to GE HC a1 a1.
Proof.
  apply t_trans with a2; apply t_step.
  - exists (TStruct 1), (nodeval 7 (Some a2)). split; [reflexivity|apply node_points].
  - exists (TStruct 1), (nodeval (-1) (Some a1)). split; [reflexivity|apply node_points].
Qed.
Example two_supported : pushable GE two /\ variants_small two /\ has_type GE false HC two (VPair (VShared (Some a1)) (VShared (Some a2))).
Proof.
  split; [cbn; repeat split; eexists; reflexivity|]. split; [cbn; auto|]. constructor; apply ht_shared_some; reflexivity.
Qed.
Example cyclic_overflows : forall fuel, push GE JE HC fuel two (VPair (VShared (Some a1)) (VShared (Some a2))) = RFuel.
Proof.
  destruct two_supported as (A & B & C).
  exact (C77_cycle_overflows GE JE HC GE_pushers_ok GE_variants_small HC_typed two _ a1 A B C (or_introl (pt_first GE _ _ _ _ _ (pt_shared GE _ _))) HC_cycle).
Qed.
(** the same from within: the cycle is behind an object which is not part of it *)
Definition HD : heap := (5, (TStruct 1, nodeval 1 (Some a1))) :: HC.
Lemma HD_get a t x : hget HD a = Some (t, x) -> t = TStruct 1 /\ exists v b, in_range KI32 v = true /\ hty HD b = Some (TStruct 1) /\ x = nodeval v (Some b).
Proof.
  unfold HD, HC, hget. cbn [alookup]. destruct (a =? 5); [intros [= <- <-]; split; [reflexivity|exists 1%Z, a1; auto]|].
  destruct (a =? a1); [intros [= <- <-]; split; [reflexivity|exists 7%Z, a2; auto]|].
  destruct (a =? a2); [intros [= <- <-]; split; [reflexivity|exists (-1)%Z, a1; auto]|discriminate].
Qed.
Example HD_typed : heap_typed GE false HD.
Proof. intros a t x E. destruct (HD_get a t x E) as (-> & v & b & Hv & Hb & ->). apply node_typed; [exact Hv|]. intros ? [= <-]. exact Hb. Qed.
Example lasso_overflows : forall fuel, push GE JE HD fuel (TShared (TStruct 1)) (VShared (Some 5)) = RFuel.
Proof.
  assert (L: forall a b v, hget HD a = Some (TStruct 1, nodeval v (Some b)) -> leads_to GE HD a b).
  { intros a b v E. apply t_step. exists (TStruct 1), (nodeval v (Some b)). split; [exact E|apply node_points]. }
  apply (C77_cycle_overflows GE JE HD GE_pushers_ok GE_variants_small HD_typed (TShared (TStruct 1)) _ a1).
  - cbn. split; [eexists; reflexivity|reflexivity].
  - exact I.
  - apply ht_shared_some. reflexivity.
  - right. exists 5. split; [constructor|]. exact (L 5 a1 1%Z eq_refl).
  - eapply t_trans; [exact (L a1 a2 7%Z eq_refl)|exact (L a2 a1 (-1)%Z eq_refl)].
Qed.

(** ** cycles which are not visited do not matter: [C57_push_succeeds] does not say so *)
Definition HE : heap := (5, (TStruct 1, nodeval 1 None)) :: HC.
Example HE_typed : heap_typed GE false HE.
Proof.
  intros a t x. unfold HE, HC, hget. cbn [alookup].
  destruct (a =? 5); [intros [= <- <-]; apply node_typed; [reflexivity|discriminate]|].
  destruct (a =? a1); [intros [= <- <-]; apply node_typed; [reflexivity|intros b [= <-]; reflexivity]|].
  destruct (a =? a2); [intros [= <- <-]; apply node_typed; [reflexivity|intros b [= <-]; reflexivity]|discriminate].
Qed.
Example HE_not_acyclic : ~ acyclic HE.
Proof.
  intros [rk R]. pose proof (R a1 (TStruct 1) (nodeval 7 (Some a2)) a2 eq_refl) as A. pose proof (R a2 (TStruct 1) (nodeval (-1) (Some a1)) a1 eq_refl) as B.
  assert (P: forall v b, refers (nodeval v (Some b)) b). { intros v b. eapply rf_member; [right; left; reflexivity|constructor]. }
  specialize (A (P _ _)). specialize (B (P _ _)). lia.
Qed.
Example HE_no_cycle : no_cycle GE HE (TShared (TStruct 1)) (VShared (Some 5)).
Proof.
  assert (N5: forall b, ~ leads_to GE HE 5 b).
  { intros b L. apply clos_trans_t1n in L. assert (Q: forall c, ~ leads GE HE 5 c).
    { intros c (t & x & E & P). vm_compute in E. injection E as <- <-. apply (node_points_inv 1 None c) in P. discriminate. }
    inversion L; subst; eapply Q; eassumption. }
  intros a [P|(b & P & L)].
  - inversion P; subst. apply N5.
  - inversion P; subst. exfalso. exact (N5 a L).
Qed.
Example unvisited_cycle_pushed : exists F j, json_wf j /\ forall fuel, (F <= fuel)%nat -> push GE JE HE fuel (TShared (TStruct 1)) (VShared (Some 5)) = ROk j.
Proof.
  apply (C77_ends_iff GE JE HE GE_pushers_ok GE_variants_small HE_typed).
  - cbn. split; [eexists; reflexivity|reflexivity].
  - exact I.
  - apply ht_shared_some. reflexivity.
  - exact HE_no_cycle.
Qed.
Example unvisited_cycle_document : push GE JE HE 5 (TShared (TStruct 1)) (VShared (Some 5)) = ROk (JObj [(B "value", JInt 1); (B "next", JNull)]).
Proof. reflexivity. Qed.

(** ** the object of ExamplesJson.v *)
Example derived_no_cycle : no_cycle GE H3 (TStruct 3) (VObj derived_obj).
Proof. apply (C77_returned_no_cycle GE JE H3 20 (TStruct 3) (VObj derived_obj) derived_doc). reflexivity. Qed.
Example derived_visits : visits_object GE H3 (TStruct 3) (VObj derived_obj) a2.
Proof.
  right. exists a1. split; [|apply t_step; exists (TStruct 1), (nodeval 7 (Some a2)); split; [reflexivity|apply node_points]].
  eapply (pt_member GE 3 2 cVer (nth 3 (jp_fields (rc_push cVer)) {| jf_name := []; jf_key := (0, []); jf_ty := TBool |}));
    [apply (pb_base GE 3 cDerived 2 2); [reflexivity|cbn; auto|apply pb_self]|reflexivity|cbn; auto 10|reflexivity|].
  cbn. apply pt_optional, node_points.
Qed.
Example derived_ends : exists F text, forall fuel, (F <= fuel)%nat -> toJson TE GE JE H3 fuel (TStruct 3) (VObj derived_obj) = ROk text.
Proof.
  apply (C77_toJson_ends_iff TE GE JE H3 GE_pushers_ok GE_variants_small H3_typed (TStruct 3)); [apply derived_writable|exact I|exact derived_typed|exact I|exact derived_no_cycle].
Qed.

(** ** stronger claims which are false *)
(** C77: not only the absence of cycles matters for binary data: there cycles are fine *)
Theorem C77_binary_needs_no_cycle_refuted : ~ forall fuel bs W, BinModel.write GE HC fuel 0 two (VPair (VShared (Some a1)) (VShared (Some a2))) [] = ROk (bs, W) ->
  no_cycle GE HC two (VPair (VShared (Some a1)) (VShared (Some a2))).
Proof.
  intros Q. destruct cyclic_written as (F & bs & W & E). specialize (Q F bs W (E F (le_n F))). apply (Q a1).
  - left. apply pt_first. constructor.
  - exact HC_cycle.
Qed.
Print Assumptions C77_binary_needs_no_cycle_refuted.
