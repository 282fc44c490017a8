(** ExamplesHist.v -- a history, and the hypotheses of PropertiesHist.v are met (property C70) *)
From Coq Require Import String List NArith ZArith Bool Lia.
From Verif Require Import Base BaseFacts Types TypesFacts BinModel BinSpec BinSafeSpec BinExc Float JsonModel JsonRel JsonText JsonSpec JsonSafeSpec JsonTerm JsonFacts JsonExc DispatchSpec SerSpec JTreeSpec JTreeGrow
  ExamplesEnv ExamplesBin ExamplesJson ExamplesText ExamplesDispatch ExamplesSer ExamplesJTree HistSpec HistFacts PropertiesHist.
Import ListNotations.
Local Open Scope string_scope.
Local Open Scope list_scope.
Local Open Scope nat_scope.

Example GE_usable : usable GE JE TW.
Proof. split; [exact GE_alloc|]. split; [exact GE_place|]. split; [exact GE_env_ok|]. split; [apply GE_jenv; exact I|]. split; [exact JE_conv|exact TW_bits]. Qed.
Example GE_members : distinct_members GE.
Proof. intros c rc Hc. cbn [g_class GE] in Hc. class_cases Hc; cbn; nodup. Qed.

(** two variables which are nodes of a list; the first one has a successor *)
Definition start : world := {| w_vars := [(TStruct 1, nodeval 0 None); (TStruct 1, nodeval 0 None)]; w_heap := []; w_errs := None |}.
Example start_proper : proper GE start.
Proof.
  split; [exact empty_heap_typed|]. intros [|[|i]] t v E; cbn in E; try (injection E as <- <-; apply node_typed; [reflexivity|intros a X; discriminate X]). destruct i; discriminate E.
Qed.
Definition list_text : bytes := B "{""value"":1,""next"":{""value"":2,""next"":null}}".
Definition bad_doc : json := JObj [(B "value", JInt 5); (B "next", JObj [(B "value", JStr (B "x"))])].
Definition strict_errors : option est := Some {| es_errs := []; es_record := None; es_member := None; es_index := None; es_throw := 0xFFFFFFFF%N |}.
(** x = fromJson(text); y = x; x.restoreFromBinary(truncated data) throws; errors with throwOn; pull(x, bad document, errors) throws *)
Definition history : list action :=
  [Assign 0 list_text; Copy 1 0; Restore 0 (hex [0; 0; 0; 9; 1; 0x90; 0; 0]%N); Errors strict_errors; Pull 0 bad_doc].
Example history_runs : exists w', run GE JE TW start history w' /\ nth_error (w_vars w') 1 = Some (TStruct 1%N, nodeval 1 (Some 1%N)) /\ nth_error (w_vars w') 0 <> Some (TStruct 1%N, nodeval 1 (Some 1%N)).
Proof.
  eexists. split.
  - eapply run_cons; [eapply (st_assigned _ _ _ _ 0 list_text (TStruct 1) _ 20); [reflexivity|eexists; eexists; split; reflexivity|reflexivity|vm_compute; reflexivity]|].
    eapply run_cons; [eapply st_copy; reflexivity|].
    eapply run_cons; [eapply (st_restore_thrown _ _ _ _ 0 _ 1%N _ 20); [reflexivity|eexists; eexists; split; reflexivity|vm_compute; reflexivity]|].
    eapply run_cons; [eapply st_errors|].
    eapply run_cons; [eapply (st_pull_thrown _ _ _ _ 0 bad_doc (TStruct 1) _ 20); [reflexivity|eexists; eexists; split; reflexivity|cbn; tauto|vm_compute; reflexivity]|].
    apply run_nil.
  - cbn. split; [vm_compute; reflexivity|vm_compute; discriminate].
Qed.

(** all hypotheses of C70_backup are met by it: whatever the outcome of the later calls, y is serialised to the text x was restored from *)
Example history_backup : forall w1 w2 w', step GE JE TW start (Assign 0 list_text) w1 -> step GE JE TW w1 (Copy 1 0) w2 ->
  run GE JE TW w2 (skipn 2 history) w' ->
  forall t v, nth_error (w_vars w1) 0 = Some (t, v) -> nth_error (w_vars w') 1 = Some (t, v) /\ forall fuel, toJson TW GE JE (w_heap w') fuel t v = toJson TW GE JE (w_heap w1) fuel t v.
Proof.
  intros w1 w2 w' S1 S2 R t v E.
  assert (P1 : proper GE w1) by (apply (C70_stays_proper GE JE TW GE_usable start [Assign 0 list_text] w1 start_proper); econstructor; [exact S1|constructor]).
  destruct (C70_backup GE JE TW GE_usable GE_members w1 0 1 w2 (skipn 2 history) w' t v P1 S2 R) as [A B]; [|exact E|split; [exact A|intros fuel; apply B]].
  intros a I. cbn in I. repeat destruct I as [<- |I]; cbn; try lia; try tauto.
Qed.
(** those of the theorems about what is possible next *)
Example next_possible : forall l w', run GE JE TW start l w' -> (forall data, exists w2, step GE JE TW w' (Restore 0 data) w2)
  /\ (forall doc, json_wf doc -> (exists w2, step GE JE TW w' (Pull 0 doc) w2)
        \/ exists v F, forall fuel, F <= fuel -> pull GE JE fuel (TStruct 1) v doc {| p_heap := w_heap w'; p_err := w_errs w' |} = PUB)
  /\ exists v F, (exists bs W, forall fuel, F <= fuel -> BinModel.write GE (w_heap w') fuel 0 (TStruct 1) v [] = ROk (bs, W)) \/ (forall fuel, F <= fuel -> BinModel.write GE (w_heap w') fuel 0 (TStruct 1) v [] = RThrow ExConv).
Proof.
  intros l w' R. destruct (C70_stays_proper GE JE TW GE_usable _ _ _ start_proper R) as [_ E].
  assert (exists v, nth_error (w_vars w') 0 = Some (TStruct 1%N, v)) as [v Ev]. { destruct (w_vars w') as [|[t v] vs]; cbn in E; [discriminate|]. injection E as -> _. exists v. reflexivity. }
  split; [|split].
  - intros data. apply (C70_restore_possible GE JE TW GE_usable GE_by_value start l w' 0 1 v data start_proper R Ev). eexists. eexists. split; reflexivity.
  - intros doc Hj. destruct (C70_pull_possible GE JE TW GE_usable GE_no_pull_cycle start l w' 0 (TStruct 1) v doc start_proper R Ev) as [X|X]; [eexists; eexists; split; reflexivity|exact Hj|left; exact X|right; exists v; exact X].
  - exists v. apply (C70_binary_possible GE JE TW GE_usable GE_writers_ok start l w' 0 (TStruct 1) v start_proper R Ev). eexists. reflexivity.
Qed.
Example json_again : forall l w', run GE JE TW start l w' -> (forall a, In a l -> json_only a) -> forall k t v, nth_error (w_vars w') k = Some (t, v) -> pushable GE t -> variants_small t ->
  exists F j, json_wf j /\ forall fuel, F <= fuel -> push GE JE (w_heap w') fuel t v = ROk j.
Proof. intros l w' R. exact (C70_json_possible GE JE TW GE_usable GE_plain GE_members GE_pushers_ok GE_variants_small start l w' start_proper empty_acyclic R). Qed.

(** finding: C70_json_possible does not hold for histories which contain restoring from binary data: a variable may then refer to a cycle, and pushing it does not end *)
Definition loop_data : bytes := hex [0; 0; 0; 9; 1; 0x90; 0; 0; 0; 7; 2; 0x90]%N.
Theorem C70_restored_cycle_refuted : exists w', run GE JE TW start [Restore 0 loop_data] w'
  /\ exists v, nth_error (w_vars w') 0 = Some (TStruct 1%N, v) /\ forall fuel, push GE JE (w_heap w') fuel (TStruct 1) v = RFuel.
Proof.
  eexists. split.
  - eapply run_cons; [eapply (st_restored _ _ _ _ 0 loop_data 1%N _ 20); [reflexivity|eexists; eexists; split; reflexivity|vm_compute; reflexivity]|apply run_nil].
  - eexists. split; [vm_compute; reflexivity|]. cbn [w_heap become r_heap].
    match goal with |- forall f, push _ _ ?hh f _ ?x = _ => set (h := hh) end.
    assert (L : forall f, push GE JE h f (TShared (TStruct 1)) (VShared (Some 1%N)) = RFuel -> forall v, push GE JE h (S (S f)) (TStruct 1) (nodeval v (Some 1%N)) = RFuel).
    { intros f E v. rewrite JsonRel.push_S. cbn [push_body nodeval]. rewrite JsonRel.push_cls_S. unfold push_cls_body.
      change (g_class GE 1) with (Some cNode). cbv beta iota. cbn [rc_push cNode mkclass jp_bases jprog_of jp_fields push_fold map rbind node jf jf_key jf_ty jf_name].
      change (alookup fkey_eqb (1%N, B "value") [((1%N, B "value"), VInt v); ((1%N, B "next"), VShared (Some 1%N))]) with (Some (VInt v)).
      change (alookup fkey_eqb (1%N, B "next") [((1%N, B "value"), VInt v); ((1%N, B "next"), VShared (Some 1%N))]) with (Some (VShared (Some 1%N))).
      cbv beta iota. rewrite E. destruct f; reflexivity. }
    assert (Q : forall f, push GE JE h f (TShared (TStruct 1)) (VShared (Some 1%N)) = RFuel).
    { induction f as [f IH] using lt_wf_ind. destruct f as [|[|[|f]]]; [reflexivity|reflexivity|reflexivity|]. rewrite JsonRel.push_S. cbn [push_body].
      change (hget h 1%N) with (Some (TStruct 1%N, nodeval 7 (Some 1%N))). cbv beta iota. apply L. apply IH. lia. }
    intros [|[|f]]; [reflexivity|reflexivity|]. apply (L f (Q f)).
Qed.
Print Assumptions C70_restored_cycle_refuted.
