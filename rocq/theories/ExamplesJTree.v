(** ExamplesJTree.v -- the hypotheses of PropertiesJTree.v are met; reading binary data differs (property C65) *)
From Coq Require Import String List NArith ZArith Bool Lia.
From Verif Require Import Base BaseFacts Types TypesFacts BinModel BinSpec BinSafeSpec Float JsonModel JsonRel JsonText JsonSpec JsonSafeSpec JsonFacts DispatchSpec SerSpec BoundSpec BoundFacts
  ExamplesEnv ExamplesBin ExamplesJson ExamplesText ExamplesDispatch ExamplesSer JTreeSpec JTreeFacts JTreeGrow PropertiesJTree.
Import ListNotations.
Local Open Scope string_scope.
Local Open Scope list_scope.
Local Open Scope nat_scope.

Definition owns_none (kv : fkey * val) : bool := match snd kv with VShared (Some _) => false | VOpt (Some _) => false | VPair _ _ => false | VList (_ :: _) => false | VVar _ (VInt _) => true | VVar _ _ => false | VObj fs => forallb (fun kv => match snd kv with VInt _ | VStr _ | VShared None | VOpt None => true | _ => false end) fs | _ => true end.
Lemma owns_none_ok k x a : owns_none (k, x) = true -> ~ refers x a.
Proof.
  unfold owns_none. cbn [snd]. destruct x as [| | | | | |[|x l]|x y|[x|]|[b|]|i x| | |fs]; try discriminate; intros H R; inversion R; subst; try contradiction.
  - destruct x; try discriminate. match goal with X : refers (VInt _) _ |- _ => inversion X end.
  - match goal with I : In (?k0, ?y) fs |- _ => apply (proj1 (forallb_forall _ _) H) in I; cbn [snd] in I; destruct y as [| | | | | | | |[|]|[|]| | | |]; try discriminate end;
    match goal with X : refers _ a |- _ => inversion X; fail end.
Qed.
Example GE_plain : plain_defaults GE.
Proof.
  intros c rc k x a Hc I. assert (H : forallb owns_none (rc_vinit rc) = true /\ forallb owns_none (rc_dinit rc) = true).
  { cbn [g_class GE] in Hc. class_cases Hc; split; vm_compute; reflexivity. }
  apply (owns_none_ok k). destruct H as [H1 H2], I as [I|I]; [exact (proj1 (forallb_forall _ _) H1 _ I)|exact (proj1 (forallb_forall _ _) H2 _ I)].
Qed.
Lemma empty_no_dangling : no_dangling []. Proof. intros a t x b E. discriminate E. Qed.
Lemma empty_acyclic : acyclic []. Proof. exists (fun _ => 0). intros a t x b E. discriminate E. Qed.

(** a list of shared pointers to lists of nodes; the nodes of the document are equal but different objects are created *)
Definition nodes : ty := TSeq (TShared (TStruct 1)).
Definition nodes_text : bytes := B "[{""value"":7,""next"":{""value"":8,""next"":null}},{""value"":7,""next"":{""value"":8,""next"":null}},null]".
Example nodes_restored : exists v st', fromJsonText TE GE JE 20 nodes nodes_text {| p_heap := []; p_err := None |} = Some (POk v st')
  /\ v = VList [VShared (Some 1%N); VShared (Some 3%N); VShared None]
  /\ hget (p_heap st') 1%N = Some (TStruct 1%N, nodeval 7 (Some 2%N)) /\ hget (p_heap st') 2%N = Some (TStruct 1%N, nodeval 8 None)
  /\ hget (p_heap st') 3%N = Some (TStruct 1%N, nodeval 7 (Some 4%N)) /\ hget (p_heap st') 4%N = Some (TStruct 1%N, nodeval 8 None).
Proof. eexists. eexists. split; [vm_compute; reflexivity|]. repeat split; vm_compute; reflexivity. Qed.
Example nodes_single : exists v st', fromJsonText TE GE JE 20 nodes nodes_text {| p_heap := []; p_err := None |} = Some (POk v st')
  /\ (forall a, pointers a v + heap_pointers a (p_heap st') <= 1) /\ no_dangling (p_heap st') /\ acyclic (p_heap st').
Proof.
  destruct (parseJsonDocFromString TE nodes_text) as [j r| |] eqn:Ep; [|vm_compute in Ep; discriminate|vm_compute in Ep; discriminate].
  destruct (pull GE JE 20 nodes (dinit GE nodes) j {| p_heap := []; p_err := None |}) as [v st'| | | |] eqn:E; try (vm_compute in Ep; injection Ep as <- <-; vm_compute in E; discriminate).
  exists v, st'. split.
  - unfold fromJsonText. rewrite Ep. f_equal. rewrite <- E. vm_compute in Ep. injection Ep as <- <-. reflexivity.
  - split.
    + intros a. eapply (C65_single_owner GE JE 20 nodes); [exact GE_alloc|exact GE_place|exact GE_plain|exact E|exact empty_no_dangling| |intros []].
      intros b R. exfalso. exact (plain_dinit GE GE_plain _ _ R).
    + exact (C65_no_cycles GE JE 20 nodes _ _ _ _ _ GE_alloc GE_place GE_plain E empty_no_dangling empty_acyclic).
Qed.
(** all hypotheses of C65_text_again are met, for a class with a base class, optionals, a variant and a shared pointer *)
Definition derived_text : bytes := B "{""a"":1,""b"":""text"",""d"":{""value"":2,""next"":{""value"":3,""next"":null}},""x"":{""k"":[1,2]},""y"":{""index"":1,""data"":""s""}}".
Example derived_again : exists v st', fromJsonText TW GE JE 20 (TStruct 3) derived_text {| p_heap := []; p_err := None |} = Some (POk v st')
  /\ exists F j', json_wf j' /\ forall fuel', F <= fuel' -> toJsonDocument GE JE (p_heap st') fuel' (TStruct 3) v = ROk j'.
Proof.
  destruct (fromJsonText TW GE JE 20 (TStruct 3) derived_text {| p_heap := []; p_err := None |}) as [[v st'| | | |]|] eqn:E; try (vm_compute in E; discriminate).
  exists v, st'. split; [reflexivity|]. destruct text_hyps as (HA & HP & HE & HC & _ & Tk & Hp & HT).
  refine (C65_text_again TW GE JE 20 (TStruct 3) derived_text {| p_heap := []; p_err := None |} v st' HA HP GE_plain HE HC GE_pushers_ok GE_variants_small TW_bits Tk Hp _ I HT empty_no_dangling empty_acyclic E).
  apply derived_writable.
Qed.

(** finding: reading binary data is different: the objects it creates may refer to each other, and then the value cannot be serialised as JSON
    (the recursion does not end, see C22_cycles_refuted) *)
Theorem C65_binary_refuted : exists bytes v st, read GE 10 0 two (vinit GE two) bytes {| r_heap := []; r_ptr := [] |} = ROk (v, [], st) /\ ~ acyclic (r_heap st).
Proof.
  eexists. eexists. eexists. split; [exact cyclic_restored|]. cbn [r_heap]. intros [rk A].
  assert (L1 : rk 2%N < rk 1%N).
  { eapply A; [reflexivity|]. eapply rf_member; [right; left; reflexivity|]. constructor. }
  assert (L2 : rk 1%N < rk 2%N).
  { eapply A; [reflexivity|]. eapply rf_member; [right; left; reflexivity|]. constructor. }
  lia.
Qed.
Print Assumptions C65_binary_refuted.
(** objects owned by members which are not part of the document stay shared: two variables may share an object before and after *)
Example old_stays : exists st', pull GE JE 5 (TStruct 1) (nodeval 1 (Some 9%N)) (JObj [(B "value", JInt 5)]) {| p_heap := [(9%N, (TStruct 1, nodeval 2 None))]; p_err := None |}
  = POk (nodeval 5 (Some 9%N)) st' /\ p_heap st' = [(9%N, (TStruct 1%N, nodeval 2 None))].
Proof. eexists. split; vm_compute; reflexivity. Qed.
