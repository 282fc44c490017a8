(** ExamplesEquiv.v -- the hypotheses of C69 are met by non-trivial cases, and what happens without them *)
From Coq Require Import String List NArith ZArith Bool Arith Permutation Lia.
From Verif Require Import Base BaseFacts Types TypesFacts BinModel BinSpec BinSafeSpec Float JsonModel JsonSpec JsonSafeSpec JsonText SerSpec JTreeSpec AddrSpec AddrFacts PropertiesAddr ExamplesEnv ExamplesBin ExamplesJson ExamplesText
  ExamplesJTree ExamplesAddr EquivSpec EquivTop PropertiesEquiv.
Import ListNotations.
Local Open Scope string_scope.
Local Open Scope list_scope.
Local Open Scope N_scope.

Example GE_strings : strings_ordered GE.
Proof.
  split; [|split].
  - intros a. cbn. rewrite bytes_ltb_irrefl. discriminate.
  - intros a b c. cbn. apply bytes_ltb_trans.
  - intros a b. cbn. revert b. induction a as [|x a IH]; intros [|y b]; cbn; auto.
    destruct (N.ltb_spec (bval x) (bval y)) as [L|L]; [left; reflexivity|]. destruct (N.ltb_spec (bval y) (bval x)) as [M|M]; [right; right; reflexivity|].
    assert (E : bval x = bval y) by lia. rewrite E, N.eqb_refl. cbn. assert (x = y) as -> by (rewrite <- (mkb_bval x), <- (mkb_bval y), E; reflexivity).
    destruct (IH b) as [H|[-> |H]]; auto.
Qed.
Definition C3 (c : N) : Prop := c = 1 \/ c = 3.
Example GE_classes : classes_ordered GE C3.
Proof.
  intros c [-> | ->].
  - eexists. split; [apply L1_members|]. intros fd [<- |[<- |[]]]; [exact I|left; reflexivity].
  - exists L3. split; [exact L3_pulled|]. intros fd [<- |[<- |[<- |[<- |[<- |[<- |[]]]]]]]; try exact I; [left; reflexivity|repeat split|repeat split].
Qed.

(** *** classes: two documents for a class with a base class; members in a different order, further members within a member *)
Definition doc1 : json := JObj [(B "a", JInt 1); (B "b", JStr (B "text")); (B "d", JObj [(B "value", JInt 2); (B "next", JNull)])].
Definition doc2 : json := JObj [(B "other", JArr []); (B "d", JObj [(B "next", JNull); (B "value", JInt 2); (B "value", JInt 9); (B "more", JBool true)]); (B "b", JStr (B "text")); (B "a", JInt 1)].
Example doc_equivalent : equivalent GE false (TStruct 3) doc1 doc2.
Proof.
  apply (eq_struct GE false 3 L3); [exact L3_pulled|]. intros fd [<- |[<- |[<- |[<- |[<- |[<- |[]]]]]]]; vm_compute; try (constructor; apply eq_same); try apply both_none.
  constructor. apply eq_optional. apply (eq_struct GE false 1 _ _ _ (proj2 L1_members)). intros fd [<- |[<- |[]]]; vm_compute; constructor; apply eq_same.
Qed.
Example doc_read : exists v st, pull GE JE 20 (TStruct 3) (vinit GE (TStruct 3)) doc1 {| p_heap := []; p_err := Some est0 |} = POk v st
  /\ pull GE JE 20 (TStruct 3) (vinit GE (TStruct 3)) doc2 {| p_heap := []; p_err := Some est0 |} = POk v st /\ v <> vinit GE (TStruct 3).
Proof.
  destruct (pull GE JE 20 (TStruct 3) (vinit GE (TStruct 3)) doc1 {| p_heap := []; p_err := Some est0 |}) as [v st| | | |] eqn:E; try (vm_compute in E; discriminate).
  exists v, st. split; [reflexivity|]. split; [rewrite <- E; symmetry; exact (C69_same_meaning GE JE (TStruct 3) doc1 doc2 doc_equivalent 20 _ _)|].
  vm_compute in E. injection E as <- _. intros X. discriminate X.
Qed.

(** *** maps: the nodes are created in a different order, so their addresses differ, and the errors are reported in a different order *)
Definition nodemap : ty := TMap true false TString (TShared (TStruct 1)).
Definition mapdoc1 : json := JObj [(B "p", JObj [(B "value", JInt 1); (B "next", JObj [(B "value", JInt 2); (B "next", JNull)])]); (B "q", JInt 5); (B "k", JObj [(B "value", JStr (B "x")); (B "next", JNull)])].
Definition mapdoc2 : json := JObj [(B "k", JObj [(B "next", JNull); (B "value", JStr (B "x"))]); (B "q", JInt 5); (B "p", JObj [(B "next", JObj [(B "next", JNull); (B "value", JInt 2)]); (B "value", JInt 1)])].
Ltac distinct := repeat constructor; cbn; intuition discriminate.
Example mapdoc_reordered : reordered mapdoc1 mapdoc2.
Proof.
  apply (ro_obj _ [(B "k", JObj [(B "value", JStr (B "x")); (B "next", JNull)]); (B "q", JInt 5); (B "p", JObj [(B "value", JInt 1); (B "next", JObj [(B "value", JInt 2); (B "next", JNull)])])]).
  - eapply perm_trans; [apply perm_swap|]. eapply perm_trans; [apply perm_skip, perm_swap|]. apply perm_swap.
  - distinct.
  - repeat constructor; cbn [snd].
    + eapply ro_obj; [apply perm_swap|distinct|repeat constructor].
    + eapply ro_obj; [apply perm_swap|distinct|]. repeat constructor. cbn [snd]. eapply ro_obj; [apply perm_swap|distinct|repeat constructor].
Qed.
Example mapdoc_hyps : pullable GE (fun _ => True) false nodemap /\ keys_free GE nodemap /\ maps_ordered C3 nodemap /\ json_wf mapdoc1.
Proof. split; [cbn; repeat split; auto; eexists _, _; split; reflexivity|]. split; [apply GE_keys_free|]. split; [repeat split; left; reflexivity|]. cbn. repeat split; auto. Qed.
Lemma both_ok (r r' : out val) st :
  match r, r' with POk v st1, POk v' st1' => same_effect st v st1 v' st1' | POk _ _, _ | _, POk _ _ => False | _, _ => True end ->
  forall v st1 v' st1', r = POk v st1 -> r' = POk v' st1' -> same_effect st v st1 v' st1'.
Proof. intros H v st1 v' st1' -> ->. exact H. Qed.
Example mapdoc_read : exists v st v' st', fromJson GE JE 20 nodemap mapdoc1 {| p_heap := []; p_err := Some est0 |} = POk v st
  /\ fromJson GE JE 20 nodemap mapdoc2 {| p_heap := []; p_err := Some est0 |} = POk v' st'
  /\ same_effect {| p_heap := []; p_err := Some est0 |} v st v' st' /\ v <> v' /\ reported st <> reported st' /\ length (reported st) = 2%nat.
Proof.
  assert (E1 : exists v st, fromJson GE JE 20 nodemap mapdoc1 {| p_heap := []; p_err := Some est0 |} = POk v st) by (eexists _, _; vm_compute; reflexivity).
  assert (E2 : exists v st, fromJson GE JE 20 nodemap mapdoc2 {| p_heap := []; p_err := Some est0 |} = POk v st) by (eexists _, _; vm_compute; reflexivity).
  destruct E1 as (v & st & E1), E2 as (v' & st' & E2). exists v, st, v', st'. split; [exact E1|]. split; [exact E2|]. split.
  - refine (both_ok _ _ _ _ v st v' st' E1 E2).
    exact (C69_fromJson GE JE false C3 GE_alloc GE_place (GE_jenv _ false I) JE_conv GE_plain GE_pulled_free GE_strings GE_classes 20 nodemap mapdoc1 mapdoc2 {| p_heap := []; p_err := Some est0 |}
      (proj1 mapdoc_hyps) (proj1 (proj2 mapdoc_hyps)) (proj1 (proj2 (proj2 mapdoc_hyps))) empty_heap_typed empty_no_dangling (proj2 (proj2 (proj2 mapdoc_hyps))) mapdoc_reordered).
  - vm_compute in E1, E2. injection E1 as <- <-. injection E2 as <- <-. split; [intros X; discriminate X|]. split; [intros X; discriminate X|reflexivity].
Qed.
(** C69_reordered: into a map which has entries already *)
Definition oldmap : val := VList [VPair (VStr (B "o")) (VShared (Some a1)); VPair (VStr (B "q")) (VShared (Some a2))].
Example oldmap_hyps : variable_ok GE false HC nodemap oldmap /\ (forall a, refers oldmap a -> exists_at HC a) /\ heap_typed GE false HC /\ no_dangling HC.
Proof.
  assert (N : forall a, refers oldmap a -> a = a1 \/ a = a2).
  { intros a R. inversion R as [|? x ? I Q| | | | |]; subst. destruct I as [<- |[<- |[]]]; (inversion Q as [| | ? ? ? X| ? ? ? X | | |]; subst; [inversion X|inversion X; subst; auto]). }
  split; [|split; [|split]].
  - left. apply ht_map; [intros x [<- |[<- |[]]]; eexists _, _; reflexivity| |]; intros a b [E|[E|[]]]; injection E as <- <-; constructor; reflexivity.
  - intros a R. destruct (N a R) as [-> | ->]; vm_compute; auto.
  - exact HC_typed.
  - intros a t x b E R. assert (b = a1 \/ b = a2).
    { unfold HC, hget in E. cbn [alookup] in E. destruct (a =? a1); [injection E as <- <-|destruct (a =? a2); [injection E as <- <-|discriminate]];
        (inversion R as [| | | | | |? k x ? I Q]; subst; destruct I as [I|[I|[]]]; injection I as <- <-; inversion Q; subst; auto). }
    destruct H as [-> | ->]; vm_compute; auto.
Qed.
(** C69_texts *)
Definition text1 : bytes := B "{""a"":1,""d"":{""value"":2,""next"":{""value"":3,""next"":null}},""x"":{""k"":[1,2],""j"":[]}}".
Definition text2 : bytes := B "{""x"":{""j"":[],""k"":[1,2]}, ""d"":{""next"":{""next"":null,""value"":3},""value"":2},""a"":1}".
Example texts_same : exists v st v' st', fromJsonText TW GE JE 20 (TStruct 3) text1 {| p_heap := []; p_err := None |} = Some (POk v st)
  /\ fromJsonText TW GE JE 20 (TStruct 3) text2 {| p_heap := []; p_err := None |} = Some (POk v' st')
  /\ forall fuel, toJson TW GE JE (p_heap st) fuel (TStruct 3) v = toJson TW GE JE (p_heap st') fuel (TStruct 3) v'.
Proof.
  destruct (parseJsonDocFromString TW text1) as [j r| |] eqn:P1; try (vm_compute in P1; discriminate).
  destruct (parseJsonDocFromString TW text2) as [j' r'| |] eqn:P2; try (vm_compute in P2; discriminate).
  destruct (fromJsonText TW GE JE 20 (TStruct 3) text1 {| p_heap := []; p_err := None |}) as [[v st| | | |]|] eqn:E1; try (vm_compute in E1; discriminate).
  assert (R : reordered j j').
  { vm_compute in P1, P2. injection P1 as <- <-. injection P2 as <- <-. eapply ro_obj; [apply Permutation_rev|distinct|]. cbn [rev app]. repeat constructor; cbn [snd].
    - eapply ro_obj; [apply perm_swap|distinct|repeat constructor].
    - eapply ro_obj; [apply perm_swap|distinct|]. repeat constructor. cbn [snd]. eapply ro_obj; [apply perm_swap|distinct|repeat constructor]. }
  destruct (C69_texts TW GE JE false C3 GE_alloc GE_place (GE_jenv _ false I) JE_conv GE_plain GE_pulled_free GE_strings GE_classes TW_bits 20 (TStruct 3) text1 text2 j j' r r' {| p_heap := []; p_err := None |} v st
    (struct3_pullable _ _) (GE_keys_free _) (or_intror eq_refl) empty_heap_typed empty_no_dangling P1 P2 R E1) as (v' & st' & E2 & _ & Q).
  exists v, st, v', st'. split; [reflexivity|]. split; [exact E2|exact Q].
Qed.

(** finding: the array index in an error may depend on the order of the entries of a map: once a nested array has been read, the index within the outer array is forgotten (see C26),
    so for [[{"a":[1],"b":"x"}]] the error about "b" has no index but for [[{"b":"x","a":[1]}]] it has the index 0; that is why C69_maps leaves indexes out *)
Definition seqmaps : ty := TSeq (TMap true false TString (TSeq i32)).
Definition bad1 : json := JArr [JObj [(B "a", JArr [JInt 1]); (B "b", JStr (B "x"))]].
Definition bad2 : json := JArr [JObj [(B "b", JStr (B "x")); (B "a", JArr [JInt 1])]].
Theorem C69_index_refuted : reordered bad1 bad2 /\ exists v st v' st',
  pull GE JE 20 seqmaps (VList []) bad1 {| p_heap := []; p_err := Some est0 |} = POk v st /\ pull GE JE 20 seqmaps (VList []) bad2 {| p_heap := []; p_err := Some est0 |} = POk v' st'
  /\ map e_index (reported st) = [None] /\ map e_index (reported st') = [Some 0].
Proof.
  split; [apply ro_arr; constructor; [|constructor]; eapply ro_obj; [apply perm_swap|distinct|repeat constructor]|].
  eexists _, _, _, _. split; [vm_compute; reflexivity|]. split; [vm_compute; reflexivity|]. split; reflexivity.
Qed.
Print Assumptions C69_index_refuted.
(** finding: the entries of hash maps are kept in the order they are inserted in here, so the result of reading reordered documents differs, and so do the texts made of it *)
Definition hashmap : ty := TMap false false TString i32.
Theorem C69_hash_maps_refuted : exists j j', reordered j j' /\ exists v v',
  fromJson GE JE 20 hashmap j {| p_heap := []; p_err := None |} = POk v {| p_heap := []; p_err := None |} /\ fromJson GE JE 20 hashmap j' {| p_heap := []; p_err := None |} = POk v' {| p_heap := []; p_err := None |}
  /\ toJson TW GE JE [] 20 hashmap v = ROk (B "{""a"":1,""b"":2}") /\ toJson TW GE JE [] 20 hashmap v' = ROk (B "{""b"":2,""a"":1}").
Proof.
  exists (JObj [(B "a", JInt 1); (B "b", JInt 2)]), (JObj [(B "b", JInt 2); (B "a", JInt 1)]). split; [eapply ro_obj; [apply perm_swap|distinct|repeat constructor]|].
  eexists _, _. split; [vm_compute; reflexivity|]. split; [vm_compute; reflexivity|]. split; vm_compute; reflexivity.
Qed.
Print Assumptions C69_hash_maps_refuted.
(** finding: names need to be distinct: of members of the same name the first one is read into a class but for a map the last one counts *)
Theorem C69_same_names_refuted : exists ms ms', Permutation ms ms'
  /\ pull GE JE 20 (TStruct 1) (vinit GE (TStruct 1)) (JObj ms) {| p_heap := []; p_err := None |} = POk (nodeval 1 None) {| p_heap := []; p_err := None |}
  /\ pull GE JE 20 (TStruct 1) (vinit GE (TStruct 1)) (JObj ms') {| p_heap := []; p_err := None |} = POk (nodeval 2 None) {| p_heap := []; p_err := None |}
  /\ (exists v, pull GE JE 20 (TMap true false TString i32) (VList []) (JObj ms) {| p_heap := []; p_err := None |} = POk v {| p_heap := []; p_err := None |} /\ v = VList [VPair (VStr (B "value")) (VInt 2)]).
Proof.
  exists [(B "value", JInt 1); (B "value", JInt 2)], [(B "value", JInt 2); (B "value", JInt 1)]. split; [apply perm_swap|].
  split; [vm_compute; reflexivity|]. split; [vm_compute; reflexivity|]. eexists. split; [vm_compute; reflexivity|reflexivity].
Qed.
Print Assumptions C69_same_names_refuted.
