(** ExamplesJsonExc.v -- concrete cases for PropertiesJsonExc.v *)
From Coq Require Import String List NArith ZArith Bool Lia.
From Verif Require Import Base Bytes Types BinModel BinSpec BinSafeSpec BinFacts BinExcSpec JsonModel JsonSpec JsonSafeSpec JsonExc PropertiesJsonExc
  ExamplesEnv ExamplesBin ExamplesExc ExamplesJson.
Import ListNotations.
Local Open Scope N_scope.

(** members of [Derived] (of its base class [Ver] first); "c" has the wrong type, "x" as well *)
Definition bad_doc : json := JObj
  [(B "x", JObj [(B "k", JArr [JInt 4; JBool true; JInt 6])]); (B "c", JStr (B "no number")); (B "a", JInt 70); (B "y", JObj []); (B "b", JStr (B "new"))].

(** without throwOn both errors, and the one of the variant, are recorded and everything else is restored *)
Example not_stopped : exists st, pull GE JE 20 (TStruct 3) (VObj derived_old) bad_doc {| p_heap := []; p_err := Some est0 |} = POk (VObj
  [((2, B "a"), VInt 70); ((2, B "b"), VStr (B "new")); ((2, B "c"), VInt 2); ((2, B "d"), VOpt None);
   ((3, B "x"), VList [VPair (VStr (B "k")) (VList [VInt 4; VInt 0; VInt 6]); VPair (VStr (B "o")) (VList [])]); ((3, B "y"), VVar 0 (VInt 3))]) st
  /\ option_map (fun e => map e_kind (es_errs e)) (p_err st) = Some [TypeMismatch; TypeMismatch; InvalidVariantObject].
Proof. eexists. split; vm_compute; reflexivity. Qed.
(** with throwOn = TypeMismatch: "a" and "b" are restored, "x" and "y" have not been touched *)
Example stopped : exists x st, xpull GE JE 20 (TStruct 3) (VObj derived_old) bad_doc {| p_heap := []; p_err := Some (throwing_on 1 est0) |} = QThrow x (VObj
  [((2, B "a"), VInt 70); ((2, B "b"), VStr (B "new")); ((2, B "c"), VInt 2); ((2, B "d"), VOpt None);
   ((3, B "x"), VList [VPair (VStr (B "o")) (VList [])]); ((3, B "y"), VVar 0 (VInt 3))]) st
  /\ e_kind x = TypeMismatch /\ e_member x = Some (B "c") /\ p_heap st = [].
Proof. do 2 eexists. split; [vm_compute; reflexivity|]. repeat split. Qed.
(** the error is in an array within the map "x": the new entry is in the map, its elements end with the one concerned *)
Example stopped_in_map : exists x st, xpull GE JE 20 (TStruct 3) (VObj derived_old) (JObj [(B "x", JObj [(B "k", JArr [JInt 4; JBool true; JInt 6]); (B "n", JArr [])])])
    {| p_heap := []; p_err := Some (throwing_on 1 est0) |} = QThrow x (VObj
  [((2, B "a"), VInt 1); ((2, B "b"), VStr (B "old")); ((2, B "c"), VInt 2); ((2, B "d"), VOpt None);
   ((3, B "x"), VList [VPair (VStr (B "k")) (VList [VInt 4; VInt 0]); VPair (VStr (B "o")) (VList [])]); ((3, B "y"), VVar 0 (VInt 3))]) st
  /\ e_index x = Some 1.
Proof. do 2 eexists. split; [vm_compute; reflexivity|]. repeat split. Qed.
(** a set is cleared, and only has the elements before the one concerned; a shared object is in place *)
Example stopped_in_set : exists x st, xpull GE JE 20 (TSet true false TString) (VList [VStr (B "old")]) (JArr [JStr (B "a"); JInt 1])
    {| p_heap := []; p_err := Some (throwing_on 1 est0) |} = QThrow x (VList [VStr (B "a")]) st.
Proof. do 2 eexists. vm_compute. reflexivity. Qed.
Example stopped_in_shared : exists x st, xpull GE JE 20 (TShared (TStruct 1)) (VShared None) (JObj [(B "value", JInt 5); (B "next", JBool true)])
    {| p_heap := []; p_err := Some (throwing_on 1 est0) |} = QThrow x (VShared (Some 1)) st
  /\ hget (p_heap st) 1 = Some (TStruct 1, nodeval 5 (Some 2)) /\ hget (p_heap st) 2 = Some (TStruct 1, nodeval 0 None).
Proof. do 2 eexists. split; [vm_compute; reflexivity|]. split; reflexivity. Qed.

(** the hypotheses of C53_members_in_order are met *)
Example stopped_members : members GE rc_pull 3 L3.
Proof. exact L3_pulled. Qed.
Example bad_wf : json_wf bad_doc.
Proof. cbn. intuition. Qed.
Example stopped_progress : exists fs, fs =
  [((2, B "a"), VInt 70); ((2, B "b"), VStr (B "new")); ((2, B "c"), VInt 2); ((2, B "d"), VOpt None);
   ((3, B "x"), VList [VPair (VStr (B "o")) (VList [])]); ((3, B "y"), VVar 0 (VInt 3))]
  /\ exists after st', pull GE JE 20 (TStruct 3) (VObj derived_old) bad_doc {| p_heap := []; p_err := Some est0 |} = POk (VObj after) st'
  /\ progress GE false (rc_layout cDerived) (map jf_key L3) derived_old [] after (p_heap st') fs [].
Proof.
  destruct stopped as (x & st & E & _ & _ & Eh). destruct not_stopped as (st' & En & _).
  destruct (C53_members_in_order GE JE false GE_alloc GE_place (GE_jenv _ false I) JE_conv 20 3 cDerived L3 derived_old _ [] est0 1 x _ st
    eq_refl stopped_members bad_wf derived_old_typed ltac:(intros a t v Q; discriminate) eq_refl E _ st' En) as (fs & Ef & P).
  exists fs. split; [inversion Ef; reflexivity|]. eexists _, st'. split; [exact En|]. rewrite Eh in P. exact P.
Qed.

(** deserialisation is not atomic *)
Theorem C53_strong_guarantee_refuted : exists j x now st,
  xpull GE JE 20 (TStruct 1) (nodeval 1 None) j {| p_heap := []; p_err := Some (throwing_on 1 est0) |} = QThrow x now st
  /\ now <> nodeval 1 None.
Proof.
  exists (JObj [(B "value", JInt 5); (B "next", JBool true)]). do 3 eexists. split; [vm_compute; reflexivity|discriminate].
Qed.

Print Assumptions C53_strong_guarantee_refuted.
