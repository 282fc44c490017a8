(** ExamplesAgain.v -- concrete cases which meet the hypotheses of the theorems in PropertiesAgain.v, and stronger claims which are refuted *)
From Coq Require Import String List NArith ZArith Bool Lia.
From Verif Require Import Base BaseFacts Types TypesFacts BinModel BinSpec BinSafeSpec BinFacts ContFacts Float JsonModel JsonRel JsonErr JsonSpec JsonSafeSpec JsonSafe JsonMembers JsonColl
  PropertiesJson ExamplesEnv ExamplesBin ExamplesGen ExamplesJson EquivSpec AgainSpec AgainFacts AgainTop AgainComplete PropertiesAgain.
Import ListNotations.
Local Open Scope list_scope.
Local Open Scope N_scope.

(** [TestObject] may be read repeatedly, the other classes contain shared pointers *)
Definition CE (m : mode) (c : N) : Prop := c = 0 \/ m = Any /\ c <= 4.
Definition Lof (c : N) (ms : list (string * ty * N * N)) : list jfield := map (fun '(n, t, _, _) => jf c n t) ms.
Lemma simple_members c rc name ms : g_class GE c = Some rc -> rc_pull rc = Some (jprog_of c [] name ms) -> members GE rc_pull c (Lof c ms).
Proof. intros E P. exact (members_intro _ _ c rc (jprog_of c [] name ms) [] E P (Forall2_nil _)). Qed.
Example GE_considered : classes_considered GE CE.
Proof.
  intros m c [-> |[-> Hc]].
  - exists cTest, (Lof 0 testobj). split; [reflexivity|]. split; [eapply simple_members; reflexivity|]. split.
    + cbn [In Lof testobj map]. intros fd H. repeat destruct H as [<-|H]; try contradiction; cbn; repeat split; intros; discriminate.
    + intros _. split.
      * cbn [In Lof testobj map]. intros fd fd' H H'. repeat destruct H as [<-|H]; try contradiction; repeat destruct H' as [<-|H']; try contradiction; cbn; intros E; try discriminate E; auto.
      * constructor. intros L fd x HL Hfd. rewrite (members_fun _ _ _ _ HL (Lof 0 testobj)) in Hfd by (eapply simple_members; reflexivity).
        cbn [In Lof testobj map] in Hfd. repeat destruct Hfd as [<-|Hfd]; try contradiction; cbn -[GE]; intros [= <-]; try (apply ky_other; exact I); (apply ky_map; [intros y []|apply NoDup_nil|intros k0 y []]).
  - assert (c = 0 \/ c = 1 \/ c = 2 \/ c = 3 \/ c = 4) as H by lia. destruct H as [-> |[-> |[-> |[-> | -> ]]]].
    + exists cTest, (Lof 0 testobj). split; [reflexivity|]. split; [eapply simple_members; reflexivity|]. split; [|discriminate].
      cbn [In Lof testobj map]. intros fd H. repeat destruct H as [<-|H]; try contradiction; cbn; repeat split; intros; discriminate.
    + exists cNode, (Lof 1 node). split; [reflexivity|]. split; [eapply simple_members; reflexivity|]. split; [|discriminate].
      cbn [In Lof node map]. intros fd H. repeat destruct H as [<-|H]; try contradiction; cbn; repeat split; right; split; (reflexivity || lia).
    + exists cVer, (Lof 2 ver). split; [reflexivity|]. split; [eapply simple_members; reflexivity|]. split; [|discriminate].
      cbn [In Lof ver map]. intros fd H. repeat destruct H as [<-|H]; try contradiction; cbn; repeat split; right; split; (reflexivity || lia).
    + exists cDerived, L3. split; [reflexivity|]. split; [exact L3_pulled|]. split; [|discriminate].
      cbn [In L3 app ver derived map]. intros fd H. repeat destruct H as [<-|H]; try contradiction; cbn; repeat split; try discriminate; right; split; (reflexivity || lia).
    + exists cOuter, (Lof 4 outer). split; [reflexivity|]. split; [eapply simple_members; reflexivity|]. split; [|discriminate].
      cbn [In Lof outer map]. intros fd H. repeat destruct H as [<-|H]; try contradiction; cbn; right; split; (reflexivity || lia).
Qed.

Definition ordered_doc : json := JObj [(B "number", JStr (B "x")); (B "numbers", JArr [JInt 1; JNull]); (B "someMap", JObj [(B "k", JInt 2); (B "l", JBool true)]); (B "someSet", JArr [JStr (B "b"); JStr (B "a")])].
Lemma test_keyed : keyed GE (TStruct 0) (vinit GE (TStruct 0)).
Proof. destruct (GE_considered Repeatable 0 (or_introl eq_refl)) as (rc & L & Ec & _ & _ & H). cbn [vinit]. rewrite Ec. apply (H eq_refl). Qed.
(** the hypotheses are met by documents which do not fit the type entirely *)
Example again_hyps : pullable GE (fun _ => True) false (TStruct 0) /\ considered CE Repeatable (TStruct 0) /\ json_wf ordered_doc /\ distinct_names ordered_doc
  /\ variable_ok GE false [] (TStruct 0) (vinit GE (TStruct 0)) /\ keyed GE (TStruct 0) (vinit GE (TStruct 0)).
Proof.
  split; [exists cTest; eexists; split; reflexivity|]. split; [left; reflexivity|]. split; [cbn; repeat split; auto; intros; discriminate|]. split; [cbn; repeat split; nodup|]. split; [|exact test_keyed].
  left. apply GE_init. reflexivity.
Qed.
Definition run0 := Eval vm_compute in pull GE JE 20 (TStruct 0) (vinit GE (TStruct 0)) ordered_doc SE.
(** the first call reports an error for "number", for the second element of "numbers" and for "l", the second one the same again *)
Example again_instance : exists v st1, pull GE JE 20 (TStruct 0) (vinit GE (TStruct 0)) ordered_doc SE = POk v st1 /\ length (reported st1) = 3%nat
  /\ exists st2, pull GE JE 20 (TStruct 0) v ordered_doc {| p_heap := []; p_err := Some est0 |} = POk v st2 /\ reported st2 = reported st1.
Proof.
  destruct again_hyps as (A & K & W & D & O & Ko).
  assert (E : match run0 with POk v st1 => pull GE JE 20 (TStruct 0) (vinit GE (TStruct 0)) ordered_doc SE = POk v st1 | _ => False end) by (vm_compute; reflexivity).
  destruct run0 as [v st1| | | |] eqn:Er; try contradiction. exists v, st1. split; [exact E|]. unfold run0 in Er. injection Er as _ <-. split; [reflexivity|].
  destruct (C73_again GE JE false CE GE_alloc GE_place (GE_jenv _ false I) JE_conv GE_considered GE_string_keys _ _ _ _ _ _ _ A K W D (fun a t x (H : hget (p_heap SE) a = Some (t, x)) => ltac:(discriminate H)) O Ko E) as [_ Q].
  destruct (Q (Some est0)) as (st2 & E2 & _ & _ & new & R1 & R2); [repeat split|]. exists st2. split; [exact E2|]. cbn [reported p_err est0 es_errs app] in R2. rewrite R2. cbn in R1. symmetry. exact R1.
Qed.
(** documents which do not fit are reported in the same way whatever the variable contains, also with shared pointers *)
Example outcome_hyps : considered CE Any (TStruct 3) /\ considered CE Any (TMap false true TString (TShared (TStruct 1))) /\ considered CE Unshared (TSeq (TMap true true TString TF64)).
Proof. repeat split; try discriminate; right; split; (reflexivity || lia). Qed.
Example outcome_instance : same_outcome SE {| p_heap := H3; p_err := Some est0 |} (pull GE JE 20 (TStruct 3) (vinit GE (TStruct 3)) (JObj [(B "a", JNull); (B "x", JObj [(B "k", JArr [JInt 1; JStr (B "2")])]); (B "d", JObj [(B "next", JBool true)])]) SE)
  (pull GE JE 20 (TStruct 3) (VObj derived_obj) (JObj [(B "a", JNull); (B "x", JObj [(B "k", JArr [JInt 1; JStr (B "2")])]); (B "d", JObj [(B "next", JBool true)])]) {| p_heap := H3; p_err := Some est0 |}).
Proof. vm_compute. repeat split. eexists. split; reflexivity. Qed.
(** a whole pair of an array and a variant *)
Example complete_instance : complete GE JE (TPair (TSeq i32) (TPair (TVariant [i32; TString]) TBool)) (JArr [JArr [JInt 1; JNull]; JArr [JObj [(B "data", JNull); (B "index", JInt 1)]; JBool false]])
  /\ considered CE Unshared (TPair (TSeq i32) (TPair (TVariant [i32; TString]) TBool)).
Proof. split; [|repeat split]. apply cp_pair; [apply cp_seq|]. apply cp_pair; [|apply cp_bool]. eapply cp_variant; reflexivity. Qed.

(** without the restrictions on the types the claims are wrong (that names are distinct is only assumed to keep the proof simple): a multimap gets the entries again, *)
Theorem C73_multimap_refuted : exists v st1 w st2, pull GE JE 9 (TMap true true TString i32) (VList []) (JObj [(B "k", JArr [JInt 1])]) SE = POk v st1
  /\ pull GE JE 9 (TMap true true TString i32) v (JObj [(B "k", JArr [JInt 1])]) SE = POk w st2 /\ w = VList [VPair (VStr (B "k")) (VInt 1); VPair (VStr (B "k")) (VInt 1)] /\ v <> w.
Proof. eexists _, _, _, _. split; [vm_compute; reflexivity|]. split; [vm_compute; reflexivity|]. split; [reflexivity|discriminate]. Qed.
Print Assumptions C73_multimap_refuted.
(** an object owned by a shared pointer is replaced by a new one *)
Theorem C73_shared_refuted : exists v st1 w st2, pull GE JE 9 (TShared i32) (VShared None) (JInt 1) SE = POk v st1
  /\ pull GE JE 9 (TShared i32) v (JInt 1) st1 = POk w st2 /\ v <> w.
Proof. eexists _, _, _, _. split; [vm_compute; reflexivity|]. split; [vm_compute; reflexivity|discriminate]. Qed.
Print Assumptions C73_shared_refuted.
(** and documents are merged into maps, so there is no whole value for them: the contents stay *)
Theorem C73_map_not_determined_refuted : exists v v' s s', pull GE JE 9 (TMap true false TString i32) (VList []) (JObj [(B "k", JInt 1)]) SE = POk v s
  /\ pull GE JE 9 (TMap true false TString i32) (VList [VPair (VStr (B "a")) (VInt 0)]) (JObj [(B "k", JInt 1)]) SE = POk v' s' /\ v <> v'.
Proof. eexists _, _, _, _. split; [vm_compute; reflexivity|]. split; [vm_compute; reflexivity|discriminate]. Qed.
Print Assumptions C73_map_not_determined_refuted.
