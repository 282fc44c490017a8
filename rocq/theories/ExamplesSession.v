(** ExamplesSession.v -- the hypotheses of the theorems in PropertiesSession.v are met; where they are needed *)
From Coq Require Import String List NArith ZArith Bool Lia.
From Verif Require Import Base BaseFacts Types TypesFacts BinModel BinSpec BinSafeSpec ExamplesEnv ExamplesBin SessionSpec SessionFacts PropertiesSession.
Import ListNotations.
Local Open Scope N_scope.

Definition ptr : ty := TShared (TStruct 1).
(** three calls: a node which refers to another one, both modified and a third one created afterwards; then the second and the third one destroyed *)
Definition heap1 : heap := [(16, (TStruct 1, nodeval 7 (Some 32))); (32, (TStruct 1, nodeval 5 None))].
Definition heap2 : heap := [(16, (TStruct 1, nodeval 8 None)); (32, (TStruct 1, nodeval 6 None)); (48, (TStruct 1, nodeval 9 (Some 16)))].
Definition heap3 : heap := [(16, (TStruct 1, nodeval 10 None))].
Definition call1 := mkcall heap1 false 0 0 ptr (vinit GE ptr) (VShared (Some 16)).
Definition call2 := mkcall heap2 false 0 0 two (vinit GE two) (VPair (VShared (Some 48)) (VShared (Some 32))).
Definition call3 := mkcall heap3 false 0 0 ptr (vinit GE ptr) (VShared (Some 16)).
Definition calls : list call := [call1; call2; call3].

Ltac lookups E := unfold hget in E; cbn [alookup] in E; repeat match type of E with (if ?a =? ?b then _ else _) = _ => let Q := fresh "Q" in destruct (a =? b) eqn:Q; [apply N.eqb_eq in Q; subst a|clear Q] end.
Ltac node := split; [reflexivity|]; apply node_good; [reflexivity|]; intros ? Eb; inversion Eb; subst; eexists; vm_compute; reflexivity.
Example calls_proper c : In c calls -> proper GE c.
Proof.
  intros [<-|[<-|[<-|[]]]]; split; cbn [cl_heap cl_ex cl_wv cl_rv cl_ty cl_old cl_val call1 call2 call3].
  - intros a t x E. unfold heap1 in E. lookups E; try discriminate E; inversion E; subst; node.
  - eapply g_shared_some. reflexivity.
  - intros a t x E. unfold heap2 in E. lookups E; try discriminate E; inversion E; subst; node.
  - apply g_pair; eapply g_shared_some; reflexivity.
  - intros a t x E. unfold heap3 in E. lookups E; try discriminate E; inversion E; subst; node.
  - eapply g_shared_some. reflexivity.
Qed.
Example calls_agree : types_agree calls.
Proof.
  assert (X : forall c a t, In c calls -> hty (cl_heap c) a = Some t -> t = TStruct 1).
  { intros c a t [<-|[<-|[<-|[]]]] E; cbn [cl_heap call1 call2 call3] in E; unfold hty in E; match type of E with omap fst (hget ?h a) = _ => destruct (hget h a) as [[u x]|] eqn:Eg end; try discriminate E;
      cbn in E; injection E as <-; unfold heap1, heap2, heap3 in Eg; lookups Eg; try discriminate Eg; inversion Eg; reflexivity. }
  intros c c' a t t' Hc Hc' E E'. rewrite (X _ _ _ Hc E), (X _ _ _ Hc' E'). reflexivity.
Qed.
Definition session_data : bytes := hex [1; 0x90; 0; 0; 0; 7; 1; 0xA0; 0; 0; 0; 5; 0;   1; 0xB0; 0; 0; 0; 9; 2; 0x90;  2; 0xA0;   2; 0x90].
Example calls_written : write_all GE 10 calls [] = ROk (session_data, [48; 32; 16]).
Proof. vm_compute. reflexivity. Qed.
(** the nodes 16 and 32 are restored with their content at the time of the first call, the node 48 with that of the second one *)
Example calls_read : exists h ptrs, read_all GE 10 calls session_data {| r_heap := []; r_ptr := [] |} =
  ROk ([VShared (Some 1); VPair (VShared (Some 3)) (VShared (Some 2)); VShared (Some 1)], [], {| r_heap := h; r_ptr := ptrs |})
  /\ hget h 1 = Some (TStruct 1, nodeval 7 (Some 2)) /\ hget h 2 = Some (TStruct 1, nodeval 5 None) /\ hget h 3 = Some (TStruct 1, nodeval 9 (Some 1)).
Proof. eexists _, _. split; [vm_compute; reflexivity|]. repeat split; vm_compute; reflexivity. Qed.
Example C80_case : exists F, forall fuel, (F <= fuel)%nat -> exists bs W S, write_all GE fuel calls [] = ROk (bs, W) /\ snapshot GE fuel calls S /\ from_calls calls S
    /\ forall st rest, exists vs st' ro, read_all GE fuel calls (bs ++ rest) st = ROk (vs, rest, st')
         /\ Forall2 (fun c v' => same_value GE ro (cl_ty c) (cl_val c) v' /\ (cl_ex c = true -> v' = cl_val c)) calls vs /\ graph_iso GE S (r_heap st) (r_heap st') ro
         /\ (forall a, In a W <-> In a (map fst ro)).
Proof. exact (C80_session GE calls GE_alloc GE_place calls_proper calls_agree). Qed.

(** Finding: the serializer remembers addresses of objects it does not own.  If an object is destroyed and the memory used for another one while the serializer is in use, the
    new object is not written; without any error the second pointer is restored to a copy of the object which has been destroyed *)
Theorem C80_reused_address_refuted :
  let first := mkcall [(16, (TStruct 1, nodeval 7 None))] false 0 0 ptr (vinit GE ptr) (VShared (Some 16)) in
  let second := mkcall [(16, (TStruct 1, nodeval 9 None))] false 0 0 ptr (vinit GE ptr) (VShared (Some 16)) in
  exists bs W h ptrs, write_all GE 10 [first; second] [] = ROk (bs, W)
    /\ read_all GE 10 [first; second] bs {| r_heap := []; r_ptr := [] |} = ROk ([VShared (Some 1); VShared (Some 1)], [], {| r_heap := h; r_ptr := ptrs |})
    /\ hget h 1 = Some (TStruct 1, nodeval 7 None) /\ forall a, hget h a <> Some (TStruct 1, nodeval 9 None).
Proof.
  cbv zeta. eexists _, _, _, _. split; [vm_compute; reflexivity|]. split; [vm_compute; reflexivity|]. split; [vm_compute; reflexivity|]. intros a E. lookups E; discriminate E.
Qed.
Print Assumptions C80_reused_address_refuted.
(** Finding: if the new object has another type, writing succeeds but the data cannot be read *)
Theorem C80_types_disagree_refuted :
  let first := mkcall [(16, (TStruct 1, nodeval 7 None))] false 0 0 ptr (vinit GE ptr) (VShared (Some 16)) in
  let second := mkcall [(16, (TString, VStr (B "x")))] false 0 0 (TShared TString) (vinit GE (TShared TString)) (VShared (Some 16)) in
  proper GE first /\ proper GE second
  /\ exists bs W, write_all GE 10 [first; second] [] = ROk (bs, W) /\ read_all GE 10 [first; second] bs {| r_heap := []; r_ptr := [] |} = RThrow ExConv.
Proof.
  cbv zeta. split; [|split].
  - split; cbn [cl_heap cl_ex cl_wv cl_rv cl_ty cl_old cl_val]; [intros a t x E; lookups E; try discriminate E; inversion E; subst; node|eapply g_shared_some; reflexivity].
  - split; cbn [cl_heap cl_ex cl_wv cl_rv cl_ty cl_old cl_val]; [|eapply g_shared_some; reflexivity].
    intros a t x E. lookups E; try discriminate E. inversion E; subst. split; [reflexivity|]. apply g_string. reflexivity.
  - eexists _, _. split; [vm_compute; reflexivity|]. vm_compute. reflexivity.
Qed.
Print Assumptions C80_types_disagree_refuted.
(** the data written by a serializer which has been used before cannot be read by a deserializer which has not read what the serializer wrote before *)
Theorem C80_fresh_deserializer_refuted : exists b1 W1 b2 W2,
  write GE heap1 10 0 ptr (VShared (Some 16)) [] = ROk (b1, W1) /\ write GE heap1 10 0 ptr (VShared (Some 32)) W1 = ROk (b2, W2)
  /\ read GE 10 0 ptr (vinit GE ptr) b2 {| r_heap := []; r_ptr := [] |} = RThrow ExConv.
Proof. eexists _, _, _, _. split; [vm_compute; reflexivity|]. split; [vm_compute; reflexivity|]. vm_compute. reflexivity. Qed.
Print Assumptions C80_fresh_deserializer_refuted.
