(** ExamplesExc.v -- concrete cases for PropertiesExc.v *)
From Coq Require Import String List NArith ZArith Bool Lia.
From Verif Require Import Base Bytes Types BinModel BinSpec BinSafeSpec BinFacts BinExc BinExcSpec ExamplesEnv ExamplesBin.
Import ListNotations.
Local Open Scope N_scope.

(** the members of [Derived]: those of its base class [Ver] first *)
Example derived_members : read_members_of GE 3
  [(2, B "a"); (2, B "b"); (2, B "c"); (2, B "d"); (3, B "x"); (3, B "y")].
Proof.
  change [(2, B "a"); (2, B "b"); (2, B "c"); (2, B "d"); (3, B "x"); (3, B "y")]
    with (concat [concat [] ++ map bf_key (bp_fields (prog 2 [] 3 ver))] ++ map bf_key (bp_fields (prog 3 [2] 5 derived))).
  eapply rmo_intro with (rc := cDerived); [reflexivity|reflexivity|]. constructor; [|constructor].
  eapply rmo_intro with (rc := cVer); [reflexivity|reflexivity|constructor].
Qed.

(** an object of the class [Derived], written and cut in the middle of the member "x" *)
Definition derived_obj : list (fkey * val) :=
  [((2, B "a"), VInt 5); ((2, B "b"), VStr (B "text")); ((2, B "c"), VInt 8); ((2, B "d"), VOpt (Some (nodeval 4 None)));
   ((3, B "x"), VList [VPair (VStr (B "k")) (VList [VInt 1; VInt 2])]); ((3, B "y"), VVar 1 (VStr (B "v")))].
Definition derived_bytes : bytes := match toBinary GE [] 20 3 derived_obj 3 with ROk bs => bs | _ => [] end.
Example cut_restores : restoreFromBinary GE 20 3 (rc_vinit cDerived) derived_bytes [] = ROk
  ([((2, B "a"), VInt 5); ((2, B "b"), VStr (B "text")); ((2, B "c"), VInt 0); ((2, B "d"), VOpt (Some (nodeval 4 None)));
    ((3, B "x"), VList [VPair (VStr (B "k")) (VList [VInt 1; VInt 2])]); ((3, B "y"), VVar 1 (VStr (B "v")))], 3, [], {| r_heap := []; r_ptr := [] |}).
Proof. vm_compute. reflexivity. Qed.
(** the previous content of "x" and "y" is still there: nothing has been inserted into the map *)
Definition derived_old : list (fkey * val) :=
  [((2, B "a"), VInt 1); ((2, B "b"), VStr (B "old")); ((2, B "c"), VInt 2); ((2, B "d"), VOpt None);
   ((3, B "x"), VList [VPair (VStr (B "o")) (VList [])]); ((3, B "y"), VVar 0 (VInt 3))].
Example cut_in_map : xrestoreFromBinary GE 20 3 derived_old (firstn 26 derived_bytes) [] = XThrow ExIo
  ([((2, B "a"), VInt 5); ((2, B "b"), VStr (B "text")); ((2, B "c"), VInt 2); ((2, B "d"), VOpt (Some (nodeval 4 None)));
    ((3, B "x"), VList [VPair (VStr (B "o")) (VList [])]); ((3, B "y"), VVar 0 (VInt 3))], 0) {| r_heap := []; r_ptr := [] |}.
Proof. vm_compute. reflexivity. Qed.
Example derived_old_typed : has_type GE false [] (TStruct 3) (VObj derived_old).
Proof.
  eapply ht_struct with (rc := cDerived); [reflexivity|reflexivity|]. intros k t v E1 E2.
  cbn -[B fkey_eqb] in E1, E2.
  repeat match type of E1 with (if ?b then _ else _) = _ => destruct b; [inversion E1; inversion E2; subst; clear E1 E2|] end; try discriminate;
    solve [repeat constructor | constructor; reflexivity
      | apply ht_map; [intros x [<-|[]]; eauto|intros k0 v0 [E|[]]; inversion E; constructor|intros k0 v0 [E|[]]; inversion E; constructor; intros ? []]
      | eapply ht_variant; [reflexivity|constructor; reflexivity]].
Qed.

(** hypotheses of C52_cut_in_sequence: three elements announced, the input ends within the second one; the vector had one *)
Example cut_vector : xread GE 5 0 (TSeq i32) (VList [VInt 9]) (hex [0x83; 0; 0; 0; 1; 0; 0]) {| r_heap := []; r_ptr := [] |}
  = XThrow ExIo (VList [VInt 1; VInt 0; VInt 0]) {| r_heap := []; r_ptr := [] |}.
Proof. vm_compute. reflexivity. Qed.

(** a shared object which is read when the input ends: the pointer refers to the new object already *)
Example cut_shared : exists h, xread GE 5 0 (TShared (TStruct 1)) (VShared None) (hex [1; 0x90; 0; 0; 0; 7]) {| r_heap := []; r_ptr := [] |}
  = XThrow ExIo (VShared (Some 1)) {| r_heap := h; r_ptr := [(16, (1, TStruct 1))] |} /\ hget h 1 = Some (TStruct 1, nodeval 7 None).
Proof. eexists. split; vm_compute; reflexivity. Qed.

(** an unsupported version in [Ver]: nothing is changed; within [Derived] the base class has been restored when its own
    version is refused *)
Example version_refused_untouched :
  xrestoreFromBinary GE 20 2 (firstn 4 derived_old) (hex [0x89; 0; 0; 0; 1]) [] = XThrow (ExVersion 9 3 (B "Ver")) (firstn 4 derived_old, 0) {| r_heap := []; r_ptr := [] |}
  /\ xrestoreFromBinary GE 20 3 derived_old (hex [0x81; 0; 0; 0; 7; 0; 0; 0; 6; 0x89]) [] = XThrow (ExVersion 9 5 (B "Derived"))
  ([((2, B "a"), VInt 7); ((2, B "b"), VStr (B "old")); ((2, B "c"), VInt 6); ((2, B "d"), VOpt None);
   ((3, B "x"), VList [VPair (VStr (B "o")) (VList [])]); ((3, B "y"), VVar 0 (VInt 3))], 0) {| r_heap := []; r_ptr := [] |}.
Proof. vm_compute. split; reflexivity. Qed.

(** restoring is not atomic: the strong exception guarantee does not hold *)
Theorem C51_strong_guarantee_refuted : exists s e now w st,
  xrestoreFromBinary GE 20 1 [((1, B "value"), VInt 1); ((1, B "next"), VShared None)] s [] = XThrow e (now, w) st
  /\ now <> [((1, B "value"), VInt 1); ((1, B "next"), VShared None)].
Proof.
  exists (hex [0; 0; 0; 7]), ExIo, [((1, B "value"), VInt 7); ((1, B "next"), VShared None)], 0, {| r_heap := []; r_ptr := [] |}.
  split; [vm_compute; reflexivity|discriminate].
Qed.

Print Assumptions C51_strong_guarantee_refuted.
