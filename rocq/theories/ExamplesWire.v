(** ExamplesWire.v -- concrete data of the format of WireSpec.v (property C60) *)
From Coq Require Import String List NArith ZArith Bool Lia.
From Verif Require Import Base Bytes Types TypesFacts BinModel BinSpec ExamplesEnv ExamplesBin WireSpec WireFacts PropertiesWire.
Import ListNotations.
Local Open Scope string_scope.
Local Open Scope list_scope.
Local Open Scope N_scope.

(** the pieces, checked against the grammar by computation alone *)
Ltac small_vint k := exists k; split; [lia|]; split; [reflexivity|]; split; [reflexivity|]; split; [vm_compute; reflexivity|];
  let i := fresh "i" in let Hi := fresh "Hi" in
  intros i Hi; first [exfalso; lia | assert (i = 1)%nat by lia; subst i; vm_compute; discriminate
                     | assert (i = 1 \/ i = 2)%nat as [? | ?] by lia; subst i; vm_compute; discriminate].
Example vint_300 : vint 300 (hex [0x41; 0x2C]).
Proof. small_vint 2%nat. Qed.
Example vint_16384 : vint 16384 (hex [0x20; 0x40; 0x00]).
Proof. small_vint 3%nat. Qed.
(** a number takes as few bytes as possible *)
Example vint_not_longer : ~ vint 5 (hex [0x40; 0x05]).
Proof. intros (k & Hk & L & _ & _ & Hm). vm_compute in L. subst k. specialize (Hm 1%nat ltac:(lia)). vm_compute in Hm. congruence. Qed.
Example minus_one : integral KI32 (-1) (hex [0xFF; 0xFF; 0xFF; 0xFF]).
Proof. split; reflexivity. Qed.

(** version 2 of the class [Ver], derived with the rules of the grammar: version, members a, b and c, but not d *)
Example ver2_wire : wire GE [] 2 (TStruct 2) (VObj ver_obj) [] (hex [0x82; 0; 0; 0; 1; 0x82; 0x68; 0x69; 0; 0; 0; 3]) [].
Proof.
  apply w_object.
  change (hex [0x82; 0; 0; 0; 1; 0x82; 0x68; 0x69; 0; 0; 0; 3]) with ([] ++ hex [0x82] ++ (hex [0; 0; 0; 1] ++ hex [0x82; 0x68; 0x69] ++ hex [0; 0; 0; 3] ++ []))%list.
  eapply wc_versioned with (rc := cVer) (v := 2).
  - reflexivity.
  - vm_compute. discriminate.
  - reflexivity.
  - apply wb_nil.
  - small_vint 1%nat.
  - apply chosen_take with (x := VInt 1); [split; [vm_compute; discriminate|left; reflexivity]|reflexivity|].
    apply chosen_take with (x := VStr (B "hi")); [split; [vm_compute; discriminate|left; reflexivity]|reflexivity|].
    apply chosen_take with (x := VInt 3); [split; [vm_compute; discriminate|right; vm_compute; discriminate]|reflexivity|].
    apply chosen_skip; [intros [A _]; vm_compute in A; congruence|]. apply chosen_nil.
  - eapply ws_cons; [apply w_int; [discriminate|split; reflexivity]|].
    eapply ws_cons; [apply w_string; exists (hex [0x82]); split; [small_vint 1%nat|reflexivity]|].
    eapply ws_cons; [apply w_int; [discriminate|split; reflexivity]|]. apply ws_nil.
Qed.
(** so these are the bytes [toBinary] returns *)
Example ver2_is_written : exists f, write GE [] f 2 (TStruct 2) (VObj ver_obj) [] = ROk (hex [0x82; 0; 0; 0; 1; 0x82; 0x68; 0x69; 0; 0; 0; 3], []).
Proof. destruct (C60_format_is_written _ _ _ _ _ _ _ _ ver2_wire) as [F E]. exists F. apply E. lia. Qed.
(** a cyclic object graph with an ID of more than 55 bits: hypotheses of C60_format_is_read *)
Example cyclic_wire : exists W, wire GE HC 0 two (VPair (VShared (Some a1)) (VShared (Some a2))) []
   (hex [1; 0x90;  0; 0; 0; 7;  5; 0xFF; 0; 0; 0; 0; 0; 0; 0x20;  0xFF; 0xFF; 0xFF; 0xFF;  2; 0x90;
         6; 0xFF; 0; 0; 0; 0; 0; 0; 0x20]) W
  /\ good GE HC false 0 0 two (vinit GE two) (VPair (VShared (Some a1)) (VShared (Some a2))) /\ heap_good GE HC.
Proof. eexists. split; [eapply C60_written_has_format; exact cyclic_bytes|]. split; [exact cyclic_good|exact HC_good]. Qed.

(** the converse does not hold: bytes which are read as a value need not have the format; a flag of 2 is read as "present",
    and a longer notation of a number is accepted *)
Theorem C60_only_format_read_refuted :
  exists t bs v, read GE 10 0 t (vinit GE t) bs {| r_heap := []; r_ptr := [] |} = ROk (v, [], {| r_heap := []; r_ptr := [] |})
    /\ forall H W W', ~ wire GE H 0 t v W bs W'.
Proof.
  exists TString, (hex [0x40; 0x01; 0x41]), (VStr (B "A")). split; [vm_compute; reflexivity|].
  intros H W W' Hw. inversion Hw; subst; try (match goal with X : _ = TUnique _ \/ _ |- _ => destruct X; discriminate end).
  match goal with X : string_bytes _ _ |- _ => destruct X as (p & (k & Hk & L & _ & _ & Hm) & E) end.
  apply (f_equal (@List.length _)) in E. rewrite app_length in E. change (List.length (B "A")) with 1%nat in E, Hm. change (List.length (hex [0x40; 0x01; 0x41])) with 3%nat in E.
  assert (k = 2)%nat by lia. subst k. specialize (Hm 1%nat ltac:(lia)). vm_compute in Hm. congruence.
Qed.
Print Assumptions C60_only_format_read_refuted.
