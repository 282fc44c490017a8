(** ExamplesCut.v -- property C78: concrete texts, and stronger claims which are false *)
From Coq Require Import String List NArith ZArith Bool Lia.
From Verif Require Import Base BaseFacts Types BinModel BinSpec BinSafeSpec GenModel Float JsonModel JsonSpec JsonTop JsonSafeSpec JsonText JsonTextSpec JsonTextEnd
  DispatchSpec SerSpec SerFacts SerJson GrammarSpec PropertiesGrammar CutSpec PropertiesCut ExamplesEnv ExamplesBin ExamplesJson ExamplesText ExamplesSer ExamplesGrammar.
Import ListNotations.
Local Open Scope string_scope.
Local Open Scope list_scope.
Local Open Scope nat_scope.

(** the document of ExamplesText.v: wherever its text is cut *)
Example doc_cut : forall n, n < length (serializeJsonDocToString TE doc) -> parseJsonDocFromString TE (firstn n (serializeJsonDocToString TE doc)) = TErr.
Proof.
  intros n L. apply (C78_written_cut TE doc); [exact TE_ok|apply doc_hyps|intros []|].
  exists (skipn n (serializeJsonDocToString TE doc)). split; [|symmetry; apply firstn_skipn].
  intros E. pose proof (skipn_length n (serializeJsonDocToString TE doc)) as Q. rewrite E in Q. cbn [length] in Q. lia.
Qed.
(** with an infinity among its members *)
Example infdoc_cut : parseJsonDocFromString TE (firstn 5 (serializeJsonDocToString TE infdoc)) = TErr.
Proof.
  apply (C78_written_cut TE infdoc); [exact TE_ok|apply infdoc_hyps|intros []|].
  exists (skipn 5 (serializeJsonDocToString TE infdoc)). split; [vm_compute; discriminate|symmetry; apply firstn_skipn].
Qed.
(** the object of ExamplesSer.v *)
Example derived_cut : forall text q, toJson TE GE JE H3 20 (TStruct 3) (VObj derived_obj) = ROk text -> cut_text q text ->
  forall fuel st, fromJsonText TE GE JE fuel (TStruct 3) q st = None.
Proof.
  intros text q E C fuel st. destruct derived_writable as (_ & A & B).
  exact (C78_toJson_cut TE GE JE H3 TE_ok GE_pushers_ok GE_variants_small H3_typed (TStruct 3) (VObj derived_obj) 20 text q I A B derived_typed E C GE JE fuel (TStruct 3) st).
Qed.
Example derived_written : exists text, toJson TE GE JE H3 20 (TStruct 3) (VObj derived_obj) = ROk text /\ 100 < length text.
Proof. eexists. split; [vm_compute; reflexivity|apply Nat.ltb_lt; vm_compute; reflexivity]. Qed.

(** the text of ExamplesGrammar.v has blanks at its ends *)
Example small_cut : json_text TE (chr " [ 10 , ""\u0041\n\uD83D\uDE00"",{}]") (JArr [JInt 10; JStr [Byte.x41; Byte.x0a; Byte.xf0; Byte.x9f; Byte.x98; Byte.x80]; JObj []]).
Proof.
  destruct (C78_never_another TE _ _ (chr " [ 10 , ""\u0041\n\uD83D\uDE00"",{}]") small_text (fun N => N)) as [E|E]; [|vm_compute in E; discriminate|exact E].
  exists (chr " "). split; [discriminate|reflexivity].
Qed.
Example small_refused : parseJsonDocFromString TE (chr " [ 10 , ""\u0041\n\uD83D") = TErr.
Proof. reflexivity. Qed.

(** documents in a row, and one written over a longer one *)
Example twice_refused : parseJsonDocFromString TE (serializeJsonDocToString TE doc ++ serializeJsonDocToString TE doc) = TErr.
Proof. apply C78_two_documents; try exact TE_ok; try apply doc_hyps. intros []. Qed.
Example overwritten_refused : parseJsonDocFromString TE (chr "{}" ++ skipn 2 (serializeJsonDocToString TE doc)) = TErr.
Proof.
  pose proof (C78_overwritten TE (JObj []) doc TE_ok) as Q. cbn zeta in Q. change (serializeJsonDocToString TE (JObj [])) with (chr "{}") in Q. cbn [length chr list_byte_of_string] in Q. apply Q.
  - split; exact I.
  - apply doc_hyps.
  - split; exact I.
  - apply doc_hyps.
  - intros [].
  - apply Nat.ltb_lt. vm_compute. reflexivity.
Qed.

(** ** stronger claims which are false *)
(** C78: the beginning of a number is another number *)
Theorem C78_numbers_refuted : json_text TE (chr "123") (JInt 123) /\ cut_text (chr "12") (chr "123") /\ json_text TE (chr "12") (JInt 12).
Proof.
  split; [apply C62_accepted_iff_json; eexists; vm_compute; reflexivity|]. split; [exists (chr "3"); split; [discriminate|reflexivity]|].
  apply C62_accepted_iff_json; eexists; vm_compute; reflexivity.
Qed.
Print Assumptions C78_numbers_refuted.
(** C78: two numbers in a row are another number *)
Theorem C78_two_numbers_refuted : parseJsonDocFromString TE (serializeJsonDocToString TE (JInt 1) ++ serializeJsonDocToString TE (JInt 2)) = TOk (JInt 12) [].
Proof. vm_compute. reflexivity. Qed.
Print Assumptions C78_two_numbers_refuted.
(** C78: anything may follow a NUL character *)
Theorem C78_after_nul_refuted : parseJsonDocFromString TE (chr "[1]" ++ [Byte.x00] ++ chr "[2]") = TOk (JArr [JInt 1]) ([Byte.x00] ++ chr "[2]").
Proof. vm_compute. reflexivity. Qed.
Print Assumptions C78_after_nul_refuted.
(** C78: if memory was blank behind a document which has only been written in part, it is refused, but if part of an older one is left, it may be accepted *)
Theorem C78_torn_refuted : let new := chr "{""a"":1,""b"":2}" in let old := chr "{""a"":3,""b"":4}" in
  parseJsonDocFromString TE (firstn 6 new ++ skipn 6 old) = TOk (JObj [(chr "a", JInt 1); (chr "b", JInt 4)]) [].
Proof. vm_compute. reflexivity. Qed.
Print Assumptions C78_torn_refuted.
