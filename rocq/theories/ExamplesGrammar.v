(** ExamplesGrammar.v -- concrete JSON texts and texts which are none (property C62) *)
From Coq Require Import String List NArith ZArith Bool Lia.
From Verif Require Import Base Types BinModel GenModel Float JsonModel JsonText JsonTextSpec JsonTextFacts JsonTextTop GrammarSpec GrammarFacts PropertiesGrammar ExamplesText.
Import ListNotations.
Local Open Scope string_scope.
Local Open Scope list_scope.
Local Open Scope N_scope.

Ltac ws := repeat (constructor; [cbn; tauto|]); constructor.

(** derived with the rules of the grammar: whitespace, escapes, a surrogate pair *)
Example small_text : json_text TE (chr " [ 10 , ""\u0041\n\uD83D\uDE00"",{}] ") (JArr [JInt 10; JStr [Byte.x41; Byte.x0a; Byte.xf0; Byte.x9f; Byte.x98; Byte.x80]; JObj []]).
Proof.
  exists [], (chr " "), (chr "[ 10 , ""\u0041\n\uD83D\uDE00"",{}]"), (chr " "), []. split; [reflexivity|]. split; [exists [], [], []; auto|]. split; [ws|]. split; [|split; [ws|left; reflexivity]].
  apply (vt_array TE (chr " ") (chr "10 , ""\u0041\n\uD83D\uDE00"",{}")); [ws|].
  apply (it_more TE (chr "10") _ (chr " ") (chr " ") (chr """\u0041\n\uD83D\uDE00"",{}")); [|ws|ws|].
  - apply vt_number. apply (nm_integer TE [] (chr "10")).
    + constructor; auto. right. split; [split; [discriminate|]|discriminate]. exists 10. apply (dc_digit (chr "1") 1 Byte.x30 0); [|lia|reflexivity]. apply (dc_digit [] 0 Byte.x31 1); [constructor|lia|reflexivity].
    + exists 10. split; [|reflexivity]. apply (dc_digit (chr "1") 1 Byte.x30 0); [|lia|reflexivity]. apply (dc_digit [] 0 Byte.x31 1); [constructor|lia|reflexivity].
    + unfold fits64. lia.
  - apply (it_more TE (chr """\u0041\n\uD83D\uDE00""") _ [] [] (chr "{}")); [|constructor|constructor|].
    + apply vt_string. exists (chr "\u0041\n\uD83D\uDE00"). split; [reflexivity|].
      apply (ch_code (chr "0041") 0x41 [Byte.x41]).
      * exists Byte.x30, Byte.x30, Byte.x34, Byte.x31, 0, 0, 4, 1. split; [reflexivity|]. cbv; tauto.
      * lia.
      * apply (u8_1 0x41). lia.
      * apply (ch_short Byte.x6e Byte.x0a); [cbv; tauto|].
        apply (ch_pair (chr "D83D") (chr "DE00") 0xD83D 0xDE00 [Byte.xf0; Byte.x9f; Byte.x98; Byte.x80] [] []).
        -- exists Byte.x44, Byte.x38, Byte.x33, Byte.x44, 13, 8, 3, 13. split; [reflexivity|]. cbv; tauto.
        -- exists Byte.x44, Byte.x45, Byte.x30, Byte.x30, 13, 14, 0, 0. split; [reflexivity|]. cbv; tauto.
        -- lia.
        -- lia.
        -- apply (u8_4 0 31 24 0); lia.
        -- constructor.
    + apply (it_last TE (chr "{}") _ []); [apply (vt_no_members TE []); constructor|constructor].
Qed.
(** and therefore accepted; another notation of the same document *)
Example small_accepted : exists rest, parseJsonDocFromString TE (chr " [ 10 , ""\u0041\n\uD83D\uDE00"",{}] ") = TOk (JArr [JInt 10; JStr [Byte.x41; Byte.x0a; Byte.xf0; Byte.x9f; Byte.x98; Byte.x80]; JObj []]) rest.
Proof. apply C62_accepted_iff_json. exact small_text. Qed.
Example other_notation : json_text TE (chr "[10,""A\u000a" ++ [Byte.xf0; Byte.x9f; Byte.x98; Byte.x80] ++ chr """,{ } ]") (JArr [JInt 10; JStr [Byte.x41; Byte.x0a; Byte.xf0; Byte.x9f; Byte.x98; Byte.x80]; JObj []]).
Proof. apply C62_accepted_iff_json. eexists. vm_compute. reflexivity. Qed.

(** none of these is JSON: trailing comma, leading zero, missing digits, unquoted or unknown words, control character, unknown escape,
    lone surrogates, missing colon, two values, nothing at all *)
Definition not_json (s : bytes) : Prop := forall j, ~ json_text TE s j.
Ltac refuse := refine (proj1 (C62_refused_iff_not_json TE _) _); vm_compute; reflexivity.
Example no_trailing_comma : not_json (chr "[1,]"). Proof. refuse. Qed.
Example no_trailing_comma2 : not_json (chr "{""a"":1,}"). Proof. refuse. Qed.
Example no_leading_zero : not_json (chr "01"). Proof. refuse. Qed.
Example no_bare_fraction : not_json (chr ".5"). Proof. refuse. Qed.
Example no_open_fraction : not_json (chr "5."). Proof. refuse. Qed.
Example no_open_exponent : not_json (chr "5e+"). Proof. refuse. Qed.
Example no_plus : not_json (chr "+5"). Proof. refuse. Qed.
Example no_nan : not_json (chr "NaN"). Proof. refuse. Qed.
Example no_word : not_json (chr "nul"). Proof. refuse. Qed.
Example no_upper : not_json (chr "True"). Proof. refuse. Qed.
Example no_single_quotes : not_json (chr "'a'"). Proof. refuse. Qed.
Example no_raw_newline : not_json (chr """" ++ [Byte.x0a] ++ chr """"). Proof. refuse. Qed.
Example no_x_escape : not_json (chr """\x41"""). Proof. refuse. Qed.
Example no_lone_high : not_json (chr """\uD83D"""). Proof. refuse. Qed.
Example no_lone_low : not_json (chr """\uDE00"""). Proof. refuse. Qed.
Example no_missing_colon : not_json (chr "{""a"" 1}"). Proof. refuse. Qed.
Example no_second_value : not_json (chr "1 2"). Proof. refuse. Qed.
Example no_nothing : not_json (chr "  "). Proof. refuse. Qed.
Example no_comment : not_json (chr "1 /* one */"). Proof. refuse. Qed.

(** finding: the parser accepts more than RFC 8259 allows: anything after a NUL character, parts of a byte order mark, and bytes which are no UTF-8 *)
Theorem C62_only_rfc_refuted : json_text TE (chr "1" ++ [Byte.x00] ++ chr "garbage") (JInt 1) /\ json_text TE ([Byte.xbf] ++ chr "1") (JInt 1)
  /\ json_text TE (chr """" ++ [Byte.xff] ++ chr """") (JStr [Byte.xff]).
Proof. repeat split; apply C62_accepted_iff_json; eexists; vm_compute; reflexivity. Qed.
Print Assumptions C62_only_rfc_refuted.

(** what is written for the document of ExamplesText.v *)
Example doc_is_json : exists j', GrammarSpec.value_text TE (serializeJsonDocToString TE doc) j' /\ reparsed TE doc j'.
Proof. apply C62_written_is_json; [exact TE_ok|apply doc_hyps|apply doc_hyps]. Qed.
