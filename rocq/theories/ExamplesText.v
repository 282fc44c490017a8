(** ExamplesText.v -- concrete cases which meet the hypotheses of the theorems in PropertiesText.v, and stronger claims
    which are false of the code *)
From Coq Require Import String List NArith ZArith Bool Lia.
From Verif Require Import Base Types TypesFacts BinModel BinSpec BinSafeSpec GenModel Float JsonModel JsonErr JsonSpec JsonTop JsonTerm JsonSafeSpec JsonFacts
  JsonText JsonTextSpec JsonTextFacts JsonTextTop JsonTextEnd JsonNumber PropertiesText ExamplesEnv ExamplesBin ExamplesJson.
Import ListNotations.
Local Open Scope list_scope.
Local Open Scope N_scope.

(* ------------------------------------------------------------------ *)
(** ** C23, C43 *)

(** conversions which meet the assumptions: every double is written as its bit pattern followed by ".0" *)
Definition TE : tenv := some_tenv.
Example TE_ok : dtoa_ok TE. Proof. exact some_tenv_ok. Qed.

(** a document with all kinds of values, control characters, quotes, bytes which are no UTF-8, extreme integers *)
Definition doc : json :=
  JObj [(bs "a""b", JArr [JInt (- 2 ^ 63); JInt (2 ^ 64 - 1); JDbl 4602678819172646912; JBool true; JBool false; JNull]);
        ([], JStr [Byte.x00; Byte.x0a; Byte.x1f; Byte.x22; Byte.x5c; Byte.x2f; Byte.x7f; Byte.xff; Byte.xc3]);
        ([], JObj []); (bs "e", JArr [JArr []; JObj [(bs "x", JInt 0)]])].
Example doc_hyps : ints_ok doc /\ finite doc /\ doubles (survives TE) doc.
Proof.
  split; [|split].
  - unfold ints_ok, doc. cbn. repeat split; try exact I; lia.
  - unfold finite, doc. cbn. repeat split.
  - unfold doubles, doc. cbn [everywhere]. repeat split; try exact I; try apply some_tenv_survives.
Qed.
Example doc_text : serializeJsonDocToString TE doc
  = bs "{""a\""b"":[-9223372036854775808,18446744073709551615,4602678819172646912.0,true,false,null],"""":""\u0000\n\u001F\""\\/"
    ++ [Byte.x7f; Byte.xff; Byte.xc3] ++ bs ""","""":{},""e"":[[],{""x"":0}]}".
Proof. vm_compute. reflexivity. Qed.
Example doc_restored : parseJsonDocFromString TE (serializeJsonDocToString TE doc) = TOk doc [].
Proof. apply C23_exact; [exact TE_ok|apply doc_hyps|apply doc_hyps|apply doc_hyps]. Qed.

(** a class with a base class, optional, shared pointers, map and variant (see ExamplesJson.v) *)
Example value_hyps : jgood GE JE H3 false (TStruct 3) (dinit GE (TStruct 3)) (VObj derived_obj) /\ top_type (TStruct 3) (VObj derived_obj)
  /\ toJsonDocument GE JE H3 20 (TStruct 3) (VObj derived_obj) = ROk derived_doc /\ finite derived_doc /\ doubles (survives TE) derived_doc.
Proof.
  split; [exact derived_jgood|]. split; [exact I|]. split; [exact derived_pushed|]. split; unfold finite, doubles, derived_doc; cbn; repeat split.
Qed.
Example value_text : toJson TE GE JE H3 20 (TStruct 3) (VObj derived_obj)
  = ROk (bs "{""a"":1,""b"":""hi"",""c"":-3,""d"":{""value"":5,""next"":{""value"":7,""next"":{""value"":-1,""next"":null}}},""x"":{""k1"":[1,2],""k2"":[]},""y"":{""index"":1,""data"":""alternative""}}").
Proof. vm_compute. reflexivity. Qed.

(** infinity in a member: the text ends after the colon and cannot be parsed *)
Definition inf : N := 2047 * 2 ^ 52.
Definition infdoc : json := JObj [(bs "a", JInt 1); (bs "b", JArr [JInt 2; JDbl inf; JInt 3]); (bs "c", JNull)].
Example infdoc_hyps : ints_ok infdoc /\ ~ finite infdoc.
Proof.
  split; [unfold ints_ok, infdoc; cbn; repeat split; try exact I; lia|]. unfold finite, infdoc. intros F. cbn in F.
  destruct F as (_ & _ & (_ & _ & (F & _) & _) & _). discriminate.
Qed.
Example infdoc_text : serializeJsonDocToString TE infdoc = bs "{""a"":1,""b"":[2,".
Proof. vm_compute. reflexivity. Qed.
Example infdoc_rejected : parseJsonDocFromString TE (serializeJsonDocToString TE infdoc) = TErr.
Proof. apply (C43_complete_iff_finite TE infdoc TE_ok); apply infdoc_hyps. Qed.

(* ------------------------------------------------------------------ *)
(** ** C50 *)

Example text_hyps : alloc_ok GE /\ place_ok GE /\ jenv_ok GE false (fun _ => True) false /\ conv_ok JE /\ no_pull_cycle GE
  /\ top_kind (TStruct 3) = true /\ pullable GE (fun _ => True) false (TStruct 3) /\ heap_typed GE false [].
Proof.
  split; [exact GE_alloc|]. split; [exact GE_place|]. split; [apply GE_jenv; exact I|]. split; [exact JE_conv|]. split; [exact GE_no_pull_cycle|].
  split; [reflexivity|]. split; [apply struct3_pullable|exact empty_heap_typed].
Qed.
(** conversion of any text to a 64-bit pattern *)
Definition TW : tenv := {| te_dtoa := te_dtoa TE; te_strtod := fun s => option_map (fun n => n mod 2 ^ 64) (strtod_normal s) |}.
Example TW_bits : forall x n, te_strtod TW x = Some n -> (n < 2 ^ 64).
Proof. intros x n. cbn. destruct (strtod_normal x); [|discriminate]. intros E; inversion E. apply N.mod_lt. discriminate. Qed.
(** spaces, escapes, unknown members, integers given as doubles *)
Example odd_text : exists st, fromJsonText TW GE JE 20 (TStruct 3)
    (bs " { ""\u0061"" : 1e0 ,""x"":{ } , ""\ud83d\ude00"":[ null,1.5 ],""b"":""\/\u00e4"" }	") {| p_heap := []; p_err := Some est0 |}
  = Some (POk (VObj [((2, B "a"), VInt 1); ((2, B "b"), VStr [Byte.x2f; Byte.xc3; Byte.xa4]); ((2, B "c"), VInt 0); ((2, B "d"), VOpt None);
                     ((3, B "x"), VList []); ((3, B "y"), VVar 0 (VInt 0))]) st) /\ p_err st = Some est0.
Proof. eexists. split; [vm_compute; reflexivity|reflexivity]. Qed.
Example broken_text : fromJsonText TW GE JE 20 (TStruct 3) (bs "{""a"":1,}") {| p_heap := []; p_err := Some est0 |} = None.
Proof. vm_compute. reflexivity. Qed.

(* ------------------------------------------------------------------ *)
(** ** stronger claims which are false *)

(** C43: toJson does not tell that its text is incomplete: the call succeeds *)
Theorem C43_incomplete_without_error_refuted : exists text,
  toJson TE GE JE [] 5 (TSeq TF64) (VList [VF64 0; VF64 inf]) = ROk text
  /\ fromJsonText TE GE JE 5 (TSeq TF64) text {| p_heap := []; p_err := None |} = None.
Proof. exists (bs "[0.0,"). split; vm_compute; reflexivity. Qed.

(** C23: not all doubles are restored, as RapidJSON's default conversion is not exact: the text of
    0.9452706955539223 (the shortest decimal number which identifies this double) is read as its neighbour *)
Definition d9452 : N := 4606689461049798204.
Theorem C23_doubles_refuted : forall T, te_strtod T = strtod_normal -> te_dtoa T d9452 = bs "0.9452706955539223" ->
  parseJsonDocFromString T (serializeJsonDocToString T (JDbl d9452)) = TOk (JDbl (d9452 + 1)) [].
Proof.
  intros [dt st] E1 E2. cbn [te_dtoa te_strtod] in E1, E2. subst st. unfold serializeJsonDocToString. cbn [write]. replace (f64_finite d9452) with true by (vm_compute; reflexivity).
  cbn [fst te_dtoa]. rewrite E2. vm_compute. reflexivity.
Qed.
(** C23: not even integral ones below 2^53 *)
Definition d72e15 : N := f64_of_Z 7205759403792796.
Theorem C23_integral_doubles_refuted : forall T, te_strtod T = strtod_normal -> te_dtoa T d72e15 = bs "7205759403792796.0" ->
  exists m, parseJsonDocFromString T (serializeJsonDocToString T (JDbl d72e15)) = TOk (JDbl m) [] /\ m <> d72e15.
Proof.
  intros [dt st] E1 E2. cbn [te_dtoa te_strtod] in E1, E2. subst st. unfold serializeJsonDocToString. cbn [write]. replace (f64_finite d72e15) with true by (vm_compute; reflexivity).
  cbn [fst te_dtoa]. rewrite E2. exists (f64_of_Z 7205759403792797). split; [vm_compute; reflexivity|].
  apply N.eqb_neq. vm_compute. reflexivity.
Qed.

(** C50: anything after a NUL character is ignored *)
Theorem C50_trailing_garbage_refuted :
  parseJsonDocFromString TE (bs "[1]" ++ [Byte.x00] ++ bs "garbage") = TOk (JArr [JInt 1]) ([Byte.x00] ++ bs "garbage")
  /\ parseJsonDocFromString TE (bs "[1]garbage") = TErr.
Proof. split; vm_compute; reflexivity. Qed.

Print Assumptions C43_incomplete_without_error_refuted.
Print Assumptions C23_doubles_refuted.
Print Assumptions C23_integral_doubles_refuted.
Print Assumptions C50_trailing_garbage_refuted.
