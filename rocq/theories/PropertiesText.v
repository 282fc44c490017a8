(** PropertiesText.v -- the properties about the text of JSON documents (C23, C43, C50), see /verif/properties.jsonl.
    Only statements; the vocabulary is in JsonTextSpec.v, JsonSpec.v and JsonSafeSpec.v. *)
From Coq Require Import String List NArith ZArith Bool Lia.
From Verif Require Import Base Types TypesFacts BinModel BinSpec BinSafeSpec GenModel Float JsonModel JsonErr JsonSpec JsonTop JsonTerm JsonSafeSpec JsonFacts
  JsonText JsonTextSpec JsonTextFacts JsonTextTop JsonTextEnd.
Import ListNotations.
Local Open Scope list_scope.
Local Open Scope nat_scope.

(** C23: parsing the text written for a document gives the document back, except that doubles are what the conversions to
    and from decimal numbers make of them *)
Theorem C23_round_trip : forall T j, dtoa_ok T -> ints_ok j -> finite j ->
  exists j', parseJsonDocFromString T (serializeJsonDocToString T j) = TOk j' [] /\ reparsed T j j'.
Proof. intros T j D W F. destruct (doc_complete T j D W F) as (j' & R & P). exists j'. auto. Qed.
Print Assumptions C23_round_trip.
(** C23: exactly, if the doubles in it survive these conversions *)
Theorem C23_exact : forall T j, dtoa_ok T -> ints_ok j -> finite j -> doubles (survives T) j ->
  parseJsonDocFromString T (serializeJsonDocToString T j) = TOk j [].
Proof. intros T j D W F S. destruct (doc_complete T j D W F) as (j' & R & P). apply (reparsed_same T j S) in R. subst. exact P. Qed.
Print Assumptions C23_exact.
(** C23: exactly, whatever these conversions do, if there are no doubles *)
Theorem C23_without_doubles : forall T j, ints_ok j -> doubles (fun _ => False) j ->
  parseJsonDocFromString T (serializeJsonDocToString T j) = TOk j [].
Proof. exact doc_without_doubles. Qed.
Print Assumptions C23_without_doubles.
(** C23: every string of arbitrary bytes and every 64-bit integer *)
Theorem C23_strings_and_integers : forall T,
  (forall s, parseJsonDocFromString T (serializeJsonDocToString T (JStr s)) = TOk (JStr s) [])
  /\ (forall z, (- 2 ^ 63 <= z < 2 ^ 64)%Z -> parseJsonDocFromString T (serializeJsonDocToString T (JInt z)) = TOk (JInt z) []).
Proof.
  intros T. split; [intros s|intros z Hz]; apply doc_without_doubles; split; try exact I; exact Hz.
Qed.
Print Assumptions C23_strings_and_integers.
(** C23: the text has no control characters; hence reading it as C-string makes no difference *)
Theorem C23_text_is_cstring : forall T j, dtoa_ok T ->
  no_control (serializeJsonDocToString T j) /\ cstr (serializeJsonDocToString T j) = serializeJsonDocToString T j.
Proof. intros T j D. split; [|apply no_control_cstr]; apply write_no_control; exact D. Qed.
Print Assumptions C23_text_is_cstring.
(** C23: together with C22: toJson followed by fromJson (for C-strings as well as for std::string) *)
Theorem C23_value_round_trip : forall T G J H ex t v j f, alloc_ok G -> place_ok G -> dtoa_ok T ->
  jgood G J H ex t (dinit G t) v -> top_type t v ->
  toJsonDocument G J H f t v = ROk j -> finite j -> doubles (survives T) j ->
  exists F text, forall fuel, F <= fuel ->
    toJson T G J H fuel t v = ROk text
    /\ forall h er, exists v' h' er',
         fromJsonText T G J fuel t text {| p_heap := h; p_err := er |} = Some (POk v' {| p_heap := h'; p_err := er' |})
         /\ fromJsonCStr T G J fuel t (text ++ [Byte.x00]) {| p_heap := h; p_err := er |} = Some (POk v' {| p_heap := h'; p_err := er' |})
         /\ jsame G H h h' t v v' /\ (ex = true -> v' = v) /\ hext h h' /\ quiet er er'.
Proof. exact text_round_trip. Qed.
Print Assumptions C23_value_round_trip.

(** C43: the text can be parsed if and only if all doubles are finite *)
Theorem C43_complete_iff_finite : forall T j, dtoa_ok T -> ints_ok j ->
  (finite j <-> exists j', parseJsonDocFromString T (serializeJsonDocToString T j) = TOk j' [] /\ reparsed T j j')
  /\ (~ finite j <-> parseJsonDocFromString T (serializeJsonDocToString T j) = TErr).
Proof. exact complete_iff_finite. Qed.
Print Assumptions C43_complete_iff_finite.
(** C43: otherwise the text ends where the first NaN or infinity would have been written *)
Theorem C43_truncated : forall T j, ~ finite j ->
  exists rest, serializeJsonDocToString T (nulled j) = serializeJsonDocToString T j ++ bs "null" ++ rest.
Proof. exact text_cut. Qed.
Print Assumptions C43_truncated.

(** C50: parsing any text either fails or gives a document with 64-bit integers, and takes finitely many steps *)
Theorem C50_parse_total : forall T text,
  parseJsonDocFromString T text = TErr \/ exists j rest, parseJsonDocFromString T text = TOk j rest /\ ints_ok j.
Proof.
  intros T text. destruct (doc_total T text) as [E|(j & r & E & W)]; [left; exact E|right]. exists j, r. split; [exact E|].
  eapply ew_imp; [|exact W]. intros [] H; auto.
Qed.
Print Assumptions C50_parse_total.
(** C50: deserialising any text: the result and all objects are values of their types *)
Theorem C50_any_text : forall T G J ud, alloc_ok G -> place_ok G -> jenv_ok G ud (fun _ => True) false -> conv_ok J ->
  (forall x n, te_strtod T x = Some n -> (n < 2 ^ 64)%N) ->
  forall t text fuel st, top_kind t = true -> pullable G (fun _ => True) false t -> heap_typed G ud (p_heap st) ->
  match fromJsonText T G J fuel t text st with
  | None => True
  | Some (POk v st') => has_type G ud (p_heap st') t v /\ heap_typed G ud (p_heap st') /\ hext (p_heap st) (p_heap st')
  | Some (PThrow _ st') => heap_typed G ud (p_heap st') /\ hext (p_heap st) (p_heap st')
  | Some PUB | Some PFuel => True
  | Some PStuck => False
  end.
Proof. exact any_text. Qed.
Print Assumptions C50_any_text.
(** C50: and it terminates *)
Theorem C50_terminates : forall T G J, no_pull_cycle G -> forall t text, exists F, forall fuel, F <= fuel -> forall st,
  fromJsonText T G J fuel t text st <> Some PFuel /\ fromJsonText T G J fuel t text st = fromJsonText T G J F t text st.
Proof. exact text_terminates. Qed.
Print Assumptions C50_terminates.
