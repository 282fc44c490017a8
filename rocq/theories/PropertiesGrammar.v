(** PropertiesGrammar.v -- property C62: which texts are JSON, and what they mean *)
From Coq Require Import String List NArith ZArith Bool Lia.
From Verif Require Import Base Types BinModel Float JsonModel JsonText JsonTextSpec JsonTextFacts JsonTextTop GrammarSpec GrammarFacts.
Import ListNotations.
Local Open Scope list_scope.

(** C62: a text is accepted, and understood as the document [j], exactly if it denotes [j] according to the grammar *)
Theorem C62_accepted_iff_json : forall T text j, (exists rest, parseJsonDocFromString T text = TOk j rest) <-> json_text T text j.
Proof. intros T text j. split; [intros [rest E]; eapply document_sound; exact E|apply document_complete]. Qed.
Print Assumptions C62_accepted_iff_json.
(** C62: everything else is refused *)
Theorem C62_refused_iff_not_json : forall T text, parseJsonDocFromString T text = TErr <-> (forall j, ~ json_text T text j).
Proof.
  intros T text. split.
  - intros E j H. apply document_complete in H. destruct H as [r H]. congruence.
  - intros N. destruct (doc_total T text) as [E|(j & r & E & _)]; [exact E|]. exfalso. apply (N j). eapply document_sound; exact E.
Qed.
Print Assumptions C62_refused_iff_not_json.
(** C62: a text denotes at most one document *)
Theorem C62_unambiguous : forall T text j j', json_text T text j -> json_text T text j' -> j = j'.
Proof. intros T text j j' A B. apply document_complete in A, B. destruct A as [r A], B as [r' B]. congruence. Qed.
Print Assumptions C62_unambiguous.
(** C62: fromJson works on the document denoted by the text, or throws before anything else happens *)
Theorem C62_fromJson : forall T G J fuel t text st,
  (forall j, json_text T text j -> fromJsonText T G J fuel t text st = Some (fromJson G J fuel t j st))
  /\ ((forall j, ~ json_text T text j) -> fromJsonText T G J fuel t text st = None).
Proof.
  intros T G J fuel t text st. unfold fromJsonText. split.
  - intros j H. apply document_complete in H. destruct H as [r ->]. reflexivity.
  - intros N. apply C62_refused_iff_not_json in N. rewrite N. reflexivity.
Qed.
Print Assumptions C62_fromJson.
(** C62: so whitespace, the notation of characters and everything else the document does not contain make no difference *)
Theorem C62_notation_irrelevant : forall T a b j, json_text T a j -> json_text T b j ->
  forall G J fuel t st, fromJsonText T G J fuel t a st = fromJsonText T G J fuel t b st.
Proof. intros T a b j A B G J fuel t st. rewrite (proj1 (C62_fromJson T G J fuel t a st) j A), (proj1 (C62_fromJson T G J fuel t b st) j B). reflexivity. Qed.
Print Assumptions C62_notation_irrelevant.
(** C62: what is written is JSON for the document (doubles may change when they are read again, see C23) *)
Theorem C62_written_is_json : forall T j, dtoa_ok T -> ints_ok j -> finite j -> exists j', value_text T (serializeJsonDocToString T j) j' /\ reparsed T j j'.
Proof.
  intros T j D I F. apply (write_complete T) in F. destruct (write T j) as [t ok] eqn:E. cbn in F. subst ok.
  destruct (parses_all T D j I t E) as (j' & R & P). exists j'. split; [|exact R]. unfold serializeJsonDocToString. rewrite E. cbn [fst].
  specialize (P [] (S (2 * length t)) Logic.I (Nat.lt_succ_diag_r _)). apply (proj1 (text_sound T _)) in P. destruct P as (t' & Et & V). rewrite !app_nil_r in Et. subst t'. exact V.
Qed.
Print Assumptions C62_written_is_json.
(** C62: with doubles which are no numbers, it is no JSON *)
Theorem C62_nonfinite_not_json : forall T j, dtoa_ok T -> ints_ok j -> ~ finite j -> forall j', ~ json_text T (serializeJsonDocToString T j) j'.
Proof. intros T j D I F. apply C62_refused_iff_not_json. apply doc_incomplete; assumption. Qed.
Print Assumptions C62_nonfinite_not_json.
(** C62: in particular the text of every value which can be serialised *)
Theorem C62_toJson_is_json : forall T G J H f t v j text, dtoa_ok T -> toJsonDocument G J H f t v = ROk j -> ints_ok j -> finite j ->
  toJson T G J H f t v = ROk text -> exists j', value_text T text j' /\ reparsed T j j'.
Proof. intros T G J H f t v j text D E I F E2. unfold toJson in E2. rewrite E in E2. injection E2 as <-. apply C62_written_is_json; assumption. Qed.
Print Assumptions C62_toJson_is_json.
