(** PropertiesCut.v -- property C78: JSON texts which have been cut, and texts followed by something, are refused *)
From Coq Require Import String List NArith ZArith Bool Lia.
From Verif Require Import Base BaseFacts Types TypesFacts BinModel BinSpec BinSafeSpec Float JsonModel JsonRel JsonSpec JsonTop JsonSafeSpec JsonSafe JsonText JsonTextSpec JsonTextFacts JsonTextTop JsonTextEnd
  DispatchSpec SerSpec SerFacts SerJson GrammarSpec GrammarFacts CutSpec CutFacts.
Import ListNotations.
Local Open Scope list_scope.

(** C78: a text which denotes anything but a number is refused if only a part of its beginning is left *)
Theorem C78_cut_refused : forall T m w t j q, mark m -> blanks w -> value_text T t j -> ~ is_number j -> cut_text q (m ++ w ++ t) ->
  parseJsonDocFromString T q = TErr.
Proof. exact cut_refused_parse. Qed.
Print Assumptions C78_cut_refused.

(** C78: so a cut text is never taken for another document: it is refused, or only what follows the document has been cut off *)
Theorem C78_never_another : forall T text j q, json_text T text j -> ~ is_number j -> cut_text q text ->
  parseJsonDocFromString T q = TErr \/ json_text T q j.
Proof.
  intros T text j q (m & w & t & w' & rest & -> & M & B & V & B' & R) NN (s & NE & E).
  destruct (doc_total T q) as [P|(j' & r & P & _)]; [left; exact P|right]. apply document_sound in P. pose proof P as (m2 & w2 & t2 & w2' & rest2 & -> & M2 & B2 & V2 & _).
  pose proof (start m w t (w' ++ rest) M B (value_headed T t j V)) as S1. rewrite <- !app_assoc in E. rewrite E in S1.
  rewrite (start m2 w2 t2 (w2' ++ rest2 ++ s) M2 B2 (value_headed T t2 j' V2)) in S1.
  destruct (same_end T t j t2 j' _ _ V NN V2 (eq_sym S1)) as (_ & -> & _). exact P.
Qed.
Print Assumptions C78_never_another.

(** C78: likewise fromJson, which throws before anything else happens *)
Theorem C78_fromJson : forall T text j q, json_text T text j -> ~ is_number j -> cut_text q text ->
  (forall G J fuel t st, fromJsonText T G J fuel t q st = None) \/ (forall G J fuel t st, fromJsonText T G J fuel t q st = fromJsonText T G J fuel t text st).
Proof.
  intros T text j q A NN C. destruct (C78_never_another T text j q A NN C) as [P|P].
  - left. intros. unfold fromJsonText. rewrite P. reflexivity.
  - right. intros. unfold fromJsonText. apply document_complete in A, P. destruct A as [r ->], P as [r' ->]. reflexivity.
Qed.
Print Assumptions C78_fromJson.

(** C78: what has been written is refused if any part of the end is missing, NaN and infinity or not *)
Theorem C78_written_cut : forall T j q, dtoa_ok T -> ints_ok j -> ~ is_number j -> cut_text q (serializeJsonDocToString T j) ->
  parseJsonDocFromString T q = TErr.
Proof. exact written_cut_refused. Qed.
Print Assumptions C78_written_cut.

(** C78: in particular what toJson writes for an object or container (of a supported type) *)
Theorem C78_toJson_cut : forall T G J H, dtoa_ok T -> pushers_ok G -> variants_small_members G -> heap_typed G false H ->
  forall t v fuel text q, match t with TStruct _ | TSeq _ | TMap _ _ _ _ => True | _ => False end ->
  pushable G t -> variants_small t -> has_type G false H t v -> toJson T G J H fuel t v = ROk text -> cut_text q text ->
  forall G' J' fuel' t' st, fromJsonText T G' J' fuel' t' q st = None.
Proof.
  intros T G J H D PO VS HT t v fuel text q K Hp Hs Ht E C G' J' fuel' t' st.
  unfold toJson in E. destruct (toJsonDocument G J H fuel t v) as [j|e| | |] eqn:Ed; cbn in E; try discriminate. injection E as <-.
  assert (Ep: push G J H fuel t v = ROk j) by (destruct t; try contradiction; exact Ed).
  pose proof (proj1 (push_sound G J H PO VS HT fuel) t v Hp Hs Ht) as S. rewrite Ep in S. cbn in S.
  assert (I: ints_ok j). { eapply ew_imp; [|exact S]. intros [| | | | | |]; cbn; auto. intros Q. unfold in_range in Q. rewrite !andb_true_iff, !Z.leb_le in Q. cbn in Q. lia. }
  assert (NN: ~ is_number j).
  { destruct fuel as [|f]; [discriminate|]. rewrite push_S in Ep. intros N.
    destruct t; try contradiction; inversion Ht; subst; try discriminate; cbn [push_body] in Ep.
    - destruct (push_iter _ _); cbn in Ep; try discriminate. injection Ep as <-. exact N.
    - destruct Hp as [-> _]. destruct multi; destruct (push_fold _ _ _); cbn in Ep; try discriminate; injection Ep as <-; exact N.
    - destruct (push_cls _ _ _ _ _ _ _); cbn in Ep; try discriminate. injection Ep as <-. exact N. }
  unfold fromJsonText. rewrite (written_cut_refused T j q D I NN C). reflexivity.
Qed.
Print Assumptions C78_toJson_cut.

(** C78: after the end of a document which is no number only whitespace may follow, until the end or a NUL character *)
Theorem C78_followed_iff : forall T m w t j x, mark m -> blanks w -> value_text T t j -> ~ is_number j ->
  forall j', json_text T (m ++ w ++ t ++ x) j' <-> j' = j /\ exists w' rest, x = w' ++ rest /\ blanks w' /\ (rest = [] \/ hd_error rest = Some Byte.x00).
Proof. exact extended_iff. Qed.
Print Assumptions C78_followed_iff.

(** C78: in particular two documents in a row are refused, *)
Theorem C78_two_documents : forall T j1 j2, dtoa_ok T -> ints_ok j1 -> ints_ok j2 -> finite j1 -> finite j2 -> ~ is_number j1 ->
  parseJsonDocFromString T (serializeJsonDocToString T j1 ++ serializeJsonDocToString T j2) = TErr.
Proof.
  intros T j1 j2 D I1 I2 F1 F2 NN. apply (overwritten T j1 j2); try assumption; [|exists []; reflexivity].
  destruct (written_text T j2 D I2 F2) as (j2' & V & _). intros E. rewrite E in V. apply value_last in V. destruct V as (u & b & V & _). destruct u; discriminate.
Qed.
Print Assumptions C78_two_documents.
(** C78: and a document written over a longer one without removing the latter's end *)
Theorem C78_overwritten : forall T j1 j2, dtoa_ok T -> ints_ok j1 -> ints_ok j2 -> finite j1 -> finite j2 -> ~ is_number j1 ->
  let new := serializeJsonDocToString T j1 in let old := serializeJsonDocToString T j2 in
  length new < length old -> parseJsonDocFromString T (new ++ skipn (length new) old) = TErr.
Proof.
  intros T j1 j2 D I1 I2 F1 F2 NN new old L. apply (overwritten T j1 j2); try assumption.
  - intros E. pose proof (skipn_length (length new) old) as Q. rewrite E in Q. cbn in Q. lia.
  - exists (firstn (length new) old). symmetry. apply firstn_skipn.
Qed.
Print Assumptions C78_overwritten.
