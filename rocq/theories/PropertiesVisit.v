(** PropertiesVisit.v -- property C77: serialising to JSON ends exactly if no cycle of shared objects is visited *)
From Coq Require Import String List NArith ZArith Bool Lia Arith Relations.
From Verif Require Import Base BaseFacts Types TypesFacts BinModel BinSpec BinSafeSpec
  JsonModel JsonRel JsonSpec JsonTop JsonSafeSpec JsonText JsonTextSpec DispatchSpec SerSpec SerFacts SerJson VisitSpec VisitFacts.
Import ListNotations.
Local Open Scope list_scope.
Local Open Scope nat_scope.

(** C77: if serialising returns a document, whatever the classes are, no object which has been visited visits itself *)
Theorem C77_returned_no_cycle : forall G J H fuel t v j, push G J H fuel t v = ROk j -> no_cycle G H t v.
Proof. intros G J H fuel t v j. exact (returned_no_cycle G J H t v fuel j). Qed.
Print Assumptions C77_returned_no_cycle.

(** C77: every visited object has been serialised itself, within the calls for the value *)
Theorem C77_visited_serialised : forall G J H fuel t v j a, push G J H fuel t v = ROk j -> visits_object G H t v a ->
  exists t' x fuel' j', hget H a = Some (t', x) /\ fuel' < fuel /\ push G J H fuel' t' x = ROk j'.
Proof. intros G J H fuel t v j a E V. exact (visited_pushed G J H t v a V fuel j E). Qed.
Print Assumptions C77_visited_serialised.

(** C77: serialising a value of a supported type ends exactly if no visited object visits itself.  Cycles of objects which are not visited do not matter *)
Theorem C77_ends_iff : forall G J H, pushers_ok G -> variants_small_members G -> heap_typed G false H ->
  forall t v, pushable G t -> variants_small t -> has_type G false H t v ->
  (no_cycle G H t v <-> exists F j, json_wf j /\ forall fuel, F <= fuel -> push G J H fuel t v = ROk j).
Proof.
  intros G J H PO VS HT t v Hp Hs T. split.
  - intros NC. destruct (po_acyclic G PO) as [ck HB]. destruct (no_cycle_ends G J H ck HB t v NC) as [F Q].
    pose proof (proj1 (push_sound G J H PO VS HT F) t v Hp Hs T) as S. specialize (Q F (le_n F)).
    destruct (push G J H F t v) as [j|e| | |] eqn:E; cbn in S; try contradiction; try congruence.
    exists F, j. split; [exact S|]. intros fuel L. eapply push_more; [exact L|exact E|discriminate].
  - intros (F & j & _ & Q). exact (returned_no_cycle G J H t v F j (Q F (le_n F))).
Qed.
Print Assumptions C77_ends_iff.

(** C77: otherwise there are more nested calls than any stack has room for: no exception, no document, however much memory there is *)
Theorem C77_cycle_overflows : forall G J H, pushers_ok G -> variants_small_members G -> heap_typed G false H ->
  forall t v a, pushable G t -> variants_small t -> has_type G false H t v ->
  visits_object G H t v a -> leads_to G H a a -> forall fuel, push G J H fuel t v = RFuel.
Proof.
  intros G J H PO VS HT t v a Hp Hs T V C fuel. pose proof (proj1 (push_sound G J H PO VS HT fuel) t v Hp Hs T) as S.
  destruct (push G J H fuel t v) as [j|e| | |] eqn:E; cbn in S; try contradiction; [|reflexivity].
  exfalso. exact (returned_no_cycle G J H t v fuel j E a V C).
Qed.
Print Assumptions C77_cycle_overflows.

(** C77: likewise toJsonDocument and toJson *)
Theorem C77_toJson_ends_iff : forall T G J H, pushers_ok G -> variants_small_members G -> heap_typed G false H ->
  forall t v, pushable G t -> variants_small t -> has_type G false H t v -> top_type t v ->
  (no_cycle G H t v <-> exists F text, forall fuel, F <= fuel -> toJson T G J H fuel t v = ROk text)
  /\ (no_cycle G H t v <-> exists F j, forall fuel, F <= fuel -> toJsonDocument G J H fuel t v = ROk j).
Proof.
  intros T G J H PO VS HT t v Hp Hs Ht Tt.
  assert (D: forall fuel, toJsonDocument G J H fuel t v = push G J H fuel t v).
  { intros fuel. unfold toJsonDocument. destruct t; cbn in Tt; try contradiction; try reflexivity. rewrite Tt. reflexivity. }
  pose proof (C77_ends_iff G J H PO VS HT t v Hp Hs Ht) as [A B].
  split; split.
  - intros NC. destruct (A NC) as (F & j & _ & Q). exists F, (serializeJsonDocToString T j). intros fuel L. unfold toJson. rewrite D, (Q fuel L). reflexivity.
  - intros (F & text & Q). specialize (Q F (le_n F)). unfold toJson in Q. rewrite D in Q.
    destruct (push G J H F t v) as [j|e| | |] eqn:E; cbn in Q; try discriminate. exact (returned_no_cycle G J H t v F j E).
  - intros NC. destruct (A NC) as (F & j & _ & Q). exists F, j. intros fuel L. rewrite D. exact (Q fuel L).
  - intros (F & j & Q). specialize (Q F (le_n F)). rewrite D in Q. exact (returned_no_cycle G J H t v F j Q).
Qed.
Print Assumptions C77_toJson_ends_iff.
