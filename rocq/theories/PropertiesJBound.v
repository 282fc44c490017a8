(** PropertiesJBound.v -- property C64: what is created when deserialising JSON is bounded by the text *)
From Coq Require Import String List NArith ZArith Bool Lia.
From Verif Require Import Base BaseFacts Types TypesFacts BinModel BinSpec Float JsonModel JsonText JsonSpec BoundSpec BoundFacts GrammarSpec GrammarFacts PropertiesGrammar JBoundSpec
  JBoundFacts JBoundText.
Import ListNotations.
Local Open Scope list_scope.
Local Open Scope nat_scope.

(** C64: after deserialising a document into a variable, the size of its value and of all shared objects together has grown by at most
    [k] per value, character or character of a name in the document (and by the one object an optional or pointer needs);
    this holds with and without errors having been reported *)
Theorem C64_size : forall G J k fuel t old j st v st', alloc_ok G -> place_ok G -> 1 <= k -> jcompact_members G k -> distinct_names G -> jcompact G k t ->
  pull G J fuel t old j st = POk v st' ->
  vsize v + heap_size (p_heap st') <= vsize old + heap_size (p_heap st) + news G t + k * jsize j.
Proof.
  intros G J k fuel t old j st v st' HA HP Hk HM HD HC E. pose proof (proj1 (sizes_all G J k HA HP Hk HM HD fuel) t old j st HC) as B. rewrite E in B.
  destruct B as [B _]. unfold hs in B. lia.
Qed.
Print Assumptions C64_size.

(** C64: the number of errors collected is bounded by the document, too, whether an exception is thrown or not; this holds for all types *)
Theorem C64_errors : forall G J fuel t old j st, distinct_names G ->
  match pull G J fuel t old j st with
  | POk _ st' => errors st' < errors st + 3 * jsize j
  | PThrow _ st' => errors st' <= errors st + 3 * jsize j
  | _ => True
  end.
Proof.
  intros G J fuel t old j st HD. pose proof (proj1 (errors_all G J HD fuel) t old j st _ (le_n _)) as B. destruct (pull G J fuel t old j st); cbn in *; [lia|exact B|exact I..].
Qed.
Print Assumptions C64_errors.

(** C64: a document has at most as many values, characters and characters of names as its text has bytes *)
Theorem C64_document : forall T text j, json_text T text j -> jsize j <= length text.
Proof. exact document_length. Qed.
Print Assumptions C64_document.

(** C64: so what fromJson creates is bounded by the text, whatever it is *)
Theorem C64_fromJson : forall T G J k fuel t text st v st', alloc_ok G -> place_ok G -> 1 <= k -> jcompact_members G k -> distinct_names G -> jcompact G k t ->
  fromJsonText T G J fuel t text st = Some (POk v st') ->
  vsize v + heap_size (p_heap st') <= Nat.max (vsize (dinit G t)) (vsize (vinit G t)) + heap_size (p_heap st) + k * length text
  /\ errors st' <= errors st + 3 * length text.
Proof.
  intros T G J k fuel t text st v st' HA HP Hk HM HD HC E. unfold fromJsonText in E. destruct (parseJsonDocFromString T text) as [j r| |] eqn:Ep; try discriminate.
  assert (Hj : jsize j <= length text). { apply (document_length T). apply C62_accepted_iff_json. eexists; exact Ep. }
  injection E as E. assert (Hkj : k * jsize j <= k * length text) by (apply Nat.mul_le_mono_l; exact Hj). pose proof (jsize_pos j) as Pj.
  assert (L1 := Nat.le_max_l (vsize (dinit G t)) (vsize (vinit G t))). assert (L2 := Nat.le_max_r (vsize (dinit G t)) (vsize (vinit G t))).
  set (mx := Nat.max _ _) in *. clearbody mx. assert (Po := vsize_pos (vinit G t)).
  assert (X1 : news G t = 0 -> pull G J fuel t (dinit G t) j st = POk v st' -> vsize v + heap_size (p_heap st') <= mx + heap_size (p_heap st) + k * length text /\ errors st' <= errors st + 3 * length text).
  { intros N0 E1. split; [pose proof (C64_size _ _ _ _ _ _ _ _ _ _ HA HP Hk HM HD HC E1); lia|]. pose proof (C64_errors G J fuel t (dinit G t) j st HD) as B. rewrite E1 in B. lia. }
  assert (X2 : mismatch t j (vinit G t) st = POk v st' -> vsize v + heap_size (p_heap st') <= mx + heap_size (p_heap st) + k * length text /\ errors st' <= errors st + 3 * length text).
  { intros E1. pose proof (report_sizes TypeMismatch (expected_type t) (type_of j) (vinit G t) st) as B. unfold mismatch in E1. rewrite E1 in B. destruct B as (-> & B & _). unfold hs in B.
    pose proof (mismatch_errors t j (vinit G t) st _ (le_n _)) as B2. unfold mismatch in B2. rewrite E1 in B2. cbn in B2. split; lia. }
  assert (X3 : forall x, vsize x <= 1 + length text -> @ret val x st = POk v st' -> vsize v + heap_size (p_heap st') <= mx + heap_size (p_heap st) + k * length text /\ errors st' <= errors st + 3 * length text).
  { intros x Hx [= <- <-]. split; [nia|lia]. }
  unfold fromJson in E. destruct t; try discriminate E.
  - destruct j; try exact (X2 E). eapply X3; [|exact E]. cbn. lia.
  - destruct (json_kind k0); [|discriminate]. destruct j; try exact (X2 E). destruct (in_range k0 z); [eapply X3; [|exact E]; cbn; lia|exact (X2 E)].
  - destruct j; try exact (X2 E). destruct (is_float n); [eapply X3; [|exact E]; cbn; lia|exact (X2 E)].
  - destruct j; try exact (X2 E). eapply X3; [|exact E]. cbn; lia.
  - destruct j; try exact (X2 E). eapply X3; [|exact E]. cbn [jsize vsize] in *. pose proof (cstr_length s). lia.
  - destruct j; try exact (X2 E). exact (X1 eq_refl E).
  - destruct j; try exact (X2 E). exact (X1 eq_refl E).
  - destruct j; try exact (X2 E). exact (X1 eq_refl E).
Qed.
Print Assumptions C64_fromJson.
