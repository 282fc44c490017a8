(** PropertiesSer.v -- properties C57 (serialising succeeds) and C58 (equal values give the same document, different ones
    different data) *)
From Coq Require Import List NArith ZArith Bool Lia.
From Verif Require Import Base Bytes Types TypesFacts BinModel FuelFacts BinSpec BinSafeSpec BinTop JsonModel JsonRel JsonSpec JsonTop JsonSafeSpec JsonText JsonTextSpec
  DispatchSpec SerSpec SerFacts SerJson SerStable.
Import ListNotations.
Import BinModel.
Local Open Scope list_scope.
Local Open Scope nat_scope.

(** C57: writing a value of a supported type succeeds: no exception, no undefined behaviour, whatever the value and however
    its shared pointers refer to each other, if sizes can be expressed with the 56 bits of the format *)
Theorem C57_write_succeeds : forall G H, writers_ok G -> heap_typed G false H ->
  (forall a t x, hget H a = Some (t, x) -> sizes_below (2 ^ 56) x) ->
  forall ver t v W, (ver < 2 ^ 56)%N -> writable G t -> has_type G false H t v -> sizes_below (2 ^ 56) v ->
  exists F bs W', forall fuel, F <= fuel -> write G H fuel ver t v W = ROk (bs, W').
Proof. exact write_succeeds. Qed.
Print Assumptions C57_write_succeeds.
(** C57: otherwise there is no other outcome than a ConversionException *)
Theorem C57_write_outcome : forall G H, writers_ok G -> heap_typed G false H ->
  forall ver t v W, writable G t -> has_type G false H t v ->
  exists F, (exists bs W', forall fuel, F <= fuel -> write G H fuel ver t v W = ROk (bs, W'))
    \/ (forall fuel, F <= fuel -> write G H fuel ver t v W = RThrow ExConv).
Proof.
  intros G H WO HT ver t v W Hw T. destruct (BinTerm.write_terminates G H (wo_acyclic G WO) ver t v W) as (F & Q). exists F.
  pose proof (write_outcome G H WO HT F ver t v W Hw T) as P. destruct (Q F (le_n F)) as [NF _].
  destruct (write G H F ver t v W) as [[bs W']|e| | |] eqn:E; try contradiction; try congruence.
  - left. exists bs, W'. intros fuel L. rewrite (proj2 (Q fuel L)). first [reflexivity|exact E].
  - right. destruct e; try contradiction. intros fuel L. rewrite (proj2 (Q fuel L)). first [reflexivity|exact E].
Qed.
Print Assumptions C57_write_outcome.
(** C57: the member function toBinary *)
Theorem C57_toBinary_succeeds : forall G H, writers_ok G -> heap_typed G false H ->
  (forall a t x, hget H a = Some (t, x) -> sizes_below (2 ^ 56) x) ->
  forall ver c fs, (ver < 2 ^ 56)%N -> has_type G false H (TStruct c) (VObj fs) -> sizes_below (2 ^ 56) (VObj fs) ->
  exists F bs, forall fuel, F <= fuel -> toBinary G H fuel c fs ver = ROk bs.
Proof.
  intros G H WO HT HS ver c fs Lv T S.
  assert (Hw: writable G (TStruct c)). { inversion T; subst; try discriminate. exists rc. assumption. }
  destruct (write_succeeds G H WO HT HS ver (TStruct c) (VObj fs) [] Lv Hw T S) as (F & bs & W' & Q).
  exists F, bs. intros fuel L. unfold toBinary. assert (E: write_cls G H fuel ver c fs [] = ROk (bs, W')).
  { specialize (Q (Datatypes.S fuel) ltac:(lia)). rewrite write_S in Q. exact Q. }
  rewrite E. reflexivity.
Qed.
Print Assumptions C57_toBinary_succeeds.
(** C57: whatever has been read can be written (also as another type holding it) *)
Theorem C57_written_again : forall G, alloc_ok G -> place_ok G -> env_ok G false -> by_value_ok G -> writers_ok G ->
  forall ver t old s st, readable G t -> writable G t -> has_type G false (r_heap st) t old -> state_ok G false st ->
  exists F, forall fuel, F <= fuel ->
    (exists e, read G fuel ver t old s st = RThrow e)
    \/ exists v r st', read G fuel ver t old s st = ROk (v, r, st')
       /\ ((exists F' bs W, forall fuel', F' <= fuel' -> write G (r_heap st') fuel' 0 t v [] = ROk (bs, W))
           \/ exists F', forall fuel', F' <= fuel' -> write G (r_heap st') fuel' 0 t v [] = RThrow ExConv).
Proof.
  intros G HA HP EO BV WO ver t old s st Hr Hw T SO. destruct (arbitrary_bytes_safe G false HA HP EO BV ver t old s st Hr T SO) as (F & Q).
  exists F. intros fuel L. destruct (Q fuel L) as [(v & r & st' & E & Tv & HT & _) | (e & E & _)]; [right|left; eauto].
  exists v, r, st'. split; [exact E|]. destruct (C57_write_outcome G (r_heap st') WO HT 0 t v [] Hw Tv) as (F' & [(bs & W & P) | P]); [left; eauto|right; eauto].
Qed.
Print Assumptions C57_written_again.

(** C57: pushing a value of a supported type yields a proper document, if the shared pointers form no cycles *)
Theorem C57_push_succeeds : forall G J H, pushers_ok G -> variants_small_members G -> heap_typed G false H -> acyclic H ->
  forall t v, pushable G t -> variants_small t -> has_type G false H t v ->
  exists F j, json_wf j /\ forall fuel, F <= fuel -> push G J H fuel t v = ROk j.
Proof. exact push_succeeds. Qed.
Print Assumptions C57_push_succeeds.
(** C57: toJson *)
Theorem C57_toJson_succeeds : forall T G J H, pushers_ok G -> variants_small_members G -> heap_typed G false H -> acyclic H ->
  forall t v, pushable G t -> variants_small t -> has_type G false H t v -> top_type t v ->
  exists F j, json_wf j /\ forall fuel, F <= fuel -> toJsonDocument G J H fuel t v = ROk j /\ toJson T G J H fuel t v = ROk (serializeJsonDocToString T j).
Proof.
  intros T G J H PO VS HT AC t v Hp Hs Ht Tt. destruct (push_succeeds G J H PO VS HT AC t v Hp Hs Ht) as (F & j & W & Q). exists F, j. split; [exact W|].
  intros fuel L. specialize (Q fuel L). assert (E: toJsonDocument G J H fuel t v = ROk j).
  { unfold toJsonDocument. destruct t; cbn in Tt; try contradiction; try exact Q. rewrite Tt. exact Q. }
  split; [exact E|]. unfold toJson. rewrite E. reflexivity.
Qed.
Print Assumptions C57_toJson_succeeds.

(** C58: what has been restored from a document is pushed to the very same document again; [C]: the classes involved *)
Theorem C58_pushed_again : forall G C J H ex t old v, alloc_ok G -> place_ok G -> pushers_ok G -> ordered_members G C -> ordered_type C t ->
  jgood G J H ex t old v ->
  exists F j, forall fuel, F <= fuel ->
    push G J H fuel t v = ROk j
    /\ forall h er, exists v' h' er',
         pull G J fuel t old j {| p_heap := h; p_err := er |} = POk v' {| p_heap := h'; p_err := er' |}
         /\ push G J h' fuel t v' = ROk j.
Proof. exact json_again. Qed.
Print Assumptions C58_pushed_again.
(** C58: likewise toJsonDocument and fromJson *)
Theorem C58_document_again : forall G C J H ex t v, alloc_ok G -> place_ok G -> pushers_ok G -> ordered_members G C -> ordered_type C t ->
  jgood G J H ex t (dinit G t) v -> top_type t v ->
  exists F j, forall fuel, F <= fuel ->
    toJsonDocument G J H fuel t v = ROk j
    /\ forall h er, exists v' h' er',
         fromJson G J fuel t j {| p_heap := h; p_err := er |} = POk v' {| p_heap := h'; p_err := er' |}
         /\ toJsonDocument G J h' fuel t v' = ROk j.
Proof. exact document_again. Qed.
Print Assumptions C58_document_again.
(** C58: likewise toJson and fromJson, the text being the same *)
Theorem C58_text_again : forall T G C J H ex t v j f, alloc_ok G -> place_ok G -> dtoa_ok T -> pushers_ok G -> ordered_members G C -> ordered_type C t ->
  jgood G J H ex t (dinit G t) v -> top_type t v ->
  toJsonDocument G J H f t v = ROk j -> finite j -> doubles (survives T) j ->
  exists F text, forall fuel, F <= fuel ->
    toJson T G J H fuel t v = ROk text
    /\ forall h er, exists v' h' er',
         fromJsonText T G J fuel t text {| p_heap := h; p_err := er |} = Some (POk v' {| p_heap := h'; p_err := er' |})
         /\ toJson T G J h' fuel t v' = ROk text.
Proof. exact text_again. Qed.
Print Assumptions C58_text_again.
(** C58: values with the same document are the same: there is a value both are equal to; identical ones without
    shared pointers and hash containers *)
Theorem C58_json_injective : forall G J H1 H2 ex t old v1 v2 f1 f2 j, alloc_ok G -> place_ok G ->
  jgood G J H1 ex t old v1 -> jgood G J H2 ex t old v2 ->
  push G J H1 f1 t v1 = ROk j -> push G J H2 f2 t v2 = ROk j ->
  (exists h v', jsame G H1 [] h t v1 v' /\ jsame G H2 [] h t v2 v') /\ (ex = true -> v1 = v2).
Proof. exact json_injective. Qed.
Print Assumptions C58_json_injective.
(** C58: binary data of one value is never the beginning of the data of another one, and data which is the same comes from values
    which are the same: their object graphs have a common copy; identical values without shared pointers and hash
    containers *)
Theorem C58_binary_injective : forall G H1 H2 ex wv rv t old v1 v2 f1 f2 b1 b2 W1 W2 r1 r2, alloc_ok G -> place_ok G -> heap_good G H1 -> heap_good G H2 ->
  good G H1 ex wv rv t old v1 -> good G H2 ex wv rv t old v2 ->
  write G H1 f1 wv t v1 [] = ROk (b1, W1) -> write G H2 f2 wv t v2 [] = ROk (b2, W2) -> b1 ++ r1 = b2 ++ r2 ->
  b1 = b2 /\ r1 = r2
  /\ (exists h v' ro1 ro2, same_value G ro1 t v1 v' /\ graph_iso G H1 [] h ro1 /\ same_value G ro2 t v2 v' /\ graph_iso G H2 [] h ro2)
  /\ (ex = true -> v1 = v2).
Proof. exact binary_injective. Qed.
Print Assumptions C58_binary_injective.
(** C58: without shared pointers and hash containers what has been read is written to the very same data *)
Theorem C58_binary_again : forall G H wv rv t old v, alloc_ok G -> place_ok G -> heap_good G H -> good G H true wv rv t old v ->
  exists F, forall fuel, F <= fuel -> exists bs W,
    write G H fuel wv t v [] = ROk (bs, W)
    /\ forall h0 rest, exists v' h' ptrs,
         read G fuel rv t old (bs ++ rest) {| r_heap := h0; r_ptr := [] |} = ROk (v', rest, {| r_heap := h'; r_ptr := ptrs |})
         /\ write G h' fuel wv t v' [] = ROk (bs, W).
Proof. exact binary_again. Qed.
Print Assumptions C58_binary_again.
