(** PropertiesWire.v -- property C60: the binary format *)
From Coq Require Import List NArith ZArith Bool Lia.
From Verif Require Import Base Bytes Types TypesFacts BinModel FuelFacts BinSpec BinTop WireSpec WireFacts.
Import ListNotations.
Local Open Scope N_scope.

(** C60: whatever is written has the documented form *)
Theorem C60_written_has_format : forall G H f ver t v W bs W', write G H f ver t v W = ROk (bs, W') -> wire G H ver t v W bs W'.
Proof. intros G H f. apply (written_wire G H f). Qed.
Print Assumptions C60_written_has_format.
Theorem C60_toBinary_has_format : forall G H f c fs ver bs, toBinary G H f c fs ver = ROk bs -> exists W, wire G H ver (TStruct c) (VObj fs) [] bs W.
Proof.
  intros G H f c fs ver bs. unfold toBinary. destruct (write_cls G H f ver c fs []) as [[b W]| | | |] eqn:E; try discriminate. intros [= <-].
  exists W. apply w_object. apply (written_wire G H f). exact E.
Qed.
Print Assumptions C60_toBinary_has_format.
(** C60: and everything of this form is written for the value *)
Theorem C60_format_is_written : forall G H ver t v W bs W', wire G H ver t v W bs W' ->
  exists F, forall f, (F <= f)%nat -> write G H f ver t v W = ROk (bs, W').
Proof. intros G H. apply (wire_written G H). Qed.
Print Assumptions C60_format_is_written.
(** C60: the bytes are determined by the value *)
Theorem C60_format_unique : forall G H ver t v W b1 W1 b2 W2, wire G H ver t v W b1 W1 -> wire G H ver t v W b2 W2 -> b1 = b2 /\ W1 = W2.
Proof.
  intros G H ver t v W b1 W1 b2 W2 A B. apply C60_format_is_written in A, B. destruct A as (F1 & E1), B as (F2 & E2).
  specialize (E1 (max F1 F2) ltac:(lia)). specialize (E2 (max F1 F2) ltac:(lia)). rewrite E1 in E2. inversion E2. split; reflexivity.
Qed.
Print Assumptions C60_format_unique.
(** C60: bytes of this form, wherever they come from, are read as the value *)
Theorem C60_format_is_read : forall G H ex wv rv t old v bs W, alloc_ok G -> place_ok G -> heap_good G H -> good G H ex wv rv t old v ->
  wire G H wv t v [] bs W ->
  exists F, forall fuel, (F <= fuel)%nat -> forall h0 rest, exists v' h' ptrs ro,
    read G fuel rv t old (bs ++ rest) {| r_heap := h0; r_ptr := [] |} = ROk (v', rest, {| r_heap := h'; r_ptr := ptrs |})
    /\ same_value G ro t v v' /\ graph_iso G H h0 h' ro /\ (ex = true -> v' = v).
Proof.
  intros G H ex wv rv t old v bs W HA HP HH Hg Hw. destruct (C60_format_is_written _ _ _ _ _ _ _ _ Hw) as (F1 & E1).
  destruct (binary_round_trip G H ex wv rv t old v HA HP HH Hg) as (F2 & E2).
  assert (X: ex = true -> exists F, forall fuel, (F <= fuel)%nat -> exists bs W,
    write G H fuel wv t v [] = ROk (bs, W)
    /\ forall h0 rest, exists h' ptrs,
         read G fuel rv t old (bs ++ rest) {| r_heap := h0; r_ptr := [] |}
           = ROk (v, rest, {| r_heap := h'; r_ptr := ptrs |})).
  { intros ->. apply (binary_round_trip_exact G H wv rv t old v HA HP HH Hg). }
  assert (Y: exists F3, ex = true -> forall fuel, (F3 <= fuel)%nat -> exists bs W,
    write G H fuel wv t v [] = ROk (bs, W)
    /\ forall h0 rest, exists h' ptrs,
         read G fuel rv t old (bs ++ rest) {| r_heap := h0; r_ptr := [] |}
           = ROk (v, rest, {| r_heap := h'; r_ptr := ptrs |})).
  { destruct ex; [|exists 0%nat; discriminate]. destruct (X eq_refl) as (F3 & E3). exists F3. intros _. exact E3. }
  destruct Y as (F3 & E3). exists (F1 + F2 + F3)%nat. intros fuel L h0 rest.
  specialize (E1 fuel ltac:(lia)). destruct (E2 fuel ltac:(lia)) as (b2 & W2 & A2 & R2).
  rewrite A2 in E1. inversion E1; subst b2 W2. destruct (R2 h0 rest) as (v' & h' & ptrs & ro & Er & S & GI).
  exists v', h', ptrs, ro. repeat split; try assumption; try apply GI.
  intros Ex. destruct (E3 Ex fuel ltac:(lia)) as (b3 & W3 & A3 & R3). rewrite A2 in A3. inversion A3; subst b3 W3.
  destruct (R3 h0 rest) as (h3 & p3 & Er3). rewrite Er in Er3. inversion Er3. reflexivity.
Qed.
Print Assumptions C60_format_is_read.
