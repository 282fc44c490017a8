(** PropertiesExc.v -- what is left behind when reading throws (model: BinExc.v, vocabulary: BinExcSpec.v, BinSafeSpec.v) *)
From Coq Require Import List NArith ZArith Bool Lia.
From Verif Require Import Base Bytes Types TypesFacts BinModel BinSpec BinSafeSpec BinFacts BinTop BinExc BinExcFacts BinExcSpec BinExcTop.
Import ListNotations.
Local Open Scope N_scope.

(** C51: reading arbitrary bytes always ends, and whether it returns or throws, the variable holds a value of its type,
    every object owned by a shared pointer (also those only the deserializer knows) has its type, objects which existed before
    are unchanged, and the deserializer may be used for another value (its state is proper). *)
Theorem C51_exception_safe : forall G ud, alloc_ok G -> place_ok G -> env_ok G ud -> by_value_ok G ->
  forall ver t old s st, readable G t -> has_type G ud (r_heap st) t old -> state_ok G ud st ->
  exists F, forall fuel, (F <= fuel)%nat -> exists v st',
    ((exists r, xread G fuel ver t old s st = XOk v r st')
     \/ (exists e, xread G fuel ver t old s st = XThrow e v st' /\ e <> ExBadVariant))
    /\ has_type G ud (r_heap st') t v /\ state_ok G ud st' /\ heap_extends (r_heap st) (r_heap st').
Proof. exact exception_safe. Qed.
Print Assumptions C51_exception_safe.

(** the model with exceptions and the one the other theorems are about (BinModel.v) describe the same reader *)
Theorem C51_same_reader : forall G fuel ver t old s st,
  read G fuel ver t old s st
  = match xread G fuel ver t old s st with
    | XOk v r st' => ROk (v, r, st') | XThrow e _ _ => RThrow e | XUB => RUB | XFuel => RFuel | XStuck => RStuck
    end.
Proof. intros. symmetry. apply (proj1 (xread_erase G fuel)). Qed.
Print Assumptions C51_same_reader.

Theorem C51_same_restore : forall G fuel c os s h,
  restoreFromBinary G fuel c os s h
  = match xrestoreFromBinary G fuel c os s h with
    | XOk (fs, v) r st' => ROk (fs, v, r, st') | XThrow e _ _ => RThrow e | XUB => RUB | XFuel => RFuel | XStuck => RStuck
    end.
Proof. intros. symmetry. apply (proj2 (xread_erase G fuel)). Qed.
Print Assumptions C51_same_restore.

(** C52: if [s] is accepted (up to the rest [r]) then every shorter input makes restoreFromBinary throw the exception about
    the end of the stream, and the members have been restored in order up to the cut ([progress]). *)
Theorem C52_cut_anywhere : forall G ud, alloc_ok G -> place_ok G -> env_ok G ud ->
  forall fuel c rc L os s h fs w r st',
  g_class G c = Some rc -> read_members_of G c L ->
  has_type G ud h (TStruct c) (VObj os) -> heap_typed G ud h ->
  restoreFromBinary G fuel c os s h = ROk (fs, w, r, st') ->
  forall q x, s = q ++ x ++ r -> x <> [] ->
  exists now w' st2, xrestoreFromBinary G fuel c os q h = XThrow ExIo (now, w') st2
    /\ has_type G ud (r_heap st2) (TStruct c) (VObj now)
    /\ progress G ud (rc_layout rc) L os h fs (r_heap st') now (r_heap st2).
Proof. exact cut_anywhere. Qed.
Print Assumptions C52_cut_anywhere.

(** the same for the serialization of an object which can be written and read back *)
Theorem C52_truncated_serialization : forall G ud H ex ver c rc L os fs, alloc_ok G -> place_ok G -> env_ok G ud ->
  heap_good G H -> good G H ex ver 0 (TStruct c) (VObj os) (VObj fs) ->
  g_class G c = Some rc -> read_members_of G c L ->
  exists F, forall fuel, (F <= fuel)%nat -> exists bs,
    toBinary G H fuel c fs ver = ROk bs
    /\ forall h0, has_type G ud h0 (TStruct c) (VObj os) -> heap_typed G ud h0 ->
       exists fs' h' ro, same_value G ro (TStruct c) (VObj fs) (VObj fs') /\ graph_iso G H h0 h' ro /\ (ex = true -> fs' = fs)
       /\ forall q x, bs = q ++ x -> x <> [] ->
          exists now w' st2, xrestoreFromBinary G fuel c os q h0 = XThrow ExIo (now, w') st2
            /\ has_type G ud (r_heap st2) (TStruct c) (VObj now)
            /\ progress G ud (rc_layout rc) L os h0 fs' h' now (r_heap st2).
Proof.
  intros G ud H ex ver c rc L os fs HA HP HE HH Hg Hc HL.
  destruct (to_from_binary G H ex ver c os fs HA HP HH Hg) as [F HF]. exists F. intros fuel Hf.
  destruct (HF fuel Hf) as (bs & Ew & Hr). exists bs. split; [exact Ew|]. intros h0 HT Hh.
  destruct (Hr h0 []) as (fs' & h' & ptrs & ro & Er & Hs & Hi & He). exists fs', h', ro. split; [exact Hs|]. split; [exact Hi|]. split; [exact He|].
  intros q x -> Hx. rewrite app_nil_r in Er.
  apply (cut_anywhere G ud HA HP HE fuel c rc L os (q ++ x) h0 fs' _ [] {| r_heap := h'; r_ptr := ptrs |} Hc HL HT Hh Er q x); [rewrite app_nil_r; reflexivity|exact Hx].
Qed.
Print Assumptions C52_truncated_serialization.

(** the same for the elements of a sequence: the sequence has its new length, elements before the cut are as in the complete
    data, those after the element at the cut are the previous ones or value-initialised *)
Theorem C52_cut_in_sequence : forall G f ver t olds q y n r1 st e now st2 after s' st',
  rd_varint q = ROk (n, r1) ->
  xread G (S f) ver (TSeq t) (VList olds) q st = XThrow e now st2 ->
  read G (S f) ver (TSeq t) (VList olds) (q ++ y) st = ROk (VList after, s', st') ->
  exists l i, now = VList l /\ N.of_nat (length l) = n /\ length l = length after /\ (i < length l)%nat
    /\ firstn i l = firstn i after
    /\ forall j x, (i < j)%nat -> nth_error l j = Some x -> nth_error olds j = Some x \/ ((length olds <= j)%nat /\ x = vinit G t).
Proof. exact cut_in_sequence. Qed.
Print Assumptions C52_cut_in_sequence.

(** C16: if the version of the class is refused, its own members have not been touched; its base classes, which precede the
    version, have been restored *)
Theorem C16_refused_untouched : forall G f ver c rc p os s st os1 s1 st1,
  g_class G c = Some rc -> rc_rd rc = Some p -> bp_vmax p <> 0 ->
  read_bases G f ver (bp_bases p) os s st = ROk (os1, s1, st1) ->
  forall v s2, rd_varint s1 = ROk (v, s2) -> bp_vmax p < v ->
  exists w, xread_cls G (S f) ver c os s st = XThrow (ExVersion v (bp_vmax p) (rc_name rc)) (os1, w) st1.
Proof. exact refused_untouched. Qed.
Print Assumptions C16_refused_untouched.
