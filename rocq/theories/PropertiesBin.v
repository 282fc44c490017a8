(** PropertiesBin.v -- the properties C01..C18 (binary (de)serialisation), see
    /verif/properties.jsonl.  Only statements; the vocabulary is in BinSpec.v
    ([good], [same_value], [graph_iso]) and BinSafeSpec.v ([has_type], [env_ok]). *)
From Coq Require Import List NArith ZArith Bool.
From Verif Require Import Base Bytes Types TypesFacts BinModel BinSpec BinSafeSpec BinFacts ContFacts BinTerm BinTop BinMore BinPaths.
Import ListNotations.
Local Open Scope N_scope.

(** C01: sizes below 2^56 are restored from the least possible number of bytes whatever
    follows, bigger ones are refused *)
Theorem C01_varint_round_trip : forall v s,
  (v < 2 ^ 56 -> exists bs, wr_varint v = ROk bs /\ rd_varint (bs ++ s) = ROk (v, s)
     /\ (1 <= length bs <= 8)%nat /\ v < 2 ^ (7 * N.of_nat (length bs))
     /\ (forall k, (1 <= k)%nat -> v < 2 ^ (7 * N.of_nat k) -> (length bs <= k)%nat))
  /\ (2 ^ 56 <= v -> wr_varint v = RThrow ExConv).
Proof. exact varint_round_trip. Qed.
Print Assumptions C01_varint_round_trip.

(** C02: what reading a size from arbitrary bytes can do *)
Theorem C02_varint_arbitrary_bytes : forall s,
  (exists v r p, rd_varint s = ROk (v, r) /\ s = p ++ r /\ (1 <= length p <= 8)%nat /\ v < 2 ^ 56)
  \/ ((exists s', s = Byte.x00 :: s') /\ rd_varint s = RThrow ExConv)
  \/ ((length s < 8)%nat /\ rd_varint s = RThrow ExIo).
Proof. exact varint_arbitrary. Qed.
Print Assumptions C02_varint_arbitrary_bytes.
(** C02: the value which is read, also from encodings which are longer than needed: the first byte determines the length [k]
    (the number of its leading zero bits plus one); the value is that of these bytes without the topmost set bit *)
Theorem C02_varint_value : forall b s k, (1 <= k <= 8)%nat -> 2 ^ (8 - N.of_nat k) <= bval b < 2 ^ (9 - N.of_nat k) ->
  (forall p r, b :: s = p ++ r -> length p = k ->
     2 ^ (7 * N.of_nat k) <= be_val p /\ rd_varint (b :: s) = ROk (be_val p - 2 ^ (7 * N.of_nat k), r))
  /\ ((length (b :: s) < k)%nat -> rd_varint (b :: s) = RThrow ExIo).
Proof. exact varint_value. Qed.
Print Assumptions C02_varint_value.

(** C03: scalars have a fixed size, are big-endian and lossless *)
Theorem C03_scalars : forall G H f ver rv W s st old,
  (forall b, exists n, write G H (S f) ver TBool (VBool b) W = ROk ([mkb n], W) /\ n = (if b then 1 else 0)
      /\ read G (S f) rv TBool old ([mkb n] ++ s) st = ROk (VBool b, s, st))
  /\ (forall k z, bin_kind k = true -> in_range k z = true -> exists bs,
      write G H (S f) ver (TInt k) (VInt z) W = ROk (bs, W) /\ write G H (S f) ver (TEnum k) (VInt z) W = ROk (bs, W)
      /\ length bs = ksize k /\ Z.of_N (be_val bs) = (z mod 2 ^ (8 * Z.of_nat (ksize k)))%Z
      /\ read G (S f) rv (TInt k) old (bs ++ s) st = ROk (VInt z, s, st)
      /\ read G (S f) rv (TEnum k) old (bs ++ s) st = ROk (VInt z, s, st))
  /\ (forall n, n < 2 ^ 32 -> exists bs, write G H (S f) ver TF32 (VF32 n) W = ROk (bs, W) /\ length bs = 4%nat /\ be_val bs = n
      /\ read G (S f) rv TF32 old (bs ++ s) st = ROk (VF32 n, s, st))
  /\ (forall n, n < 2 ^ 64 -> exists bs, write G H (S f) ver TF64 (VF64 n) W = ROk (bs, W) /\ length bs = 8%nat /\ be_val bs = n
      /\ read G (S f) rv TF64 old (bs ++ s) st = ROk (VF64 n, s, st)).
Proof. exact scalars_be. Qed.
Print Assumptions C03_scalars.
(** C03: scalars are read from arbitrary bytes: every byte but 0 is true, all bit patterns are accepted *)
Theorem C03_arbitrary_bytes : forall G f ver old st,
  (forall b s, read G (S f) ver TBool old (b :: s) st = ROk (VBool (if bval b =? 0 then false else true), s, st))
  /\ (forall k bs s, bin_kind k = true -> length bs = ksize k -> exists z,
        read G (S f) ver (TInt k) old (bs ++ s) st = ROk (VInt z, s, st) /\ read G (S f) ver (TEnum k) old (bs ++ s) st = ROk (VInt z, s, st)
        /\ in_range k z = true /\ (z mod 2 ^ (8 * Z.of_nat (ksize k)))%Z = Z.of_N (be_val bs))
  /\ (forall bs s, length bs = 4%nat -> read G (S f) ver TF32 old (bs ++ s) st = ROk (VF32 (be_val bs), s, st))
  /\ (forall bs s, length bs = 8%nat -> read G (S f) ver TF64 old (bs ++ s) st = ROk (VF64 (be_val bs), s, st))
  /\ (forall bs s, length bs = 8%nat -> read G (S f) ver TDateTime old (bs ++ s) st = ROk (VInt (Z.of_N (be_val bs)), s, st))
  /\ (forall bs s, length bs = 8%nat -> exists z, read G (S f) ver TTimeSpan old (bs ++ s) st = ROk (VInt z, s, st)
        /\ in_range KI64 z = true /\ (z mod 2 ^ 64)%Z = Z.of_N (be_val bs)).
Proof. exact scalars_arbitrary. Qed.
Print Assumptions C03_arbitrary_bytes.
(** C03: the flag of optionals and unique pointers is a bool: every byte but 0 announces a value *)
Theorem C03_flags : forall G f ver t t' old b s st, t = TUnique t' \/ t = TOptional t' ->
  (bval b = 0 -> read G (S f) ver t old (b :: s) st = ROk (VOpt None, s, st))
  /\ (bval b <> 0 -> read G (S f) ver t old (b :: s) st
        = match read G f 0 t' (vinit G t') s st with
          | ROk (x, r, st') => ROk (VOpt (Some x), r, st') | RThrow e => RThrow e | RUB => RUB | RFuel => RFuel | RStuck => RStuck
          end).
Proof. exact flags_arbitrary. Qed.
Print Assumptions C03_flags.

(** C04, C06, C08: writing a proper value terminates, and reading the bytes back restores an
    equal value, the shared objects forming an isomorphic graph of new objects *)
Theorem C04_binary_round_trip : forall G H ex wv rv t old v,
  alloc_ok G -> place_ok G -> heap_good G H -> good G H ex wv rv t old v ->
  exists F, forall fuel, (F <= fuel)%nat -> exists bs W,
    write G H fuel wv t v [] = ROk (bs, W)
    /\ forall h0 rest, exists v' h' ptrs ro,
         read G fuel rv t old (bs ++ rest) {| r_heap := h0; r_ptr := [] |}
           = ROk (v', rest, {| r_heap := h'; r_ptr := ptrs |})
         /\ same_value G ro t v v' /\ graph_iso G H h0 h' ro.
Proof. exact binary_round_trip. Qed.
Print Assumptions C04_binary_round_trip.

(** C06: the restored object graph cannot be distinguished from the one written by following members, elements and pointers
    ([same_graph] in BinPaths.v); it consists of new objects, those which existed before are unchanged *)
Theorem C06_same_graph : forall G H ex wv rv t old v,
  alloc_ok G -> place_ok G -> heap_good G H -> good G H ex wv rv t old v ->
  exists F, forall fuel, (F <= fuel)%nat -> exists bs W,
    write G H fuel wv t v [] = ROk (bs, W)
    /\ forall h0 rest, exists v' h' ptrs,
         read G fuel rv t old (bs ++ rest) {| r_heap := h0; r_ptr := [] |}
           = ROk (v', rest, {| r_heap := h'; r_ptr := ptrs |})
         /\ same_graph G H h' t v v'
         /\ (forall p t' b, at_path G h' t v' p t' (VShared (Some b)) -> ~ In b (map fst h0))
         /\ (forall a, In a (map fst h0) -> hget h' a = hget h0 a).
Proof.
  intros G H ex wv rv t old v HA HP HH Hg. destruct (binary_round_trip G H ex wv rv t old v HA HP HH Hg) as [F HF].
  exists F. intros fuel Hf. destruct (HF fuel Hf) as (bs & W & E & R). exists bs, W. split; [exact E|].
  intros h0 rest. destruct (R h0 rest) as (v' & h' & ptrs & ro & E' & S & GI). exists v', h', ptrs. split; [exact E'|].
  split; [exact (paths_same G H h0 h' ro GI t v v' S)|]. split; [exact (paths_new G H h0 h' ro GI t v v' S)|exact (gi_old _ _ _ _ _ GI)].
Qed.
Print Assumptions C06_same_graph.

(** C04: values without shared pointers and hash containers are restored identically *)
Theorem C04_binary_round_trip_exact : forall G H wv rv t old v,
  alloc_ok G -> place_ok G -> heap_good G H -> good G H true wv rv t old v ->
  exists F, forall fuel, (F <= fuel)%nat -> exists bs W,
    write G H fuel wv t v [] = ROk (bs, W)
    /\ forall h0 rest, exists h' ptrs,
         read G fuel rv t old (bs ++ rest) {| r_heap := h0; r_ptr := [] |}
           = ROk (v, rest, {| r_heap := h'; r_ptr := ptrs |}).
Proof. exact binary_round_trip_exact. Qed.
Print Assumptions C04_binary_round_trip_exact.

(** C04: the member functions toBinary, restoreFromBinary and fromBinary of a class; restoreFromBinary
    returns the version found in the data *)
Theorem C04_to_and_from_binary : forall G H ex ver c os fs,
  alloc_ok G -> place_ok G -> heap_good G H -> good G H ex ver 0 (TStruct c) (VObj os) (VObj fs) ->
  exists F, forall fuel, (F <= fuel)%nat -> exists bs,
    toBinary G H fuel c fs ver = ROk bs
    /\ forall h0 rest, exists fs' h' ptrs ro,
         restoreFromBinary G fuel c os (bs ++ rest) h0
           = ROk (fs', restored_version G ver 0 c, rest, {| r_heap := h'; r_ptr := ptrs |})
         /\ same_value G ro (TStruct c) (VObj fs) (VObj fs') /\ graph_iso G H h0 h' ro
         /\ (ex = true -> fs' = fs).
Proof. exact to_from_binary. Qed.
Print Assumptions C04_to_and_from_binary.

Theorem C04_from_binary : forall G H ex ver c rc fs,
  alloc_ok G -> place_ok G -> heap_good G H -> g_class G c = Some rc ->
  good G H ex ver 0 (TStruct c) (VObj (rc_dinit rc)) (VObj fs) ->
  exists F, forall fuel, (F <= fuel)%nat -> exists bs,
    toBinary G H fuel c fs ver = ROk bs
    /\ forall h0 rest, exists fs' h' ptrs ro,
         fromBinary G fuel c (bs ++ rest) h0 = ROk (fs', rest, {| r_heap := h'; r_ptr := ptrs |})
         /\ same_value G ro (TStruct c) (VObj fs) (VObj fs') /\ graph_iso G H h0 h' ro
         /\ (ex = true -> fs' = fs).
Proof. exact from_binary. Qed.
Print Assumptions C04_from_binary.

(** C05: values written one after another by one serializer are read back by one deserializer *)
Theorem C05_self_delimiting : forall G H (l : list (bool * N * N * ty * val * val)),
  alloc_ok G -> place_ok G -> heap_good G H ->
  (forall ex wv rv t old v, In (ex, wv, rv, t, old, v) l -> good G H ex wv rv t old v) ->
  exists F, forall fuel, (F <= fuel)%nat -> exists bs W,
    write_values G H fuel (map (fun '(ex, wv, rv, t, old, v) => (wv, t, v)) l) [] = ROk (bs, W)
    /\ forall h0 rest, exists vs h' ptrs ro,
       read_values G fuel (map (fun '(ex, wv, rv, t, old, v) => (rv, t, old)) l) (bs ++ rest) {| r_heap := h0; r_ptr := [] |}
         = ROk (vs, rest, {| r_heap := h'; r_ptr := ptrs |})
       /\ Forall2 (fun '(ex, wv, rv, t, old, v) v' => same_value G ro t v v') l vs
       /\ graph_iso G H h0 h' ro.
Proof. exact binary_sequence_total. Qed.
Print Assumptions C05_self_delimiting.

(** C07: first occurrence: mode 1, ID, content; further ones: mode 2 and ID only (also within the
    content, which is written with the object already in the table); the table of
    written objects only grows and never gets an object twice *)
Theorem C07_shared_written_once : forall G H,
  (forall f ver t a W, In a W ->
     write G H (S f) ver (TShared t) (VShared (Some a)) W = (let! hd := wr_ptr_head 2 a in ROk (hd, W)))
  /\ (forall f ver t a x W, ~ In a W -> hget H a = Some (t, x) ->
     write G H (S f) ver (TShared t) (VShared (Some a)) W =
     (let! hd := wr_ptr_head 1 a in let! (bx, W1) := write G H f 0 t x (a :: W) in ROk (hd ++ bx, W1)))
  /\ (forall f ver t a W bs W', write G H f ver (TShared t) (VShared (Some a)) W = ROk (bs, W') -> In a W')
  /\ (forall f ver t v W bs W', write G H f ver t v W = ROk (bs, W') ->
     exists news, W' = news ++ W /\ NoDup news /\ forall a, In a news -> ~ In a W).
Proof. exact shared_written_once. Qed.
Print Assumptions C07_shared_written_once.

(** C07, in terms of the written bytes: whatever has been written by a serializer ([l]), a further
    occurrence of an object adds nothing but a mode byte and the ID *)
Theorem C07_further_occurrence : forall G H fuel l bs W ver0 ver t0 t a,
  write_values G H fuel l [] = ROk (bs, W) -> In (ver0, TShared t0, VShared (Some a)) l -> a < 2 ^ 64 ->
  exists hd, (length hd <= 9)%nat
    /\ (a < 2 ^ 55 -> exists p, wr_varint a = ROk p /\ hd = mkb 2 :: p)
    /\ (2 ^ 55 <= a -> hd = mkb 6 :: be 8 a)
    /\ write_values G H fuel (l ++ [(ver, TShared t, VShared (Some a))]) [] = ROk (bs ++ hd, W).
Proof. exact second_occurrence. Qed.
Print Assumptions C07_further_occurrence.

(** C08: writing any value in any finite heap (cycles included) terminates *)
Theorem C08_write_terminates : forall G H, no_base_cycle G ->
  forall ver t v W, exists F, forall fuel, (F <= fuel)%nat ->
  write G H fuel ver t v W <> RFuel /\ write G H fuel ver t v W = write G H F ver t v W.
Proof. exact write_terminates. Qed.
Print Assumptions C08_write_terminates.

(** C09: every 64-bit address is encoded losslessly *)
Theorem C09_pointer_ids : forall mode a s, (mode = 1 \/ mode = 2) -> a < 2 ^ 64 ->
  exists hd, wr_ptr_head mode a = ROk hd
    /\ (a < 2 ^ 55 -> exists p, wr_varint a = ROk p /\ hd = mkb mode :: p)
    /\ (2 ^ 55 <= a -> hd = mkb (mode + 4) :: be 8 a)
    /\ exists m s1, rd_byte (hd ++ s) = ROk (m, s1) /\ N.land m 3 = mode
       /\ (if negb (N.land m 4 =? 0) then rd_be 8 s1 else rd_varint s1) = ROk (a, s).
Proof. exact pointer_head_lossless. Qed.
Print Assumptions C09_pointer_ids.

(** C10: reading arbitrary bytes terminates with a well-typed value (no pre-existing object
    touched, a prefix of the input consumed) or an exception; no undefined behaviour *)
Theorem C10_arbitrary_bytes_safe : forall G ud, alloc_ok G -> place_ok G -> env_ok G ud -> by_value_ok G ->
  forall ver t old s st, readable G t -> has_type G ud (r_heap st) t old -> state_ok G ud st ->
  exists F, forall fuel, (F <= fuel)%nat ->
    (exists v r st', read G fuel ver t old s st = ROk (v, r, st')
       /\ has_type G ud (r_heap st') t v /\ heap_typed G ud (r_heap st')
       /\ heap_extends (r_heap st) (r_heap st') /\ (exists p, s = p ++ r))
    \/ (exists e, read G fuel ver t old s st = RThrow e /\ e <> ExBadVariant).
Proof. exact arbitrary_bytes_safe. Qed.
Print Assumptions C10_arbitrary_bytes_safe.

(** C11: a back reference (any mode byte other than 0 whose low bits are not 1) to an ID which
    is not known, or known for another element type, is refused *)
Theorem C11_dangling_reference : forall G f ver t old mode id s r st, mode < 256 ->
  mode <> 0 -> N.land mode 3 <> 1 ->
  (if negb (N.land mode 4 =? 0) then rd_be 8 s else rd_varint s) = ROk (id, r) ->
  (forall a, alookup N.eqb id (r_ptr st) <> Some (a, t)) ->
  read G (S f) ver (TShared t) old (mkb mode :: s) st = RThrow ExConv.
Proof. exact read_backref. Qed.
Print Assumptions C11_dangling_reference.

(** C12 *)
Theorem C12_variant_index : forall G H,
  (forall f ver ts i t x W bs W', (length ts < 256)%nat -> nth_error ts i = Some t ->
     write G H (S f) ver (TVariant ts) (VVar i x) W = ROk (bs, W') ->
     exists body, bs = mkb (N.of_nat i) :: body /\ bval (mkb (N.of_nat i)) = N.of_nat i /\
       (t = TMono -> body = []) /\ (t <> TMono -> write G H f 0 t x W = ROk (body, W')))
  /\ (forall f ver ts old b s st, (length ts <= N.to_nat (bval b))%nat ->
     read G (S f) ver (TVariant ts) old (b :: s) st = RThrow ExConv)
  /\ (forall f ver ts old b s st v r st', read G (S f) ver (TVariant ts) old (b :: s) st = ROk (v, r, st') ->
     exists t x, v = VVar (N.to_nat (bval b)) x /\ nth_error ts (N.to_nat (bval b)) = Some t)
  /\ (forall f ver ts W, write G H (S f) ver (TVariant ts) VValueless W = RThrow ExBadVariant).
Proof. exact variant_binary. Qed.
Print Assumptions C12_variant_index.

(** C13: a serialization cut anywhere is refused; more generally, no input which ends before the
    last byte the reader needs is accepted *)
Theorem C13_truncated : forall G H ex wv rv t old v fuel bs W,
  alloc_ok G -> place_ok G -> heap_good G H -> good G H ex wv rv t old v ->
  write G H fuel wv t v [] = ROk (bs, W) ->
  forall q x h0, bs = q ++ x -> x <> [] ->
  read G fuel rv t old q {| r_heap := h0; r_ptr := [] |} = RThrow ExIo.
Proof. exact truncated_input. Qed.
Print Assumptions C13_truncated.

Theorem C13_accepted_prefix : forall G fuel ver t old s v r st st',
  read G fuel ver t old s st = ROk (v, r, st') ->
  forall q x, s = q ++ x ++ r -> x <> [] -> read G fuel ver t old q st = RThrow ExIo.
Proof. exact accepted_prefix_rejected. Qed.
Print Assumptions C13_accepted_prefix.

(** C14: what happens to the previous content ([replaced]: scalars, strings, pointers,
    optionals, variants; [merged]: previous elements are kept and win) *)
Theorem C14_non_fresh : forall G, place_ok G ->
  (forall f ver t old old' s st, replaced t = true -> read G f ver t old s st = read G f ver t old' s st)
  /\ (forall f ver t olds s st v r st', read G (S f) ver (TSeq t) (VList olds) s st = ROk (v, r, st') ->
       exists n r0 l, rd_varint s = ROk (n, r0) /\ v = VList l /\ N.of_nat (length l) = n)
  /\ (forall f ver ord multi t olds s st v r st', read G (S f) ver (TSet ord multi t) (VList olds) s st = ROk (v, r, st') ->
       exists n s1 xs l, rd_varint s = ROk (n, s1) /\ N.of_nat (length xs) = n
         /\ read_values G f (repeat (0, t, dinit G t) (N.to_nat n)) s1 st = ROk (xs, r, st')
         /\ v = VList l /\ merged G false ord multi t olds xs l)
  /\ (forall f ver ord multi kt vt olds s st v r st', read G (S f) ver (TMap ord multi kt vt) (VList olds) s st = ROk (v, r, st') ->
       exists n s1 xs l, rd_varint s = ROk (n, s1) /\ N.of_nat (length xs) = n
         /\ read_values G f (repeat (0, TPair kt vt, VPair (vinit G kt) (vinit G vt)) (N.to_nat n)) s1 st = ROk (xs, r, st')
         /\ v = VList l /\ merged G true ord multi kt olds xs l).
Proof. exact non_fresh. Qed.
Print Assumptions C14_non_fresh.

(** C15: the members of a version are exactly the visible ones; they are restored, all other
    members keep their value *)
Theorem C15_visible_iff_in_range : forall ver fd, visible ver fd = true <->
  ((bf_asof fd = 0 \/ bf_asof fd <= ver) /\ (bf_until fd = 0 \/ ver <= bf_until fd)).
Proof. exact visible_spec. Qed.
Print Assumptions C15_visible_iff_in_range.

Theorem C15_members_written : forall G H f ver c rc fs W, g_class G c = Some rc ->
  write_cls G H (S f) ver c fs W =
  (let p := rc_wr rc in
   let! (bb, W1) := write_bases G H f ver (bp_bases p) fs W in
   if bp_vmax p =? 0 then
     let! (bm, W2) := write_members G H f ver (filter (visible ver) (bp_fields p)) fs W1 in ROk (bb ++ bm, W2)
   else
     let e := if ver =? 0 then bp_vmax p else ver in
     let! bv := wr_varint e in
     let! (bm, W2) := write_members G H f e (filter (visible e) (bp_fields p)) fs W1 in ROk (bb ++ bv ++ bm, W2)).
Proof. exact write_cls_spec. Qed.
Print Assumptions C15_members_written.

(** members which are not part of the serialization have no influence on the bytes *)
Theorem C15_others_no_influence : forall G H fuel ver c fs fs',
  (forall k, written G ver c k -> alookup fkey_eqb k fs = alookup fkey_eqb k fs') ->
  toBinary G H fuel c fs ver = toBinary G H fuel c fs' ver.
Proof. exact invisible_no_influence_top. Qed.
Print Assumptions C15_others_no_influence.

(** the members which are restored by the next theorem are those which are written *)
Theorem C15_restored_iff_written : forall G wv rv c L, visits G wv rv c L ->
  forall k, In k (map vi_key L) <-> written G wv c k.
Proof. exact visits_written. Qed.
Print Assumptions C15_restored_iff_written.

Theorem C15_class_round_trip : forall G H ex f wv rv c L fs os bs W',
  alloc_ok G -> place_ok G -> heap_good G H ->
  visits G wv rv c L -> repeatable G L ->
  (forall x, In x L -> exists o v, alookup fkey_eqb (vi_key x) os = Some o /\ alookup fkey_eqb (vi_key x) fs = Some v
      /\ good G H ex (vi_w x) (vi_r x) (vi_ty x) o v) ->
  write_cls G H f wv c fs [] = ROk (bs, W') ->
  forall h0 rest, exists os' h' ptrs ro,
    read_cls G f rv c os (bs ++ rest) {| r_heap := h0; r_ptr := [] |} = ROk (os', restored_version G wv rv c, rest, {| r_heap := h'; r_ptr := ptrs |})
    /\ graph_iso G H h0 h' ro
    /\ (forall x, In x L -> exists v v', alookup fkey_eqb (vi_key x) fs = Some v /\ alookup fkey_eqb (vi_key x) os' = Some v'
          /\ same_value G ro (vi_ty x) v v')
    /\ (forall k, ~ In k (map vi_key L) -> alookup fkey_eqb k os' = alookup fkey_eqb k os).
Proof. exact class_round_trip. Qed.
Print Assumptions C15_class_round_trip.

Theorem C15_invisible_untouched : forall G f ver c rc p os s st os' v r st' k,
  g_class G c = Some rc -> rc_rd rc = Some p -> bp_vmax p <> 0 -> bp_ret0 p = false ->
  read_cls G (S f) ver c os s st = ROk (os', v, r, st') ->
  (forall b, In b (bp_bases p) -> ~ class_touches G b k) ->
  (forall fd, In fd (bp_fields p) -> bf_key fd = k -> visible v fd = false) ->
  alookup fkey_eqb k os' = alookup fkey_eqb k os.
Proof. exact read_cls_invisible. Qed.
Print Assumptions C15_invisible_untouched.

(** C16: [v] is the version found in the data (after the bases); with an unsupported version
    the outcome is the exception, whatever follows in the stream *)
Theorem C16_unsupported_version : forall G f ver c rc p os s st os1 s1 st1,
  g_class G c = Some rc -> rc_rd rc = Some p -> bp_vmax p <> 0 ->
  read_bases G f ver (bp_bases p) os s st = ROk (os1, s1, st1) ->
  forall v s2, rd_varint s1 = ROk (v, s2) ->
  (bp_vmax p < v -> read_cls G (S f) ver c os s st = RThrow (ExVersion v (bp_vmax p) (rc_name rc)))
  /\ (v <= bp_vmax p -> read_cls G (S f) ver c os s st =
        (let! (os3, s3, st3) := read_members G f v (filter (visible v) (bp_fields p)) os1 s2 st1 in
         ROk (os3, if bp_ret0 p then 0 else v, s3, st3))).
Proof. exact version_refused. Qed.
Print Assumptions C16_unsupported_version.

(** C17: version 0 stands for the class' own version *)
Theorem C17_default_version : forall G H f ver c rc fs W bs W', g_class G c = Some rc -> bp_vmax (rc_wr rc) <> 0 ->
  write_cls G H (S f) ver c fs W = ROk (bs, W') ->
  exists e bb bv bm W1, e = (if ver =? 0 then bp_vmax (rc_wr rc) else ver)
    /\ write_bases G H f ver (bp_bases (rc_wr rc)) fs W = ROk (bb, W1)
    /\ wr_varint e = ROk bv
    /\ write_members G H f e (filter (visible e) (bp_fields (rc_wr rc))) fs W1 = ROk (bm, W')
    /\ bs = bb ++ bv ++ bm.
Proof. exact default_version. Qed.
Print Assumptions C17_default_version.

Theorem C17_default_is_max : forall G H f c rc fs W, g_class G c = Some rc -> bp_bases (rc_wr rc) = [] ->
  bp_vmax (rc_wr rc) <> 0 -> write_cls G H f 0 c fs W = write_cls G H f (bp_vmax (rc_wr rc)) c fs W.
Proof. exact default_is_max. Qed.
Print Assumptions C17_default_is_max.

(** C18: the version has no influence on anything but classes, which get it directly; elements of
    containers etc. are written with version 0 (= default) *)
Theorem C18_version_reach : forall G H f,
  (forall v1 v2 t v W, class_type t = false -> write G H f v1 t v W = write G H f v2 t v W)
  /\ (forall v1 v2 t old s st, class_type t = false -> read G f v1 t old s st = read G f v2 t old s st)
  /\ (forall ver c fs W, write G H (S f) ver (TStruct c) (VObj fs) W = write_cls G H f ver c fs W)
  /\ (forall ver t l W, write G H (S f) ver (TSeq t) (VList l) W =
        (let! p := wr_varint (N.of_nat (length l)) in
         let! (bs, W') := write_values G H f (map (fun x => (0, t, x)) l) W in ROk (p ++ bs, W')))
  /\ (forall ver ord multi t l W, write G H (S f) ver (TSet ord multi t) (VList l) W =
        (let! p := wr_varint (N.of_nat (length l)) in
         let! (bs, W') := write_values G H f (map (fun x => (0, t, x)) l) W in ROk (p ++ bs, W')))
  /\ (forall ver ord multi kt vt l W, write G H (S (S f)) ver (TMap ord multi kt vt) (VList (map (fun '(k, v) => VPair k v) l)) W =
        (let! p := wr_varint (N.of_nat (length l)) in
         let! (bs, W') := write_values G H f (concat (map (fun '(k, v) => [(0, kt, k); (0, vt, v)]) l)) W in ROk (p ++ bs, W')))
  /\ (forall ver ta tb a b W, write G H (S f) ver (TPair ta tb) (VPair a b) W = write_values G H f [(0, ta, a); (0, tb, b)] W)
  /\ (forall ver t x W, write G H (S f) ver (TOptional t) (VOpt (Some x)) W =
        (let! (bs, W') := write G H f 0 t x W in ROk (mkb 1 :: bs, W')))
  /\ (forall ver t x W, write G H (S f) ver (TUnique t) (VOpt (Some x)) W =
        (let! (bs, W') := write G H f 0 t x W in ROk (mkb 1 :: bs, W')))
  /\ (forall ver t a x W, ~ In a W -> hget H a = Some (t, x) -> write G H (S f) ver (TShared t) (VShared (Some a)) W =
        (let! hd := wr_ptr_head 1 a in let! (bs, W') := write G H f 0 t x (a :: W) in ROk (hd ++ bs, W')))
  /\ (forall ver ts i t x W, nth_error ts i = Some t -> t <> TMono -> write G H (S f) ver (TVariant ts) (VVar i x) W =
        (let! (bs, W') := write G H f 0 t x W in ROk (mkb (N.of_nat i) :: bs, W'))).
Proof. exact version_reach. Qed.
Print Assumptions C18_version_reach.
