(** WireSpec.v -- the binary format as a grammar, independent of how it is written or read.
    Nothing here is used by the model itself. *)
From Coq Require Import List NArith ZArith Bool.
From Verif Require Import Base Types BinModel.
Import ListNotations.
Local Open Scope N_scope.

(** the number a sequence of bytes denotes, the most significant byte first *)
Definition number (bs : bytes) : N := fold_left (fun n b => 256 * n + bval b) bs 0.

(** [fixed k n bs]: [n] (modulo 2^8k) with [k] bytes *)
Definition fixed (k : nat) (n : N) (bs : bytes) : Prop := length bs = k /\ number bs = n mod 2 ^ (8 * N.of_nat k).
(** an integral number in two's complement *)
Definition integral (k : ikind) (z : Z) (bs : bytes) : Prop :=
  length bs = ksize k /\ Z.of_N (number bs) = (z mod 2 ^ (8 * Z.of_nat (ksize k)))%Z.
(** [vint n bs]: [n] with variable length: [k] bytes, at most 8, the 7k low bits of which are the number; the bit above is set; [k] is as small as possible *)
Definition vint (n : N) (bs : bytes) : Prop :=
  exists k, (1 <= k <= 8)%nat /\ length bs = k /\ n < 2 ^ (7 * N.of_nat k) /\ number bs = 2 ^ (7 * N.of_nat k) + n
    /\ forall i, (1 <= i < k)%nat -> 2 ^ (7 * N.of_nat i) <= n.
(** length-prefixed characters *)
Definition string_bytes (x bs : bytes) : Prop := exists p, vint (N.of_nat (length x)) p /\ bs = p ++ x.
(** ID of a shared object: variable length, or 8 bytes for IDs of 2^55 or more, flagged in the byte before *)
Inductive id_bytes (mode id : N) : bytes -> Prop :=
| id_small b p : id < 2 ^ 55 -> bval b = mode -> vint id p -> id_bytes mode id (b :: p)
| id_big b p : 2 ^ 55 <= id -> bval b = mode + 4 -> fixed 8 id p -> id_bytes mode id (b :: p).

(** [applies v fd]: the member is stored in data of version [v] *)
Definition applies (v : N) (fd : bfield) : Prop := bf_asof fd <= v /\ (bf_until fd = 0 \/ v <= bf_until fd).
(** [chosen v fs l ms]: the members of [l] stored in data of version [v], with their values in the object [fs] *)
Inductive chosen (v : N) (fs : list (fkey * val)) : list bfield -> list (N * ty * val) -> Prop :=
| chosen_nil : chosen v fs [] []
| chosen_skip fd l ms : ~ applies v fd -> chosen v fs l ms -> chosen v fs (fd :: l) ms
| chosen_take fd l ms x : applies v fd -> alookup fkey_eqb (bf_key fd) fs = Some x -> chosen v fs l ms -> chosen v fs (fd :: l) ((v, bf_ty fd, x) :: ms).

Section Wire.
  Variable G : genv.
  Variable H : heap.   (** the objects shared pointers refer to; their addresses are their IDs *)

  (** [wire ver t v W bs W']: [bs] are the bytes for the value [v] of type [t] if the shared objects [W] have been
      stored before; [W'] are those which have been stored afterwards.  [ver] is the version for class objects (0: the class's own). *)
  Inductive wire : N -> ty -> val -> list N -> bytes -> list N -> Prop :=
  | w_false ver W b : bval b = 0 -> wire ver TBool (VBool false) W [b] W
  | w_true ver W b : bval b = 1 -> wire ver TBool (VBool true) W [b] W
  | w_int ver k z W bs : k <> KI8 -> integral k z bs -> wire ver (TInt k) (VInt z) W bs W
  | w_enum ver k z W bs : k <> KI8 -> integral k z bs -> wire ver (TEnum k) (VInt z) W bs W
  | w_float ver n W bs : fixed 4 n bs -> wire ver TF32 (VF32 n) W bs W
  | w_double ver n W bs : fixed 8 n bs -> wire ver TF64 (VF64 n) W bs W
  | w_datetime ver z W bs : integral KU64 z bs -> wire ver TDateTime (VInt z) W bs W
  | w_timespan ver z W bs : integral KI64 z bs -> wire ver TTimeSpan (VInt z) W bs W
  | w_string ver x W bs : string_bytes x bs -> wire ver TString (VStr x) W bs W
  | w_view ver x W bs : string_bytes x bs -> wire ver TView (VOpt (Some (VStr x))) W bs W
  | w_no_view ver W bs : string_bytes [] bs -> wire ver TView (VOpt None) W bs W
  | w_pair ver ta tb a b W bs W' : wires [(0, ta, a); (0, tb, b)] W bs W' -> wire ver (TPair ta tb) (VPair a b) W bs W'
  | w_none ver t t' W b : t = TUnique t' \/ t = TOptional t' -> bval b = 0 -> wire ver t (VOpt None) W [b] W
  | w_some ver t t' x W b bs W' : t = TUnique t' \/ t = TOptional t' -> bval b = 1 -> wire 0 t' x W bs W' -> wire ver t (VOpt (Some x)) W (b :: bs) W'
  | w_null ver t W b : bval b = 0 -> wire ver (TShared t) (VShared None) W [b] W
  | w_again ver t a W bs : In a W -> id_bytes 2 a bs -> wire ver (TShared t) (VShared (Some a)) W bs W
  | w_first ver t a x W h bs W' : ~ In a W -> hget H a = Some (t, x) -> id_bytes 1 a h -> wire 0 t x (a :: W) bs W' ->
      wire ver (TShared t) (VShared (Some a)) W (h ++ bs) W'
  | w_seq ver t t' l W p bs W' : t = TSeq t' \/ (exists o m, t = TSet o m t') \/ (exists o m kt vt, t = TMap o m kt vt /\ t' = TPair kt vt) ->
      vint (N.of_nat (length l)) p -> wires (map (fun x => (0, t', x)) l) W bs W' -> wire ver t (VList l) W (p ++ bs) W'
  | w_mono ver ts i v W b : nth_error ts i = Some TMono -> bval b = N.of_nat i mod 256 -> wire ver (TVariant ts) (VVar i v) W [b] W
  | w_variant ver ts i t x W b bs W' : nth_error ts i = Some t -> t <> TMono -> bval b = N.of_nat i mod 256 -> wire 0 t x W bs W' ->
      wire ver (TVariant ts) (VVar i x) W (b :: bs) W'
  | w_object ver c fs W bs W' : wire_class ver c fs W bs W' -> wire ver (TStruct c) (VObj fs) W bs W'
  (** one after the other *)
  with wires : list (N * ty * val) -> list N -> bytes -> list N -> Prop :=
  | ws_nil W : wires [] W [] W
  | ws_cons ver t v l W b1 W1 b2 W2 : wire ver t v W b1 W1 -> wires l W1 b2 W2 -> wires ((ver, t, v) :: l) W (b1 ++ b2) W2
  (** base classes, version (if the class has one), members *)
  with wire_class : N -> N -> list (fkey * val) -> list N -> bytes -> list N -> Prop :=
  | wc_unversioned ver c rc fs ms W bb W1 bm W2 : g_class G c = Some rc -> bp_vmax (rc_wr rc) = 0 ->
      wire_bases ver (bp_bases (rc_wr rc)) fs W bb W1 ->
      chosen ver fs (bp_fields (rc_wr rc)) ms -> wires ms W1 bm W2 -> wire_class ver c fs W (bb ++ bm) W2
  | wc_versioned ver c rc fs v ms W bb W1 bv bm W2 : g_class G c = Some rc -> bp_vmax (rc_wr rc) <> 0 ->
      v = (if ver =? 0 then bp_vmax (rc_wr rc) else ver) ->
      wire_bases ver (bp_bases (rc_wr rc)) fs W bb W1 -> vint v bv ->
      chosen v fs (bp_fields (rc_wr rc)) ms -> wires ms W1 bm W2 -> wire_class ver c fs W (bb ++ bv ++ bm) W2
  with wire_bases : N -> list N -> list (fkey * val) -> list N -> bytes -> list N -> Prop :=
  | wb_nil ver fs W : wire_bases ver [] fs W [] W
  | wb_cons ver c l fs W b1 W1 b2 W2 : wire_class ver c fs W b1 W1 -> wire_bases ver l fs W1 b2 W2 -> wire_bases ver (c :: l) fs W (b1 ++ b2) W2.
End Wire.
