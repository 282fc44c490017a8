(** BinModel.v -- BinarySerializer and BinaryDeserializer
    (/repo/lib/binary/reflector.h, /repo/lib/binary/serializable.h,
    /repo/lib/binary/reflector-chronoutilities.h and the generated
    writeCustomType/readCustomType functions). *)
From Coq Require Import List NArith ZArith Bool Lia.
From Verif Require Import Base Bytes Types.
Import ListNotations.
Local Open Scope N_scope.

(** Integral types with a binary representation (lib/binary/reflector.h:48-49):
    std::int8_t is not among them, so it is a "custom type" without
    writeCustomType and the program does not link. *)
Definition bin_kind (k : ikind) : bool := match k with KI8 => false | _ => true end.

(** BinaryWriter::write(integer) *)
Definition wr_int (k : ikind) (z : Z) : bytes := enc_int (ksize k) z.
(** BinaryReader::read(integer &) *)
Definition rd_int (k : ikind) (s : bytes) : res (Z * bytes) :=
  let! (n, s') := rd_be (ksize k) s in
  ROk (if ksigned k then dec_signed (ksize k) n else Z.of_N n, s').

(** "for each element, write it": the bytes in order and the final pointer table *)
Fixpoint wr_iter {A : Type} (w : A -> list N -> res (bytes * list N)) (l : list A) (W : list N)
  : res (bytes * list N) :=
  match l with
  | [] => ROk ([], W)
  | x :: l' => let! (b1, W1) := w x W in
               let! (b2, W2) := wr_iter w l' W1 in ROk (b1 ++ b2, W2)
  end.

(** "for each, read it": a loop over a compile-time list (base classes, members) *)
Fixpoint rd_iter {A S : Type} (r : A -> S -> res S) (l : list A) (st : S) : res S :=
  match l with
  | [] => ROk st
  | x :: l' => let! st1 := r x st in rd_iter r l' st1
  end.

(** BinarySerializer::write(std::shared_ptr), mode byte and ID
    (lib/binary/reflector.h:278-290): the 3rd bit flags IDs >= 0x80000000000000
    which are written with 8 bytes. *)
Definition bigId (a : N) : bool := 0x80000000000000 <=? a.
Definition wr_ptr_head (mode a : N) : res bytes :=
  if bigId a then ROk (mkb (N.lor mode 4) :: be 8 a)
  else let! p := wr_varint a in ROk (mkb mode :: p).

Section Write.
  Variable G : genv.
  Variable H : heap.   (** the objects shared pointers refer to *)

  (** BinarySerializer::write (lib/binary/reflector.h:257-335).
      [W]: the IDs flagged in [m_pointer] (118).
      [ver] only has a meaning for class types: the overload for built-in types
      drops it (326-330), so containers write their elements with version 0.
      - pair 257-261, unique_ptr/optional 263-270, shared_ptr 272-295,
        iterables 297-304, enum 306-309, variant 311-324,
        DateTime/TimeSpan: reflector-chronoutilities.h:27-47.
      - std::variant with valueless_by_exception: index() is variant_npos, its
        low byte is written, then std::visit throws std::bad_variant_access.
      - std::string_view is an iterable of char (lib/traits.h:57-59 does not exclude it), so its
        characters are written one by one after their number, which is how strings are written.
      - reading an indeterminate scalar is undefined behaviour. *)
  Definition write_body (w : N -> ty -> val -> list N -> res (bytes * list N))
      (wc : N -> N -> list (fkey * val) -> list N -> res (bytes * list N))
      (ver : N) (t : ty) (v : val) (W : list N) : res (bytes * list N) :=
      match t, v with
      | (TBool | TInt _ | TF32 | TF64 | TEnum _), VUndef => RUB
      | TBool, VBool b => ROk ([mkb (if b then 1 else 0)], W)
      | TInt k, VInt z => if bin_kind k then ROk (wr_int k z, W) else RStuck
      | TEnum k, VInt z => if bin_kind k then ROk (wr_int k z, W) else RStuck
      | TF32, VF32 n => ROk (be 4 n, W)
      | TF64, VF64 n => ROk (be 8 n, W)
      | TString, VStr x => let! bs := wr_string x in ROk (bs, W)
      | TView, VOpt None => let! bs := wr_string [] in ROk (bs, W)
      | TView, VOpt (Some (VStr x)) => let! bs := wr_string x in ROk (bs, W)
      | TDateTime, VInt z => ROk (wr_int KU64 z, W)
      | TTimeSpan, VInt z => ROk (wr_int KI64 z, W)
      | TPair ta tb, VPair a b =>
          let! (ba, W1) := w 0 ta a W in
          let! (bb, W2) := w 0 tb b W1 in
          ROk (ba ++ bb, W2)
      | (TUnique t' | TOptional t'), VOpt None => ROk ([mkb 0], W)
      | (TUnique t' | TOptional t'), VOpt (Some x) =>
          let! (bx, W1) := w 0 t' x W in ROk (mkb 1 :: bx, W1)
      | TShared _, VShared None => ROk ([mkb 0], W)
      | TShared t', VShared (Some a) =>
          if existsb (N.eqb a) W then
            let! hd := wr_ptr_head 2 a in ROk (hd, W)
          else
            let! hd := wr_ptr_head 1 a in
            match hget H a with
            | Some (t'', x) =>
                if ty_eqb t' t'' then
                  let! (bx, W1) := w 0 t' x (a :: W) in ROk (hd ++ bx, W1)
                else RStuck
            | None => RUB (* dangling pointer *)
            end
      | TSeq t', VList l =>
          let! p := wr_varint (N.of_nat (length l)) in
          let! (b, W1) := wr_iter (w 0 t') l W in ROk (p ++ b, W1)
      | TSet _ _ t', VList l =>
          let! p := wr_varint (N.of_nat (length l)) in
          let! (b, W1) := wr_iter (w 0 t') l W in ROk (p ++ b, W1)
      | TMap _ _ kt vt, VList l =>
          let! p := wr_varint (N.of_nat (length l)) in
          let! (b, W1) := wr_iter (w 0 (TPair kt vt)) l W in ROk (p ++ b, W1)
      | TVariant ts, VVar i x =>
          match nth_error ts i with
          | None => RStuck
          | Some TMono => ROk ([mkb (N.of_nat i)], W)
          | Some t' => let! (bx, W1) := w 0 t' x W in ROk (mkb (N.of_nat i) :: bx, W1)
          end
      | TVariant _, VValueless => RThrow ExBadVariant
      | TStruct c, VObj fs => wc ver c fs W
      | _, _ => RStuck
      end.

  (** writeCustomType as generated by
      generator/binaryserializationcodegenerator.cpp:247-299: base classes are
      written with the passed version; then, for versioned classes, the version
      (0 replaced by the default, lib/versioning.h:42-48) is written; then the
      members the version condition of which holds. *)
  Definition write_cls_body (w : N -> ty -> val -> list N -> res (bytes * list N))
      (wc : N -> N -> list (fkey * val) -> list N -> res (bytes * list N))
      (ver : N) (c : N) (fs : list (fkey * val)) (W : list N) : res (bytes * list N) :=
      match g_class G c with
      | None => RStuck
      | Some rc =>
        let p := rc_wr rc in
        let! (bb, W1) := wr_iter (fun b => wc ver b fs) (bp_bases p) W in
        let versioned := negb (bp_vmax p =? 0) in
        let ver' := if versioned && (ver =? 0) then bp_vmax p else ver in
        let! bv := (if versioned then wr_varint ver' else ROk []) in
        let! (bm, W2) := wr_iter (fun fd W =>
            if visible ver' fd then
              match alookup fkey_eqb (bf_key fd) fs with
              | Some v => w ver' (bf_ty fd) v W
              | None => RStuck
              end
            else ROk ([], W)) (bp_fields p) W1 in
        ROk (bb ++ bv ++ bm, W2)
      end.

  (** tie the recursive knot (C++ recursion has no bound; the model counts calls) *)
  Fixpoint write (fuel : nat) (ver : N) (t : ty) (v : val) (W : list N) {struct fuel} : res (bytes * list N) :=
    match fuel with O => RFuel | S f => write_body (write f) (write_cls f) ver t v W end
  with write_cls (fuel : nat) (ver : N) (c : N) (fs : list (fkey * val)) (W : list N) {struct fuel} : res (bytes * list N) :=
    match fuel with O => RFuel | S f => write_cls_body (write f) (write_cls f) ver c fs W end.
End Write.

(** State of the deserializer besides the stream: allocated objects and
    [m_pointer] (lib/binary/reflector.h:96; the std::any holds a shared_ptr, i.e.
    an address and its static type). *)
Record rstate := { r_heap : heap; r_ptr : list (N * (N * ty)) }.

Section Read.
  Variable G : genv.

  (** BinaryDeserializer::read (lib/binary/reflector.h:126-250); [old] is the
      value of the variable read into.
      - pair 126-130, unique_ptr 132-140, shared_ptr 142-164, optional 166-173,
        sequences 175-182, maps 184-192, sets 194-205, enum 207-212,
        variant 214-239, DateTime/TimeSpan: reflector-chronoutilities.h:19-39.
      Simplifications:
      - [resize] and the loop over the elements (178-181) are merged into one
        loop, so the memory exhaustion a huge stored size causes before the
        first element is read is not modelled;
      - objects owned by a shared pointer are stored in the heap when they
        have been read completely (they are not read from before);
      - objects which are not referred to anymore are not freed;
      - a throw discards the partially read state. *)
  Definition read_body (r : N -> ty -> val -> bytes -> rstate -> res (val * bytes * rstate))
      (rc_ : N -> N -> list (fkey * val) -> bytes -> rstate -> res (list (fkey * val) * N * bytes * rstate))
      (ver : N) (t : ty) (old : val) (s : bytes) (st : rstate) : res (val * bytes * rstate) :=
      match t with
      | TBool => let! (n, s1) := rd_byte s in ROk (VBool (negb (n =? 0)), s1, st)
      | TInt k | TEnum k =>
          if bin_kind k then let! (z, s1) := rd_int k s in ROk (VInt z, s1, st) else RStuck
      | TF32 => let! (n, s1) := rd_be 4 s in ROk (VF32 n, s1, st)
      | TF64 => let! (n, s1) := rd_be 8 s in ROk (VF64 n, s1, st)
      | TString => let! (x, s1) := rd_string s in ROk (VStr x, s1, st)
      | TDateTime => let! (z, s1) := rd_int KU64 s in ROk (VInt z, s1, st)
      | TTimeSpan => let! (z, s1) := rd_int KI64 s in ROk (VInt z, s1, st)
      | TPair ta tb =>
          match old with
          | VPair oa ob =>
              let! (a, s1, st1) := r 0 ta oa s st in
              let! (b, s2, st2) := r 0 tb ob s1 st1 in
              ROk (VPair a b, s2, st2)
          | _ => RStuck
          end
      | TUnique t' | TOptional t' =>
          let! (n, s1) := rd_byte s in
          if n =? 0 then ROk (VOpt None, s1, st)
          else let! (x, s2, st2) := r 0 t' (vinit G t') s1 st in ROk (VOpt (Some x), s2, st2)
      | TShared t' =>
          let! (mode, s1) := rd_byte s in
          if mode =? 0 then ROk (VShared None, s1, st)
          else
            let! (id, s2) := (if negb (N.land mode 4 =? 0) then rd_be 8 s1 else rd_varint s1) in
            if N.land mode 3 =? 1 then
              let a := g_alloc G (r_heap st) in
              let st1 := {| r_heap := hset (r_heap st) a (t', vinit G t');
                            r_ptr := (id, (a, t')) :: r_ptr st |} in
              let! (x, s3, st2) := r 0 t' (vinit G t') s2 st1 in
              ROk (VShared (Some a), s3, {| r_heap := hset (r_heap st2) a (t', x); r_ptr := r_ptr st2 |})
            else
              match alookup N.eqb id (r_ptr st) with
              | Some (a, t'') => if ty_eqb t'' t' then ROk (VShared (Some a), s2, st) else RThrow ExConv
              | None => RThrow ExConv
              end
      | TSeq t' =>
          match old with
          | VList olds =>
              let! (n, s1) := rd_varint s in
              let! (_, acc, s2, st2) :=
                loopN n (fun '(os, acc, s, st) =>
                  let o := match os with o :: _ => o | [] => vinit G t' end in
                  let! (x, s', st') := r 0 t' o s st in
                  ROk (tl os, x :: acc, s', st')) (olds, [], s1, st) in
              ROk (VList (rev acc), s2, st2)
          | _ => RStuck
          end
      | TSet ord multi t' =>
          match old with
          | VList olds =>
              let! (n, s1) := rd_varint s in
              let! (l, s2, st2) :=
                loopN n (fun '(l, s, st) =>
                  let! (x, s', st') := r 0 t' (dinit G t') s st in
                  ROk (fst (emplace G false ord multi t' x l), s', st')) (olds, s1, st) in
              ROk (VList l, s2, st2)
          | _ => RStuck
          end
      | TMap ord multi kt vt =>
          match old with
          | VList olds =>
              let! (n, s1) := rd_varint s in
              let! (l, s2, st2) :=
                loopN n (fun '(l, s, st) =>
                  let! (x, s', st') := r 0 (TPair kt vt) (VPair (vinit G kt) (vinit G vt)) s st in
                  ROk (fst (emplace G true ord multi kt x l), s', st')) (olds, s1, st) in
              ROk (VList l, s2, st2)
          | _ => RStuck
          end
      | TVariant ts =>
          let! (i, s1) := rd_byte s in
          match nth_error ts (N.to_nat i) with
          | None => RThrow ExConv
          | Some TMono => ROk (VVar (N.to_nat i) VMono, s1, st)
          | Some t' => let! (x, s2, st2) := r 0 t' (vinit G t') s1 st in
                       ROk (VVar (N.to_nat i) x, s2, st2)
          end
      | TStruct c =>
          match old with
          | VObj os => let! (fs, _, s1, st1) := rc_ ver c os s st in ROk (VObj fs, s1, st1)
          | _ => RStuck
          end
      | TTuple _ | TMono | TView | TCStr => RStuck
      end.

  (** readCustomType as generated by
      generator/binaryserializationcodegenerator.cpp:306-357 (returns the object,
      the determined version, the rest of the stream and the state). *)
  Definition read_cls_body (r : N -> ty -> val -> bytes -> rstate -> res (val * bytes * rstate))
      (rc_ : N -> N -> list (fkey * val) -> bytes -> rstate -> res (list (fkey * val) * N * bytes * rstate))
      (ver : N) (c : N) (os : list (fkey * val)) (s : bytes) (st : rstate)
    : res (list (fkey * val) * N * bytes * rstate) :=
      match g_class G c with
      | None => RStuck
      | Some rc =>
        match rc_rd rc with
        | None => RStuck
        | Some p =>
          let! (os1, s1, st1) := rd_iter (fun b '(os, s, st) =>
              let! (os', _, s', st') := rc_ ver b os s st in ROk (os', s', st'))
            (bp_bases p) (os, s, st) in
          let! (ver', s2) :=
            (if bp_vmax p =? 0 then ROk (ver, s1)
             else let! (v, s') := rd_varint s1 in
                  if v <=? bp_vmax p then ROk (v, s')
                  else RThrow (ExVersion v (bp_vmax p) (rc_name rc))) in
          let! (os3, s3, st3) := rd_iter (fun fd '(os, s, st) =>
              if visible ver' fd then
                match alookup fkey_eqb (bf_key fd) os with
                | Some o =>
                    let! (x, s', st') := r ver' (bf_ty fd) o s st in
                    ROk (aupdate fkey_eqb (bf_key fd) x os, s', st')
                | None => RStuck
                end
              else ROk (os, s, st)) (bp_fields p) (os1, s2, st1) in
          ROk (os3, if bp_ret0 p then 0 else ver', s3, st3)
        end
      end.

  (** tie the recursive knot *)
  Fixpoint read (fuel : nat) (ver : N) (t : ty) (old : val) (s : bytes) (st : rstate) {struct fuel}
    : res (val * bytes * rstate) :=
    match fuel with O => RFuel | S f => read_body (read f) (read_cls f) ver t old s st end
  with read_cls (fuel : nat) (ver : N) (c : N) (os : list (fkey * val)) (s : bytes) (st : rstate) {struct fuel}
    : res (list (fkey * val) * N * bytes * rstate) :=
    match fuel with O => RFuel | S f => read_cls_body (read f) (read_cls f) ver c os s st end.
End Read.

(** BinarySerializable::toBinary (lib/binary/serializable.h:36-39): a new
    serializer (empty pointer table) writes the object. *)
Definition toBinary (G : genv) (H : heap) (fuel : nat) (c : N) (fs : list (fkey * val)) (ver : N) : res bytes :=
  let! (bs, _) := write_cls G H fuel ver c fs [] in ROk bs.

(** BinarySerializable::restoreFromBinary (lib/binary/serializable.h:41-44): a new
    deserializer reads into the object with version 0; returns the version. *)
Definition restoreFromBinary (G : genv) (fuel : nat) (c : N) (os : list (fkey * val)) (s : bytes) (h : heap)
  : res (list (fkey * val) * N * bytes * rstate) :=
  read_cls G fuel 0 c os s {| r_heap := h; r_ptr := [] |}.

(** BinarySerializable::fromBinary (lib/binary/serializable.h:46-51): [Type object;], then
    restoreFromBinary.  The cast at line 49 only compiles for unversioned classes. *)
Definition fromBinary (G : genv) (fuel : nat) (c : N) (s : bytes) (h : heap)
  : res (list (fkey * val) * bytes * rstate) :=
  match g_class G c with
  | Some rc => let! (os, _, r, st) := restoreFromBinary G fuel c (rc_dinit rc) s h in ROk (os, r, st)
  | None => RStuck
  end.

(** Several consecutive [deserializer.read(x)] calls on one BinaryDeserializer
    (lib/binary/reflector.h:60-97: the stream position and [m_pointer] persist). *)
Fixpoint read_values (G : genv) (fuel : nat) (l : list (N * ty * val)) (s : bytes) (st : rstate)
  : res (list val * bytes * rstate) :=
  match l with
  | [] => ROk ([], s, st)
  | (ver, t, old) :: l' =>
      let! (v, s1, st1) := read G fuel ver t old s st in
      let! (vs, s2, st2) := read_values G fuel l' s1 st1 in
      ROk (v :: vs, s2, st2)
  end.

(** Several consecutive [serializer.write(x)] calls on one BinarySerializer
    (lib/binary/reflector.h:99-119). *)
Definition write_values (G : genv) (H : heap) (fuel : nat) (l : list (N * ty * val)) (W : list N) : res (bytes * list N) :=
  wr_iter (fun '(ver, t, v) W => write G H fuel ver t v W) l W.
