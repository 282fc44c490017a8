(** Bytes.v -- the byte-level contract of CppUtilities::BinaryWriter and
    CppUtilities::BinaryReader as used by /repo/lib/binary/reflector.h.

    The two classes are not part of /repo (only #included at
    lib/binary/reflector.h:13-15) and their sources are not available in this
    sandbox; the definitions below are the modelled contract (see DESIGN.md,
    "trusted base").  Expected bytes in lib/tests/binaryreflector.cpp:120-190
    agree with it (checked in Examples.v).

    Streams: an output stream is the list of bytes written; an input stream is
    the list of bytes not read yet.  std::istream/std::ostream are assumed to
    have failbit|badbit exceptions enabled, as in lib/tests/binaryreflector.cpp:
    131-132 and 194-195; reading past the end is then [RThrow ExIo]. *)
From Coq Require Import List NArith ZArith Bool Lia.
From Verif Require Import Base.
Import ListNotations.
Local Open Scope N_scope.

(** big-endian representation of the low [k] bytes of [v]
    (BE::getBytes in CppUtilities; used by writeUInt16BE ... writeUInt64BE) *)
Fixpoint be (k : nat) (v : N) : bytes :=
  match k with
  | O => []
  | S k' => mkb (v / 256 ^ N.of_nat k') :: be k' v
  end.

(** value of a big-endian byte sequence (BE::toInt) *)
Fixpoint be_val (s : bytes) : N :=
  match s with
  | [] => 0
  | b :: s' => bval b * 256 ^ N.of_nat (length s') + be_val s'
  end.

(** std::istream::read of [n] bytes: the bytes and the remaining stream, or an
    std::ios_base::failure if the stream ends before.  *)
Fixpoint takeN (n : N) (s : bytes) : option (bytes * bytes) :=
  if n =? 0 then Some ([], s) else
  match s with
  | [] => None
  | b :: s' => match takeN (N.pred n) s' with
               | Some (t, r) => Some (b :: t, r)
               | None => None
               end
  end.

Definition rd_bytes (n : N) (s : bytes) : res (bytes * bytes) :=
  match takeN n s with Some p => ROk p | None => RThrow ExIo end.

(** readByte(): lib/binary/reflector.h:144, 238 *)
Definition rd_byte (s : bytes) : res (N * bytes) :=
  match s with [] => RThrow ExIo | b :: s' => ROk (bval b, s') end.

(** read{UInt16,UInt32,UInt64}BE() for [k] = 2, 4, 8 (and 1 byte reads) *)
Definition rd_be (k : nat) (s : bytes) : res (N * bytes) :=
  let! (t, s') := rd_bytes (N.of_nat k) s in ROk (be_val t, s').

(** two's complement encoding of [z] in [k] bytes: write(std::int16_t) ... *)
Definition enc_int (k : nat) (z : Z) : bytes :=
  be k (Z.to_N (z mod 2 ^ (8 * Z.of_nat k))%Z).

Definition dec_signed (k : nat) (n : N) : Z :=
  let m := (2 ^ (8 * Z.of_nat k))%Z in
  if (Z.of_N n <? m / 2)%Z then Z.of_N n else (Z.of_N n - m)%Z.

(** BinaryWriter::writeVariableLengthUIntBE (called at lib/binary/reflector.h:
    289, 300): [boundCheck] starts at 0x80 and is shifted left by 7 until it is
    0x8000000000000000; the value is written in the first size it fits, with
    the bit [boundCheck] set; a ConversionException is thrown if it fits none. *)
Fixpoint wr_varint_from (left k : nat) (v : N) : res bytes :=
  match left with
  | O => RThrow ExConv
  | S left' =>
      let boundCheck := 2 ^ (7 * N.of_nat k) in
      if v <? boundCheck then ROk (be k (N.lor v boundCheck))
      else wr_varint_from left' (S k) v
  end.
Definition wr_varint (v : N) : res bytes := wr_varint_from 8 1 v.

(** BinaryReader::readVariableLengthUIntBE (called at lib/binary/reflector.h:
    151, 177, 186, 199): the number of leading zero bits of the first byte
    (peeked) determines the length; more than 7 leading zeros throw a
    ConversionException before anything is consumed; the marker bit is then
    removed from the first byte by xor. *)
Fixpoint prefix_len (left k : nat) (mask b : N) : option (nat * N) :=
  match left with
  | O => None
  | S left' => if N.land b mask =? 0 then prefix_len left' (S k) (N.shiftr mask 1) b
               else Some (k, mask)
  end.

Definition rd_varint (s : bytes) : res (N * bytes) :=
  match s with
  | [] => RThrow ExIo
  | b :: _ =>
      match prefix_len 8 1 128 (bval b) with
      | None => RThrow ExConv
      | Some (k, mask) =>
          let! (t, s') := rd_bytes (N.of_nat k) s in
          match t with
          | [] => RStuck (* k >= 1, never happens *)
          | b0 :: t' => ROk (be_val (mkb (N.lxor (bval b0) mask) :: t'), s')
          end
      end
  end.

(** BinaryReader::readString / BinaryWriter::writeString: length prefix + bytes
    (write(std::string) / read(std::string &) which lib/binary/reflector.h
    inherits at 79 and 106) *)
Definition wr_string (x : bytes) : res bytes :=
  let! p := wr_varint (N.of_nat (length x)) in ROk (p ++ x).
Definition rd_string (s : bytes) : res (bytes * bytes) :=
  let! (n, s1) := rd_varint s in rd_bytes n s1.
