(** Model of the scalar codecs of package ztype. *)

Require Import ZArith List Bool.
From Verif Require Import Bits Stream.
Import ListNotations.
Open Scope Z_scope.
Open Scope io_scope.

(** ** Fixed-width integers *)

(** Go's [1 << s] in a uint64 (int64) context; shifting by 64 or more gives 0. *)
Definition shl1_u64 (s : Z) : Z := u64 (Z.shiftl 1 s).
Definition shl1_i64 (s : Z) : Z := i64 (Z.shiftl 1 s).

(** WriteUnsignedBits (ztype/bits_encode.go:14-19). [bits] is a uint8. *)
Definition WriteUnsignedBits (value bits : Z) : writer unit :=
  if u64 (shl1_u64 bits - 1) <? value then werr ErrValueOutOfBitRange
  else write_bits value (Z.to_nat bits).

(** WriteSignedBits (ztype/bits_encode.go:22-38). [bits - 1] is a uint8
    subtraction, the limits and [value + (1 << bits)] are int64 arithmetic. *)
Definition WriteSignedBits (value bits : Z) : writer unit :=
  if 64 <? bits then wpanic
  else
    let min := i64 (- shl1_i64 (to_u 8 (bits - 1))) in
    let max := i64 (shl1_i64 (to_u 8 (bits - 1)) - 1) in
    if (value <? min) || (max <? value) then werr ErrValueOutOfBitRange
    else if 0 <=? value then write_bits (u64 value) (Z.to_nat bits)
    else
      let v := Z.lor (shl1_u64 bits) (u64 (i64 (value + shl1_i64 bits))) in
      write_bits v (Z.to_nat bits).

(** WriteUint8 ... WriteInt64 (ztype/bits_encode.go:41-78). *)
Definition WriteUint8 (v : Z) := WriteUnsignedBits v 8.
Definition WriteUint16 (v : Z) := WriteUnsignedBits v 16.
Definition WriteUint32 (v : Z) := WriteUnsignedBits v 32.
Definition WriteUint64 (v : Z) := WriteUnsignedBits v 64.
Definition WriteInt8 (v : Z) := WriteSignedBits v 8.
Definition WriteInt16 (v : Z) := WriteSignedBits v 16.
Definition WriteInt32 (v : Z) := WriteSignedBits v 32.
Definition WriteInt64 (v : Z) := WriteSignedBits v 64.

(** ReadUnsignedBits (ztype/bits_decode.go:6-8). *)
Definition ReadUnsignedBits (bits : Z) : reader Z := read_bits (Z.to_nat bits).

(** ReadSignedBits (ztype/bits_decode.go:11-25). *)
Definition ReadSignedBits (bits : Z) : reader Z :=
  if 64 <? bits then rpanic
  else
    u <-r read_bits (Z.to_nat bits);
    if negb (Z.land u (shl1_u64 (to_u 8 (bits - 1))) =? 0)
    then rret (i64 (i64 u - shl1_i64 bits))
    else rret (i64 u).

(** ReadUint8 ... ReadInt64 (ztype/bits_decode.go:28-73).  When the read fails
    the Go functions return a converted 0 beside the error; only the error is
    modelled. *)
Definition ReadUint8 : reader Z := v <-r ReadUnsignedBits 8; rret (to_u 8 v).
Definition ReadUint16 : reader Z := v <-r ReadUnsignedBits 16; rret (to_u 16 v).
Definition ReadUint32 : reader Z := v <-r ReadUnsignedBits 32; rret (to_u 32 v).
Definition ReadUint64 : reader Z := v <-r ReadUnsignedBits 64; rret (to_u 64 v).
Definition ReadInt8 : reader Z := v <-r ReadSignedBits 8; rret (to_s 8 v).
Definition ReadInt16 : reader Z := v <-r ReadSignedBits 16; rret (to_s 16 v).
Definition ReadInt32 : reader Z := v <-r ReadSignedBits 32; rret (to_s 32 v).
Definition ReadInt64 : reader Z := v <-r ReadSignedBits 64; rret (to_s 64 v).

(** ReadBool, WriteBool (ztype/bool_decode.go:6-8, ztype/bool_encode.go:6-8). *)
Definition ReadBool : reader bool := read_bool.
Definition WriteBool (b : bool) : writer unit := write_bool b.

(** ** Limits (ztype/limits.go:24-43) *)
Definition MaxVarint16 : Z := 2 ^ 14 - 1.
Definition MaxVarint32 : Z := 2 ^ 28 - 1.
Definition MaxVarint64 : Z := 2 ^ 56 - 1.
Definition MaxInt64 : Z := 2 ^ 63 - 1.
Definition MinInt64 : Z := - 2 ^ 63.
Definition MaxVaruint16 : Z := 2 ^ 15 - 1.
Definition MaxVaruint32 : Z := 2 ^ 29 - 1.
Definition MaxVaruint64 : Z := 2 ^ 57 - 1.
Definition MaxUint64 : Z := 2 ^ 64 - 1.
Definition MaxVarsize : Z := 2 ^ 31 - 1.

(** ** Variable-length unsigned integers *)

(** The loop of UnsignedBitSize (ztype/varuint_encode.go:95-110); [fuel] counts
    the remaining increments of [bytes] before it exceeds [maxBytes], so that
    running out of fuel is the [bytes > maxBytes] exit. *)
Fixpoint unsignedBitSize_loop (fuel : nat) (v maxBytes bytes max : Z) : outcome Z :=
  if v <=? max then Ok (bytes * 8)
  else
    let bytes' := bytes + 1 in
    match fuel with
    | O => Err ErrOutOfBounds
    | S fuel' =>
        let max' := if bytes' =? maxBytes
                    then Z.lor (u64 (Z.shiftl max 8)) 255
                    else Z.lor (u64 (Z.shiftl max 7)) 255 in
        unsignedBitSize_loop fuel' v maxBytes bytes' max'
    end.

(** UnsignedBitSize (ztype/varuint_encode.go:83-111). *)
Definition UnsignedBitSize (v maxBytes : Z) : outcome Z :=
  unsignedBitSize_loop (Z.to_nat (maxBytes - 1)) v maxBytes 1 127.

(** One iteration of the loop of writeVarUint: the byte for index [i]
    (ztype/varuint_encode.go:60-73). *)
Definition varuint_byte (v neededBytes maxBytes i : Z) : Z :=
  let needsMaxByteRange := neededBytes =? maxBytes in
  let hasNextByte := i <? neededBytes - 1 in
  let remainingBits := if hasNextByte then 7 else if needsMaxByteRange then 8 else 7 in
  let b := if hasNextByte then 128 else 0 in
  let shiftBits := (neededBytes - (i + 1)) * 7
                   + (if needsMaxByteRange && hasNextByte then 1 else 0) in
  Z.lor b (Z.land (Z.shiftr v shiftBits) (Z.shiftr 255 (8 - remainingBits))).

(** The write loop shared by writeVarUint and writeVarInt
    (ztype/varuint_encode.go:59-78, ztype/varint_encode.go:49-75): after the
    first error the remaining iterations write nothing. *)
Fixpoint write_loop (byte : Z -> Z) (k : nat) (i : Z) (err : outcome unit) : writer unit :=
  match k with
  | O => fun w => (w, err)
  | S k' =>
      match err with
      | Ok _ => fun w => let (w', err') := write_byte (byte i) w in
                         write_loop byte k' (i + 1) err' w'
      | _ => write_loop byte k' (i + 1) err
      end
  end.

(** writeVarUint (ztype/varuint_encode.go:52-79). *)
Definition writeVarUint (v maxBytes : Z) : writer unit :=
  match UnsignedBitSize v maxBytes with
  | Ok size =>
      let neededBytes := size / 8 in
      write_loop (varuint_byte v neededBytes maxBytes) (Z.to_nat neededBytes) 0 (Ok tt)
  | Err e => werr e
  | Panic => wpanic
  | NoFuel => wpanic
  end.

(** WriteVaruint16/32/64, WriteVaruint (ztype/varuint_encode.go:17-40). *)
Definition WriteVaruint16 (v : Z) := writeVarUint v 2.
Definition WriteVaruint32 (v : Z) := writeVarUint v 4.
Definition WriteVaruint64 (v : Z) := writeVarUint v 8.
Definition WriteVaruint (v : Z) := writeVarUint v 9.

(** WriteVarsize (ztype/varuint_encode.go:45-50). *)
Definition WriteVarsize (v : Z) : writer unit :=
  if MaxVarsize <? v then werr ErrOutOfBounds else writeVarUint v 5.

(** The loop over the middle bytes shared by all varuint and varint readers:
    [k] iterations at most (ztype/varuint_decode.go:30-39 and its siblings).
    [conv] is the Go conversion of the accumulator type. *)
Fixpoint read_middle (conv : Z -> Z) (k : nat) (v : Z) (hasNext : bool) : reader (Z * bool) :=
  match k with
  | O => rret (v, hasNext)
  | S k' =>
      if hasNext then
        b <-r read_byte;
        read_middle conv k' (Z.lor (conv (Z.shiftl v 7)) (Z.land b 127))
                    (negb (Z.land b 128 =? 0))
      else rret (v, hasNext)
  end.

(** The optional last byte with 8 value bits (ztype/varuint_decode.go:40-46). *)
Definition read_last (conv : Z -> Z) (v : Z) (hasNext : bool) : reader Z :=
  if hasNext then
    b <-r read_byte; rret (Z.lor (conv (Z.shiftl v 8)) b)
  else rret v.

(** Body of the unsigned readers with [k] middle bytes.  ReadVaruint16
    (ztype/varuint_decode.go:6-19) has no middle bytes. *)
Definition read_varuint (conv : Z -> Z) (k : nat) : reader Z :=
  b <-r read_byte;
  vh <-r read_middle conv k (Z.land b 127) (negb (Z.land b 128 =? 0));
  read_last conv (fst vh) (snd vh).

(** ReadVaruint16/32/64, ReadVaruint (ztype/varuint_decode.go:6-116). *)
Definition ReadVaruint16 : reader Z := read_varuint (to_u 16) 0.
Definition ReadVaruint32 : reader Z := read_varuint (to_u 32) 2.
Definition ReadVaruint64 : reader Z := read_varuint (to_u 64) 6.
Definition ReadVaruint : reader Z := read_varuint (to_u 64) 7.

(** ReadVarsize (ztype/varuint_decode.go:119-148). *)
Definition ReadVarsize : reader Z :=
  v <-r read_varuint (to_u 64) 3;
  if MaxVarsize <? v then rerr ErrOutOfBounds else rret v.

(** NumBits (ztype/varuint_encode.go:116-125). *)
Definition NumBits (v : Z) : Z :=
  if v =? 0 then 0 else if v =? 1 then 1 else len64 (u64 (v - 1)).

(** ** Variable-length signed integers *)

(** The loop of SignedBitSize (ztype/varint_encode.go:88-103); [max] is an
    int64. *)
Fixpoint signedBitSize_loop (fuel : nat) (v maxBytes bytes max : Z) : outcome Z :=
  if v <=? max then Ok (bytes * 8)
  else
    let bytes' := bytes + 1 in
    match fuel with
    | O => Err ErrOutOfBounds
    | S fuel' =>
        let max' := if bytes' =? maxBytes
                    then Z.lor (i64 (Z.shiftl max 8)) 255
                    else Z.lor (i64 (Z.shiftl max 7)) 255 in
        signedBitSize_loop fuel' v maxBytes bytes' max'
    end.

(** SignedBitSize (ztype/varint_encode.go:80-104).  Negating MinInt64 wraps. *)
Definition SignedBitSize (v maxBytes : Z) : outcome Z :=
  let v' := if v <? 0 then i64 (- v) else v in
  signedBitSize_loop (Z.to_nat (maxBytes - 1)) v' maxBytes 1 63.

(** One iteration of the loop of writeVarInt (ztype/varint_encode.go:50-70). *)
Definition varint_byte (negative : bool) (absValue neededBytes maxBytes i : Z) : Z :=
  let needsMaxByteRange := neededBytes =? maxBytes in
  let hasNextByte := i <? neededBytes - 1 in
  let hasSignBit := i =? 0 in
  let b0 := if hasSignBit && negative then 128 else 0 in
  let remaining0 := if hasSignBit then 7 else 8 in
  let remainingBits := if hasNextByte then remaining0 - 1
                       else if needsMaxByteRange then remaining0 else remaining0 - 1 in
  let b1 := if hasNextByte then Z.lor b0 (Z.shiftl 1 remainingBits) else b0 in
  let shiftBits := (neededBytes - (i + 1)) * 7
                   + (if needsMaxByteRange && hasNextByte then 1 else 0) in
  Z.lor b1 (Z.land (Z.shiftr absValue shiftBits) (Z.shiftr 255 (8 - remainingBits))).

(** writeVarInt (ztype/varint_encode.go:36-76). *)
Definition writeVarInt (v maxBytes : Z) : writer unit :=
  let absValue := if v <? 0 then u64 (i64 (- v)) else u64 v in
  match SignedBitSize v maxBytes with
  | Ok size =>
      let neededBytes := size / 8 in
      write_loop (varint_byte (v <? 0) absValue neededBytes maxBytes)
                 (Z.to_nat neededBytes) 0 (Ok tt)
  | Err e => werr e
  | Panic => wpanic
  | NoFuel => wpanic
  end.

(** WriteVarint16/32/64 (ztype/varint_encode.go:8-24). *)
Definition WriteVarint16 (v : Z) := writeVarInt v 2.
Definition WriteVarint32 (v : Z) := writeVarInt v 4.
Definition WriteVarint64 (v : Z) := writeVarInt v 8.

(** WriteVarint (ztype/varint_encode.go:29-34). *)
Definition WriteVarint (v : Z) : writer unit :=
  if v =? MinInt64 then write_byte 128 else writeVarInt v 9.

(** Body of the signed readers after the first byte (ztype/varint_decode.go:11-22,
    31-55, 64-93, 106-135); [conv] converts to the accumulator type. *)
Definition read_varint_from (conv : Z -> Z) (k : nat) (b : Z) : reader Z :=
  let isNegative := negb (Z.land b 128 =? 0) in
  vh <-r read_middle conv k (Z.land b 63) (negb (Z.land b 64 =? 0));
  v <-r read_last conv (fst vh) (snd vh);
  rret (if isNegative then conv (- v) else v).

(** ReadVarint16/32/64 (ztype/varint_decode.go:6-94). *)
Definition ReadVarint16 : reader Z := b <-r read_byte; read_varint_from (to_s 16) 0 b.
Definition ReadVarint32 : reader Z := b <-r read_byte; read_varint_from (to_s 32) 2 b.
Definition ReadVarint64 : reader Z := b <-r read_byte; read_varint_from (to_s 64) 6 b.

(** ReadVarint (ztype/varint_decode.go:97-136). *)
Definition ReadVarint : reader Z :=
  b <-r read_byte;
  if b =? 128 then rret MinInt64 else read_varint_from (to_s 64) 7 b.

(** ** Strings, byte buffers, bit buffers *)

(** WriteString (ztype/string_encode.go:6-12).  A Go string is its bytes. *)
Definition WriteString (s : list Z) : writer unit :=
  WriteVarsize (Z.of_nat (length s)) ;;w write_bytes s.

(** ReadString (ztype/string_decode.go:10-20). *)
Definition ReadString : reader (list Z) :=
  size <-r ReadVarsize; read_full size.

(** BitSizeOfString (ztype/string_encode.go:15-22). *)
Definition BitSizeOfString (s : list Z) : outcome Z :=
  match UnsignedBitSize (Z.of_nat (length s)) 5 with
  | Ok headerSize => Ok (headerSize + Z.of_nat (length s) * 8)
  | Err e => Err e | Panic => Panic | NoFuel => NoFuel
  end.

(** WriteBytes (ztype/bytes_encode.go:6-15) of a BytesType with the given
    ByteSize and Buffer (ztype/bytes.go:4-10). *)
Definition WriteBytes (byteSize : Z) (buffer : list Z) : writer unit :=
  WriteVarsize byteSize ;;w write_bytes buffer.

(** ReadBytes (ztype/bytes_decode.go:11-28).  io.ReadFull returns a nil error
    only with a full buffer, so the length check at 24-26 never fires. *)
Definition ReadBytes : reader (Z * list Z) :=
  byteSize <-r ReadVarsize;
  buffer <-r read_full byteSize;
  rret (byteSize, buffer).

(** WriteExtern (ztype/extern_encode.go:6-28) of an ExternType with the given
    BitSize and Buffer (ztype/extern.go:4-10).  Simplification: the slice
    expression Buffer[0:n] is taken to panic when n exceeds the length of the
    buffer, i.e. capacity is taken to equal length. *)
Definition WriteExtern (bitSize : Z) (buffer : list Z) : writer unit :=
  WriteVarsize bitSize ;;w
  let numOfFullBytes := bitSize / 8 in
  let remainingBits := bitSize mod 8 in
  if Z.of_nat (length buffer) <? numOfFullBytes then wpanic
  else
    write_bytes (firstn (Z.to_nat numOfFullBytes) buffer) ;;w
    if remainingBits =? 0 then wret tt
    else match rev buffer with
         | [] => wpanic
         | lastByte :: _ =>
             write_bits (Z.shiftr lastByte (8 - remainingBits)) (Z.to_nat remainingBits)
         end.

(** ReadExtern (ztype/extern_decode.go:11-39). *)
Definition ReadExtern : reader (Z * list Z) :=
  bitSize <-r ReadVarsize;
  let numOfFullBytes := bitSize / 8 in
  let remainingBits := bitSize mod 8 in
  buffer <-r read_full numOfFullBytes;
  if remainingBits =? 0 then rret (bitSize, buffer)
  else
    lastByte <-r read_bits (Z.to_nat remainingBits);
    rret (bitSize, buffer ++ [to_u 8 (u64 (Z.shiftl lastByte (8 - remainingBits)))]).

(** ** Floating point numbers *)

(** WriteFloat32/64, ReadFloat32/64 (ztype/float_encode.go:17-24,
    ztype/float_decode.go:20-31): encoding/binary writes the IEEE bit pattern
    big-endian in one Write and reads it with io.ReadFull.  A float is modelled
    by its bit pattern. *)
Fixpoint be_bytes (k : nat) (v : Z) : list Z :=
  match k with
  | O => []
  | S k' => Z.shiftr v (8 * Z.of_nat k') mod 256 :: be_bytes k' v
  end.
Definition be_value (l : list Z) : Z := fold_left (fun a b => 256 * a + b) l 0.

Definition WriteFloat32 (pattern : Z) : writer unit := write_bytes (be_bytes 4 pattern).
Definition WriteFloat64 (pattern : Z) : writer unit := write_bytes (be_bytes 8 pattern).
Definition ReadFloat32 : reader Z := l <-r read_full 4; rret (be_value l).
Definition ReadFloat64 : reader Z := l <-r read_full 8; rret (be_value l).
