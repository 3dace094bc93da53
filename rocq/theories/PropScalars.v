(** Properties C01-C11: scalar codecs (package ztype). *)

Require Import ZArith List Bool.
From Verif Require Import Bits Stream Spec Scalars FixedFacts VarFacts PrefixFacts
  ScalarFacts ScalarTable ScalarThms.
Import ListNotations.
Open Scope Z_scope.

(** ** C01 *)

(** In range: exactly the n bits of v, most significant first, and back. *)
Theorem C01_unsigned_roundtrip : forall v n, 1 <= n <= 64 -> 0 <= v < 2 ^ n ->
  roundtrips (WriteUnsignedBits v n) (ReadUnsignedBits n) (bits_of (Z.to_nat n) v) v.
Proof.
  exact (fun v n Hn Hv => conj
    (WriteUnsignedBits_ok v n (conj (Z.le_trans _ _ _ Z.le_0_1 (proj1 Hn)) (proj2 Hn)) Hv)
    (ReadUnsignedBits_ok v n (conj (Z.le_trans _ _ _ Z.le_0_1 (proj1 Hn)) (proj2 Hn)) Hv)).
Qed.
Print Assumptions C01_unsigned_roundtrip.

(** Out of range: an error and no output. *)
Theorem C01_unsigned_rejects : forall v n, 1 <= n <= 64 -> 2 ^ n <= v < 2 ^ 64 ->
  rejects (WriteUnsignedBits v n) ErrValueOutOfBitRange.
Proof.
  exact (fun v n Hn Hv =>
    WriteUnsignedBits_rejects v n (conj (Z.le_trans _ _ _ Z.le_0_1 (proj1 Hn)) (proj2 Hn)) (proj1 Hv)).
Qed.
Print Assumptions C01_unsigned_rejects.

(** The standard widths accept every value of their Go type. *)
Theorem C01_uint_types : forall v,
  (in_u 8 v -> roundtrips (WriteUint8 v) ReadUint8 (bits_of 8 v) v) /\
  (in_u 16 v -> roundtrips (WriteUint16 v) ReadUint16 (bits_of 16 v) v) /\
  (in_u 32 v -> roundtrips (WriteUint32 v) ReadUint32 (bits_of 32 v) v) /\
  (in_u 64 v -> roundtrips (WriteUint64 v) ReadUint64 (bits_of 64 v) v).
Proof. exact uint_types_rt. Qed.
Print Assumptions C01_uint_types.

Example C01_applies : 1 <= 11 <= 64 /\ 0 <= 1337 < 2 ^ 11 /\
  bits_of (Z.to_nat 11) 1337 =
  [true; false; true; false; false; true; true; true; false; false; true].
Proof. vm_compute. repeat split; discriminate. Qed.
Example C01_rejects_applies : 1 <= 11 <= 64 /\ 2 ^ 11 <= 2048 < 2 ^ 64.
Proof. vm_compute. repeat split; discriminate. Qed.

(** ** C02 *)

Theorem C02_signed_roundtrip : forall v n, 1 <= n <= 64 -> - 2 ^ (n - 1) <= v < 2 ^ (n - 1) ->
  roundtrips (WriteSignedBits v n) (ReadSignedBits n) (bits_of (Z.to_nat n) (v mod 2 ^ n)) v.
Proof. exact signed_roundtrip_mod. Qed.
Print Assumptions C02_signed_roundtrip.

Theorem C02_signed_rejects : forall v n, 1 <= n <= 64 ->
  v < - 2 ^ (n - 1) \/ 2 ^ (n - 1) <= v ->
  rejects (WriteSignedBits v n) ErrValueOutOfBitRange.
Proof. exact WriteSignedBits_rejects. Qed.
Print Assumptions C02_signed_rejects.

Theorem C02_int_types : forall v,
  (in_s 8 v -> roundtrips (WriteInt8 v) ReadInt8 (bits_of 8 (v mod 2 ^ 8)) v) /\
  (in_s 16 v -> roundtrips (WriteInt16 v) ReadInt16 (bits_of 16 (v mod 2 ^ 16)) v) /\
  (in_s 32 v -> roundtrips (WriteInt32 v) ReadInt32 (bits_of 32 (v mod 2 ^ 32)) v) /\
  (in_s 64 v -> roundtrips (WriteInt64 v) ReadInt64 (bits_of 64 (v mod 2 ^ 64)) v).
Proof. exact int_types_rt. Qed.
Print Assumptions C02_int_types.

Example C02_applies : 1 <= 5 <= 64 /\ - 2 ^ (5 - 1) <= -11 < 2 ^ (5 - 1) /\
  bits_of (Z.to_nat 5) (-11 mod 2 ^ 5) = [true; false; true; false; true].
Proof. vm_compute. repeat split; discriminate. Qed.
Example C02_rejects_applies : -17 < - 2 ^ (5 - 1) /\ 2 ^ (5 - 1) <= 16.
Proof. vm_compute. repeat split; discriminate. Qed.

(** ** C03 *)

(** The encoding is the wire format of Spec.v with the fewest possible bytes. *)
Theorem C03_varuint16 : forall v, 0 <= v <= 2 ^ 15 - 1 -> exists k, ushortest v k 2 /\
  roundtrips (WriteVaruint16 v) ReadVaruint16 (uwire v k 2) v.
Proof. exact varuint16_rt'. Qed.
Print Assumptions C03_varuint16.

Theorem C03_varuint32 : forall v, 0 <= v <= 2 ^ 29 - 1 -> exists k, ushortest v k 4 /\
  roundtrips (WriteVaruint32 v) ReadVaruint32 (uwire v k 4) v.
Proof. exact varuint32_rt'. Qed.
Print Assumptions C03_varuint32.

Theorem C03_varuint64 : forall v, 0 <= v <= 2 ^ 57 - 1 -> exists k, ushortest v k 8 /\
  roundtrips (WriteVaruint64 v) ReadVaruint64 (uwire v k 8) v.
Proof. exact varuint64_rt'. Qed.
Print Assumptions C03_varuint64.

Theorem C03_varuint : forall v, 0 <= v <= 2 ^ 64 - 1 -> exists k, ushortest v k 9 /\
  roundtrips (WriteVaruint v) ReadVaruint (uwire v k 9) v.
Proof. exact varuint_rt'. Qed.
Print Assumptions C03_varuint.

Theorem C03_rejects : forall v,
  (2 ^ 15 <= v < 2 ^ 16 -> rejects (WriteVaruint16 v) ErrOutOfBounds) /\
  (2 ^ 29 <= v < 2 ^ 32 -> rejects (WriteVaruint32 v) ErrOutOfBounds) /\
  (2 ^ 57 <= v < 2 ^ 64 -> rejects (WriteVaruint64 v) ErrOutOfBounds).
Proof. exact varuint_rejects'. Qed.
Print Assumptions C03_rejects.

Example C03_applies : ushortest 300 2 4 /\ uwire 300 2 4 = bytes_bits [130; 44]
  /\ ushortest (2 ^ 28) 4 4 /\ uwire (2 ^ 28) 4 4 = bytes_bits [192; 128; 128; 0].
Proof.
  vm_compute.
  repeat split; try reflexivity; try discriminate; right; discriminate.
Qed.

(** ** C04 *)

Theorem C04_varint16 : forall v, - (2 ^ 14 - 1) <= v <= 2 ^ 14 - 1 -> exists k, sshortest v k 2 /\
  roundtrips (WriteVarint16 v) ReadVarint16 (swire v k 2) v.
Proof. exact varint16_rt'. Qed.
Print Assumptions C04_varint16.

Theorem C04_varint32 : forall v, - (2 ^ 28 - 1) <= v <= 2 ^ 28 - 1 -> exists k, sshortest v k 4 /\
  roundtrips (WriteVarint32 v) ReadVarint32 (swire v k 4) v.
Proof. exact varint32_rt'. Qed.
Print Assumptions C04_varint32.

Theorem C04_varint64 : forall v, - (2 ^ 56 - 1) <= v <= 2 ^ 56 - 1 -> exists k, sshortest v k 8 /\
  roundtrips (WriteVarint64 v) ReadVarint64 (swire v k 8) v.
Proof. exact varint64_rt'. Qed.
Print Assumptions C04_varint64.

(** varint covers every int64; the minimum is the single byte 0x80. *)
Theorem C04_varint : forall v, in_s 64 v ->
  (v <> - 2 ^ 63 -> exists k, sshortest v k 9 /\
     roundtrips (WriteVarint v) ReadVarint (swire v k 9) v) /\
  (v = - 2 ^ 63 -> roundtrips (WriteVarint v) ReadVarint (bits_of 8 128) v).
Proof. exact varint_rt'. Qed.
Print Assumptions C04_varint.

Theorem C04_rejects : forall v,
  (in_s 16 v -> 2 ^ 14 <= Z.abs v -> rejects (WriteVarint16 v) ErrOutOfBounds) /\
  (in_s 32 v -> 2 ^ 28 <= Z.abs v -> rejects (WriteVarint32 v) ErrOutOfBounds) /\
  (in_s 64 v -> 2 ^ 56 <= Z.abs v -> v <> - 2 ^ 63 -> rejects (WriteVarint64 v) ErrOutOfBounds).
Proof. exact varint_rejects'. Qed.
Print Assumptions C04_rejects.

(** The exception: an out-of-range value that is accepted and read back as 0. *)
Theorem C04_varint64_min_refuted : exists v bs, in_s 64 v /\ 2 ^ 56 <= Z.abs v /\
  encodes (WriteVarint64 v) bs /\ decodes ReadVarint64 bs 0 /\ v <> 0.
Proof. exact varint64_min_exception. Qed.
Print Assumptions C04_varint64_min_refuted.

Example C04_applies : sshortest (-100) 2 4 /\ swire (-100) 2 4 = bytes_bits [192; 100].
Proof. vm_compute. repeat split; try reflexivity; try discriminate; right; discriminate. Qed.

(** ** C05 *)

Theorem C05_varsize_roundtrip : forall v, 0 <= v <= 2 ^ 31 - 1 -> exists k, ushortest v k 5 /\
  roundtrips (WriteVarsize v) ReadVarsize (uwire v k 5) v.
Proof. exact varsize_rt'. Qed.
Print Assumptions C05_varsize_roundtrip.

Theorem C05_varsize_writer_rejects : forall v, 2 ^ 31 <= v < 2 ^ 64 ->
  rejects (WriteVarsize v) ErrOutOfBounds.
Proof. exact varsize_rejects'. Qed.
Print Assumptions C05_varsize_writer_rejects.

Theorem C05_varsize_reader_bound : forall r r' v, ReadVarsize r = (r', Ok v) -> 0 <= v <= 2 ^ 31 - 1.
Proof. exact ReadVarsize_range. Qed.
Print Assumptions C05_varsize_reader_bound.

(** The five byte format can express numbers up to 2^36-1: those are refused. *)
Theorem C05_varsize_reader_rejects : forall v k, 2 ^ 31 <= v < 2 ^ 36 -> ushortest v k 5 ->
  forall pos rest, exists r, ReadVarsize (mkR pos (uwire v k 5 ++ rest)) = (r, Err ErrOutOfBounds).
Proof. exact varsize_refuses'. Qed.
Print Assumptions C05_varsize_reader_rejects.

Example C05_applies : ushortest (2 ^ 31) 5 5 /\
  uwire (2 ^ 31) 5 5 = bytes_bits [132; 128; 128; 128; 0].
Proof. vm_compute. repeat split; try reflexivity; try discriminate; right; discriminate. Qed.

(** ** C06 *)

Theorem C06_unsigned_size_exact : forall v m, 0 <= v < 2 ^ 64 -> limit m ->
  match UnsignedBitSize v m with
  | Ok s => exists bs, encodes (writeVarUint v m) bs /\ Z.of_nat (length bs) = s
  | Err e => rejects (writeVarUint v m) e
  | _ => False
  end.
Proof. exact unsigned_size_exact. Qed.
Print Assumptions C06_unsigned_size_exact.

Theorem C06_signed_size_exact : forall v m, in_s 64 v -> limit m ->
  match SignedBitSize v m with
  | Ok s => exists bs, encodes (writeVarInt v m) bs /\ Z.of_nat (length bs) = s
  | Err e => rejects (writeVarInt v m) e
  | _ => False
  end.
Proof. exact signed_size_exact. Qed.
Print Assumptions C06_signed_size_exact.

(** Whatever bytes make a reader return v, they are at least as many. *)
Theorem C06_unsigned_shortest : forall rd m, unsigned_var_reader rd m ->
  forall v s r r', UnsignedBitSize v m = Ok s -> rd r = (r', Ok v) -> s <= consumed r r'.
Proof. exact unsigned_readers_shortest. Qed.
Print Assumptions C06_unsigned_shortest.

Theorem C06_signed_shortest : forall rd m, signed_var_reader rd m ->
  forall v s r r', in_s 64 v -> SignedBitSize v m = Ok s -> rd r = (r', Ok v) -> s <= consumed r r'.
Proof. exact signed_readers_shortest. Qed.
Print Assumptions C06_signed_shortest.

Example C06_applies : UnsignedBitSize 300 4 = Ok 16 /\ SignedBitSize (-100) 4 = Ok 16 /\
  (* a longer, non-canonical encoding of 5 is readable: 16 bits instead of 8 *)
  (exists r r', ReadVaruint32 r = (r', Ok 5) /\ consumed r r' = 16 /\ UnsignedBitSize 5 4 = Ok 8).
Proof.
  repeat split. exists (mkR 0 (bytes_bits [128; 5])). eexists. vm_compute. repeat split.
Qed.

(** ** C07 *)

(** For every scalar type: different values, different and prefix-free encodings. *)
Theorem C07_prefix_free : forall A w r P, scalar_type A w r P ->
  forall a1 a2 b1 b2, P a1 -> P a2 -> a1 <> a2 ->
  encodes (w a1) b1 -> encodes (w a2) b2 -> prefix_free b1 b2.
Proof. exact scalar_prefix_free. Qed.
Print Assumptions C07_prefix_free.

(** A sequence of values has only one decoding. *)
Theorem C07_sequence_unique : forall A w r P, scalar_type A w r P ->
  forall l1 l2 b1 b2 t1 t2, Forall P l1 -> Forall P l2 -> length l1 = length l2 ->
  encodes (write_all w l1) b1 -> encodes (write_all w l2) b2 -> b1 ++ t1 = b2 ++ t2 -> l1 = l2.
Proof. exact scalar_sequence_unique. Qed.
Print Assumptions C07_sequence_unique.

(** Every scalar type round-trips on its whole range. *)
Theorem C07_scalar_roundtrip : forall A w r P, scalar_type A w r P ->
  forall a, P a -> exists bs, roundtrips (w a) r bs a.
Proof. exact scalar_roundtrip. Qed.
Print Assumptions C07_scalar_roundtrip.

Example C07_applies : (0 <= 1 <= MaxVaruint16 /\ 0 <= 200 <= MaxVaruint16) /\
  wbits (fst (WriteVaruint16 1 (mkW [] []))) = bytes_bits [1] /\
  wbits (fst (WriteVaruint16 200 (mkW [] []))) = bytes_bits [128; 200].
Proof. vm_compute. repeat split; try reflexivity; discriminate. Qed.

(** ** C08 *)

Theorem C08_string : forall s, Forall is_byte s -> Z.of_nat (length s) <= 2 ^ 31 - 1 ->
  exists bs, roundtrips (WriteString s) ReadString bs s /\ BitSizeOfString s = Ok (Z.of_nat (length bs)).
Proof. exact WriteString_rt. Qed.
Print Assumptions C08_string.

Theorem C08_string_too_long : forall s, 2 ^ 31 <= Z.of_nat (length s) ->
  rejects (WriteString s) ErrOutOfBounds.
Proof. exact string_rejects'. Qed.
Print Assumptions C08_string_too_long.

Example C08_applies : Forall is_byte [104; 105] /\ BitSizeOfString [104; 105] = Ok 24.
Proof. split; [repeat constructor; vm_compute; discriminate|reflexivity]. Qed.

(** ** C09 *)

Theorem C09_bytes_iff : forall n buf, 0 <= n <= 2 ^ 31 - 1 -> Forall is_byte buf ->
  (exists bs, roundtrips (WriteBytes n buf) ReadBytes bs (n, buf)) <-> n = Z.of_nat (length buf).
Proof. exact WriteBytes_iff. Qed.
Print Assumptions C09_bytes_iff.

(** The writer succeeds whatever the buffer. *)
Theorem C09_bytes_unchecked : forall n buf, 0 <= n <= 2 ^ 31 - 1 ->
  exists bs, encodes (WriteBytes n buf) bs.
Proof. exact WriteBytes_always_ok. Qed.
Print Assumptions C09_bytes_unchecked.

Theorem C09_bytes_rejects : forall n buf, 2 ^ 31 <= n < 2 ^ 64 ->
  rejects (WriteBytes n buf) ErrOutOfBounds.
Proof. exact bytes_rejects'. Qed.
Print Assumptions C09_bytes_rejects.

Example C09_applies : 0 <= 3 <= 2 ^ 31 - 1 /\ Forall is_byte [1; 2; 255].
Proof. split; [vm_compute; split; discriminate|repeat constructor; vm_compute; discriminate]. Qed.

(** ** C10 *)

Theorem C10_extern_roundtrip : forall n buf, 0 <= n <= 2 ^ 31 - 1 -> Forall is_byte buf ->
  Z.of_nat (length buf) = (n + 7) / 8 ->
  (n mod 8 <> 0 -> (last buf 0) mod 2 ^ (8 - n mod 8) = 0) ->
  exists bs, roundtrips (WriteExtern n buf) ReadExtern bs (n, buf).
Proof. exact WriteExtern_rt. Qed.
Print Assumptions C10_extern_roundtrip.

Theorem C10_extern_short_buffer_panics : forall n buf w, 0 <= n <= 2 ^ 31 - 1 ->
  Z.of_nat (length buf) < n / 8 \/ (0 < n < 8 /\ buf = []) -> wfaults w = [] ->
  snd (WriteExtern n buf w) = Panic.
Proof. exact extern_panics'. Qed.
Print Assumptions C10_extern_short_buffer_panics.

(** In every other case the trailing bits come from the last byte of the buffer. *)
Theorem C10_extern_trailing_bits : forall n buf, 0 <= n <= 2 ^ 31 - 1 ->
  n / 8 <= Z.of_nat (length buf) -> n mod 8 <> 0 -> buf <> [] ->
  exists hdr, decodes ReadVarsize hdr n /\
  encodes (WriteExtern n buf)
    (hdr ++ bytes_bits (firstn (Z.to_nat (n / 8)) buf) ++
     bits_of (Z.to_nat (n mod 8)) (Z.shiftr (last buf 0) (8 - n mod 8))).
Proof. exact WriteExtern_encoding. Qed.
Print Assumptions C10_extern_trailing_bits.

(** So an oversized buffer is silently stored wrongly. *)
Theorem C10_extern_long_buffer_refuted : exists n buf bs buf',
  n / 8 < Z.of_nat (length buf) /\ encodes (WriteExtern n buf) bs /\
  decodes ReadExtern bs (n, buf') /\ nth (Z.to_nat (n / 8)) buf' 0 <> nth (Z.to_nat (n / 8)) buf 0.
Proof. exact extern_long_buffer'. Qed.
Print Assumptions C10_extern_long_buffer_refuted.

Example C10_applies : Forall is_byte [255; 160] /\ Z.of_nat (length [255; 160]) = (12 + 7) / 8 /\
  (last [255; 160] 0) mod 2 ^ (8 - 12 mod 8) = 0.
Proof. split; [repeat constructor; vm_compute; discriminate|split; reflexivity]. Qed.

(** ** C11 *)

Theorem C11_prefix_determined : forall A w r P, scalar_type A w r P -> prefix_determined r.
Proof. exact scalar_prefix_determined. Qed.
Print Assumptions C11_prefix_determined.

Theorem C11_never_panics : forall A w r P, scalar_type A w r P -> never_panics r.
Proof. exact scalar_never_panics. Qed.
Print Assumptions C11_never_panics.

(** Every cut of what a writer produced is refused by the reader. *)
Theorem C11_truncated_encodings : forall A w r P, scalar_type A w r P ->
  forall a bs short pos, P a -> encodes (w a) bs -> cut_of short bs ->
  exists r' e, r (mkR pos short) = (r', Err e).
Proof. exact scalar_truncated. Qed.
Print Assumptions C11_truncated_encodings.

Example C11_applies : cut_of (bytes_bits [130]) (bytes_bits [130; 44]) /\
  snd (ReadVaruint16 (mkR 0 (bytes_bits [130]))) = Err EOF.
Proof. split; [|reflexivity]. exists (bytes_bits [44]). split; [discriminate|reflexivity]. Qed.
