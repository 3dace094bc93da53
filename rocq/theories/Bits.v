(** Most-significant-first bit lists and 64-bit machine arithmetic.

    This file contains the small vocabulary every later file uses: numbers as
    lists of bits (the wire order of zserio streams, bitio writes the most
    significant bit first) and the conversions Go performs between its integer
    types.  Lemmas about them are in [BitsFacts.v]. *)

Require Import ZArith List Bool Lia.
Import ListNotations.
Open Scope Z_scope.

(** The value of one bit. *)
Definition b2z (b : bool) : Z := if b then 1 else 0.

(** [bits_of n z]: the [n] low bits of [z], most significant first.  This is
    what [WriteBits(z, n)] puts on the stream (zstream/writer.go:46-48). *)
Fixpoint bits_of (n : nat) (z : Z) : list bool :=
  match n with
  | O => []
  | S n' => Z.testbit z (Z.of_nat n') :: bits_of n' z
  end.

(** [val_of l]: the number whose binary digits are [l], most significant
    first.  This is what [ReadBits] returns (zstream/reader.go:41-43). *)
Definition val_of (l : list bool) : Z :=
  fold_left (fun a b => 2 * a + b2z b) l 0.

(** Go's conversion to an unsigned [n]-bit type: [uint8(x)], [uint16(x)], ... *)
Definition to_u (n : Z) (z : Z) : Z := z mod 2 ^ n.

(** Go's conversion to a signed [n]-bit type: [int8(x)], ..., [int64(x)]. *)
Definition to_s (n : Z) (z : Z) : Z :=
  let u := z mod 2 ^ n in if u <? 2 ^ (n - 1) then u else u - 2 ^ n.

Definition u64 : Z -> Z := to_u 64.
Definition i64 : Z -> Z := to_s 64.

(** Membership in the Go integer types. *)
Definition in_u (n : Z) (z : Z) : Prop := 0 <= z < 2 ^ n.
Definition in_s (n : Z) (z : Z) : Prop := - 2 ^ (n - 1) <= z < 2 ^ (n - 1).

(** Bytes are numbers below 256; byte strings are lists of them. *)
Definition is_byte (z : Z) : Prop := 0 <= z < 256.

(** [bits.Len64] of math/bits: the number of bits needed to represent [x]. *)
Definition len64 (x : Z) : Z := if x <=? 0 then 0 else Z.log2 x + 1.

(** A byte string as the bit sequence it stands for on the stream. *)
Definition bytes_bits (l : list Z) : list bool := flat_map (bits_of 8) l.
