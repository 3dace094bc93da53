(** The scalar types of zserio: writer, reader and range of values, as the
    package ztype exports them.  Used to state properties of all of them at once. *)

Require Import ZArith List Bool.
From Verif Require Import Bits Stream Scalars.
Import ListNotations.
Open Scope Z_scope.

Definition byte_string (l : list Z) : Prop :=
  Forall is_byte l /\ Z.of_nat (length l) <= MaxVarsize.

(** A bytes value whose declared size is the size of its buffer. *)
Definition bytes_value (x : Z * list Z) : Prop :=
  byte_string (snd x) /\ fst x = Z.of_nat (length (snd x)).

(** An extern value whose buffer has exactly the bytes needed for its bits, with
    the unused bits of the last byte zero. *)
Definition extern_value (x : Z * list Z) : Prop :=
  let (n, buf) := x in
  0 <= n <= MaxVarsize /\ Forall is_byte buf /\ Z.of_nat (length buf) = (n + 7) / 8 /\
  (n mod 8 <> 0 -> (last buf 0) mod 2 ^ (8 - n mod 8) = 0).

Inductive scalar_type : forall A : Type, (A -> writer unit) -> reader A -> (A -> Prop) -> Prop :=
| ST_unsigned_bits : forall n, 1 <= n <= 64 ->
    scalar_type Z (fun v => WriteUnsignedBits v n) (ReadUnsignedBits n) (fun v => 0 <= v < 2 ^ n)
| ST_signed_bits : forall n, 1 <= n <= 64 ->
    scalar_type Z (fun v => WriteSignedBits v n) (ReadSignedBits n)
                (fun v => - 2 ^ (n - 1) <= v < 2 ^ (n - 1))
| ST_uint8 : scalar_type Z WriteUint8 ReadUint8 (in_u 8)
| ST_uint16 : scalar_type Z WriteUint16 ReadUint16 (in_u 16)
| ST_uint32 : scalar_type Z WriteUint32 ReadUint32 (in_u 32)
| ST_uint64 : scalar_type Z WriteUint64 ReadUint64 (in_u 64)
| ST_int8 : scalar_type Z WriteInt8 ReadInt8 (in_s 8)
| ST_int16 : scalar_type Z WriteInt16 ReadInt16 (in_s 16)
| ST_int32 : scalar_type Z WriteInt32 ReadInt32 (in_s 32)
| ST_int64 : scalar_type Z WriteInt64 ReadInt64 (in_s 64)
| ST_bool : scalar_type bool WriteBool ReadBool (fun _ => True)
| ST_varuint16 : scalar_type Z WriteVaruint16 ReadVaruint16 (fun v => 0 <= v <= MaxVaruint16)
| ST_varuint32 : scalar_type Z WriteVaruint32 ReadVaruint32 (fun v => 0 <= v <= MaxVaruint32)
| ST_varuint64 : scalar_type Z WriteVaruint64 ReadVaruint64 (fun v => 0 <= v <= MaxVaruint64)
| ST_varuint : scalar_type Z WriteVaruint ReadVaruint (fun v => 0 <= v <= MaxUint64)
| ST_varsize : scalar_type Z WriteVarsize ReadVarsize (fun v => 0 <= v <= MaxVarsize)
| ST_varint16 : scalar_type Z WriteVarint16 ReadVarint16 (fun v => - MaxVarint16 <= v <= MaxVarint16)
| ST_varint32 : scalar_type Z WriteVarint32 ReadVarint32 (fun v => - MaxVarint32 <= v <= MaxVarint32)
| ST_varint64 : scalar_type Z WriteVarint64 ReadVarint64 (fun v => - MaxVarint64 <= v <= MaxVarint64)
| ST_varint : scalar_type Z WriteVarint ReadVarint (in_s 64)
| ST_float32 : scalar_type Z WriteFloat32 ReadFloat32 (in_u 32)
| ST_float64 : scalar_type Z WriteFloat64 ReadFloat64 (in_u 64)
| ST_string : scalar_type (list Z) WriteString ReadString byte_string
| ST_bytes : scalar_type (Z * list Z) (fun x => WriteBytes (fst x) (snd x)) ReadBytes bytes_value
| ST_extern : scalar_type (Z * list Z) (fun x => WriteExtern (fst x) (snd x)) ReadExtern extern_value.

(** All readers of the variable-length types, with their byte limit. *)
Inductive unsigned_var_reader : reader Z -> Z -> Prop :=
| UV16 : unsigned_var_reader ReadVaruint16 2
| UV32 : unsigned_var_reader ReadVaruint32 4
| UVsize : unsigned_var_reader ReadVarsize 5
| UV64 : unsigned_var_reader ReadVaruint64 8
| UV : unsigned_var_reader ReadVaruint 9.

Inductive signed_var_reader : reader Z -> Z -> Prop :=
| SV16 : signed_var_reader ReadVarint16 2
| SV32 : signed_var_reader ReadVarint32 4
| SV64 : signed_var_reader ReadVarint64 8
| SV : signed_var_reader ReadVarint 9.
