(** Model of the element codecs of arrays ("array traits", ztype/array_traits.go).

    Go's IArrayTraits[T] is a record of functions over the element type. *)

Require Import ZArith List Bool.
From Verif Require Import Bits Stream Scalars Float16.
Import ListNotations.
Open Scope Z_scope.
Open Scope io_scope.

(** IArrayTraits[T] (ztype/array_traits.go:12-49).  Not modelled:
    NeedsBitsizeOfPosition and NeedsReadIndex (constants nobody reads),
    InitializeOffsets (bitPosition + BitSizeOf, used for offset fields only);
    the position and index arguments, which every builtin codec ignores.
    PackedTraits is [Delta.v]. *)
Record traits (A : Type) := mkTraits {
  t_const : bool;            (* BitSizeOfIsConstant *)
  t_zero : A;                (* the Go zero value of T ("var dummy T") *)
  t_size : A -> outcome Z;   (* BitSizeOf; dereferencing a nil element panics *)
  t_read : reader A;         (* Read *)
  t_write : A -> writer unit;(* Write *)
  t_as : A -> Z;             (* AsUint64 *)
  t_from : Z -> A            (* FromUint64 *)
}.
Arguments mkTraits {A} _ _ _ _ _ _ _.
Arguments t_const {A} t.
Arguments t_zero {A} t.
Arguments t_size {A} t a.
Arguments t_read {A} t.
Arguments t_write {A} t a.
Arguments t_as {A} t a.
Arguments t_from {A} t z.

(** "bitSize, _ := SignedBitSize(...)": the error is dropped, the size is 0. *)
Definition size_or_0 (o : outcome Z) : outcome Z :=
  match o with Ok s => Ok s | Err _ => Ok 0 | Panic => Panic | NoFuel => NoFuel end.

(** Go integer types: unsigned or signed, of 8, 16, 32 or 64 bits. *)
Inductive gotype := GU (w : Z) | GS (w : Z).

Definition gwidth (g : gotype) : Z := match g with GU w => w | GS w => w end.

(** The conversion T(x). *)
Definition gconv (g : gotype) (x : Z) : Z :=
  match g with GU w => to_u w x | GS w => to_s w x end.

(** The values of the type. *)
Definition gvalue (g : gotype) (x : Z) : Prop :=
  match g with GU w => in_u w x | GS w => in_s w x end.

(** Float16/32/64ArrayTraits (ztype/array_traits.go:130-265).  A float is its
    bit pattern; FromUint64 always returns 0.0, whose pattern is 0. *)
Definition Float16ArrayTraits : traits Z :=
  mkTraits true 0 (fun _ => Ok 16) ReadFloat16 WriteFloat16 (fun _ => 0) (fun _ => 0).
Definition Float32ArrayTraits : traits Z :=
  mkTraits true 0 (fun _ => Ok 32) ReadFloat32 WriteFloat32 (fun _ => 0) (fun _ => 0).
Definition Float64ArrayTraits : traits Z :=
  mkTraits true 0 (fun _ => Ok 64) ReadFloat64 WriteFloat64 (fun _ => 0) (fun _ => 0).

(** VarIntArrayTraits (ztype/array_traits.go:267-315), VarInt16ArrayTraits
    (317-361), VarInt32ArrayTraits (363-407), VarInt64ArrayTraits (409-453). *)
Definition VarIntArrayTraits : traits Z :=
  mkTraits false 0 (fun v => size_or_0 (SignedBitSize v 8)) ReadVarint WriteVarint u64 i64.
Definition VarInt16ArrayTraits : traits Z :=
  mkTraits false 0 (fun v => size_or_0 (SignedBitSize v 2)) ReadVarint16 WriteVarint16 u64 (to_s 16).
Definition VarInt32ArrayTraits : traits Z :=
  mkTraits false 0 (fun v => size_or_0 (SignedBitSize v 4)) ReadVarint32 WriteVarint32 u64 (to_s 32).
Definition VarInt64ArrayTraits : traits Z :=
  mkTraits false 0 (fun v => size_or_0 (SignedBitSize v 8)) ReadVarint64 WriteVarint64 u64 i64.

(** VarUInt16ArrayTraits (ztype/array_traits.go:455-499), VarUInt32ArrayTraits
    (501-544), VarUInt64ArrayTraits (546-589), VarUIntArrayTraits (591-634),
    VarSizeArrayTraits (636-679). *)
Definition VarUInt16ArrayTraits : traits Z :=
  mkTraits false 0 (fun v => size_or_0 (UnsignedBitSize v 4)) ReadVaruint16 WriteVaruint16 u64 (to_u 16).
Definition VarUInt32ArrayTraits : traits Z :=
  mkTraits false 0 (fun v => size_or_0 (UnsignedBitSize v 4)) ReadVaruint32 WriteVaruint32 u64 (to_u 32).
Definition VarUInt64ArrayTraits : traits Z :=
  mkTraits false 0 (fun v => size_or_0 (UnsignedBitSize v 8)) ReadVaruint64 WriteVaruint64 u64 u64.
Definition VarUIntArrayTraits : traits Z :=
  mkTraits false 0 (fun v => size_or_0 (UnsignedBitSize v 8)) ReadVaruint WriteVaruint u64 u64.
Definition VarSizeArrayTraits : traits Z :=
  mkTraits false 0 (fun v => size_or_0 (UnsignedBitSize v 5)) ReadVarsize WriteVarsize u64 u64.

(** BitFieldArrayTraits[T] (ztype/array_traits.go:681-726): no range check. *)
Definition BitFieldArrayTraits (g : gotype) (numBits : Z) : traits Z :=
  mkTraits true 0 (fun _ => Ok numBits)
    (v <-r read_bits (Z.to_nat numBits); rret (gconv g v))
    (fun v => write_bits (u64 v) (Z.to_nat numBits))
    u64 (gconv g).

(** fillUpperBits (ztype/array_traits.go:732-744); numBits is a uint8. *)
Definition fillUpperBits (value numBits : Z) : Z :=
  if negb (Z.land value (shl1_u64 (to_u 8 (numBits - 1))) =? 0)
  then Z.lor value (u64 (MaxUint64 - u64 (shl1_u64 numBits - 1)))
  else value.

(** SignedBitFieldArrayTraits[T] (ztype/array_traits.go:728-787). *)
Definition SignedBitFieldArrayTraits (g : gotype) (numBits : Z) : traits Z :=
  mkTraits true 0 (fun _ => Ok numBits)
    (v <-r read_bits (Z.to_nat numBits); rret (gconv g (fillUpperBits v numBits)))
    (fun v => write_bits (u64 v) (Z.to_nat numBits))
    u64 (fun v => gconv g (fillUpperBits v numBits)).

(** BooleanArrayTraits (ztype/array_traits.go:789-837). *)
Definition BooleanArrayTraits : traits bool :=
  mkTraits true false (fun _ => Ok 1) ReadBool WriteBool
    (fun b => if b then 1 else 0) (fun v => negb (v =? 0)).

(** StringArrayTraits (ztype/array_traits.go:839-889). *)
Definition StringArrayTraits : traits (list Z) :=
  mkTraits false []
    (fun s => match SignedBitSize (Z.of_nat (length s)) 4 with
              | Ok h => Ok (h + Z.of_nat (length s) * 8)
              | Err _ => Ok 0
              | Panic => Panic
              | NoFuel => NoFuel
              end)
    ReadString WriteString (fun _ => 0) (fun _ => []).

(** A *BytesType or *ExternType: [None] is nil, a value is its size field and
    its buffer.  Writing or measuring nil dereferences a nil pointer. *)
Definition bufptr := option (Z * list Z).

(** BitBufferArrayTraits (ztype/array_traits.go:891-933). *)
Definition BitBufferArrayTraits : traits bufptr :=
  mkTraits false None
    (fun p => match p with Some (n, _) => Ok n | None => Panic end)
    (x <-r ReadExtern; rret (Some x))
    (fun p => match p with Some (n, buf) => WriteExtern n buf | None => wpanic end)
    (fun _ => 0) (fun _ => None).

(** BytesArrayTraits (ztype/array_traits.go:935-977). *)
Definition BytesArrayTraits : traits bufptr :=
  mkTraits false None
    (fun p => match p with Some (n, _) => Ok (n * 8) | None => Panic end)
    (x <-r ReadBytes; rret (Some x))
    (fun p => match p with Some (n, buf) => WriteBytes n buf | None => wpanic end)
    (fun _ => 0) (fun _ => None).

(** The builtin element types: the table ArrayTraits (ztype/array_traits.go:51-76)
    and the bit fields of any width. *)
Inductive builtin :=
| BVarint | BVarint16 | BVarint32 | BVarint64
| BVaruint | BVaruint16 | BVaruint32 | BVaruint64 | BVarsize
| BBool | BString | BFloat16 | BFloat32 | BFloat64 | BBytes | BExtern
| BBits (g : gotype) (n : Z)    (* BitFieldArrayTraits[g]{NumBits: n} *)
| BSBits (g : gotype) (n : Z).  (* SignedBitFieldArrayTraits[g]{NumBits: n} *)

Definition elt (b : builtin) : Type :=
  match b with
  | BBool => bool
  | BString => list Z
  | BBytes | BExtern => bufptr
  | _ => Z
  end.

Definition traits_of (b : builtin) : traits (elt b) :=
  match b as b return traits (elt b) with
  | BVarint => VarIntArrayTraits
  | BVarint16 => VarInt16ArrayTraits
  | BVarint32 => VarInt32ArrayTraits
  | BVarint64 => VarInt64ArrayTraits
  | BVaruint => VarUIntArrayTraits
  | BVaruint16 => VarUInt16ArrayTraits
  | BVaruint32 => VarUInt32ArrayTraits
  | BVaruint64 => VarUInt64ArrayTraits
  | BVarsize => VarSizeArrayTraits
  | BBool => BooleanArrayTraits
  | BString => StringArrayTraits
  | BFloat16 => Float16ArrayTraits
  | BFloat32 => Float32ArrayTraits
  | BFloat64 => Float64ArrayTraits
  | BBytes => BytesArrayTraits
  | BExtern => BitBufferArrayTraits
  | BBits g n => BitFieldArrayTraits g n
  | BSBits g n => SignedBitFieldArrayTraits g n
  end.

(** UInt8 ... Int64 of the table (ztype/array_traits.go:68-75). *)
Definition BUint8 := BBits (GU 8) 8.
Definition BUint16 := BBits (GU 16) 16.
Definition BUint32 := BBits (GU 32) 32.
Definition BUint64 := BBits (GU 64) 64.
Definition BInt8 := BSBits (GS 8) 8.
Definition BInt16 := BSBits (GS 16) 16.
Definition BInt32 := BSBits (GS 32) 32.
Definition BInt64 := BSBits (GS 64) 64.
