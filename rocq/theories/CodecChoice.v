(** The code that the templates generate for a value of a builtin type: which
    functions of ztype they name for a type reference
    (internal/generator/templates), and what those names refer to. *)

Require Import ZArith String Ascii List Bool.
From Verif Require Import Bits Stream Scalars Float16 Traits Delta Schema AstExpr AstTypes.
Import ListNotations.
Open Scope Z_scope.
Open Scope io_scope.

(** A reference to a builtin type with the run-time value of its length expression:
    what the [LengthExpression] of a [tref] that is [t_dynamic] evaluates to. *)
Definition length_expr := Schema.expr.

(** Visitor.VisitTypeInstantiation, internal/visitor/visitor.go:687-696, of a builtin
    type with a length in angle brackets or without; its type arguments are left
    out. *)
Definition VisitTypeInstantiation (text : string) (angle : option length_expr) : tref :=
  let t := VisitTypeReference text in
  match angle with Some _ => mkT (t_name t) (t_bits t) true | None => t end.
(** LengthExpression; nil is never evaluated. *)
Definition length_of (angle : option length_expr) : length_expr := match angle with Some w => w | None => fun _ => None end.

(** strings.Title of a name that starts with an ASCII letter *)
Definition title (n : string) : string :=
  match n with
  | EmptyString => EmptyString
  | String c n' => let k := nat_of_ascii c in
      String (if (97 <=? k)%nat && (k <=? 122)%nat then ascii_of_nat (k - 32) else c) n'
  end.

(** ** The functions of ztype by name *)

Definition on_int (f : Z -> writer unit) (v : value) : writer unit := match v with VInt z => f z | _ => wpanic end.
Definition on_bool (f : bool -> writer unit) (v : value) : writer unit := match v with VBool b => f b | _ => wpanic end.
Definition on_string (f : list Z -> writer unit) (v : value) : writer unit := match v with VStr s => f s | _ => wpanic end.
(** A nil pointer is dereferenced. *)
Definition on_buffer (f : Z -> list Z -> writer unit) (v : value) : writer unit :=
  match v with VBuf (Some (n, b)) => f n b | _ => wpanic end.

(** The functions Write... of ztype/*_encode.go with the Go type of the value. *)
Definition ztype_writers : list (string * (string * (value -> writer unit))) := [
  ("WriteUint8", ("uint8", on_int WriteUint8)); ("WriteUint16", ("uint16", on_int WriteUint16));
  ("WriteUint32", ("uint32", on_int WriteUint32)); ("WriteUint64", ("uint64", on_int WriteUint64));
  ("WriteInt8", ("int8", on_int WriteInt8)); ("WriteInt16", ("int16", on_int WriteInt16));
  ("WriteInt32", ("int32", on_int WriteInt32)); ("WriteInt64", ("int64", on_int WriteInt64));
  ("WriteBool", ("bool", on_bool WriteBool)); ("WriteString", ("string", on_string WriteString));
  ("WriteBytes", ("*ztype.BytesType", on_buffer WriteBytes)); ("WriteExtern", ("*ztype.ExternType", on_buffer WriteExtern));
  ("WriteFloat16", ("float32", on_int WriteFloat16)); ("WriteFloat32", ("float32", on_int WriteFloat32));
  ("WriteFloat64", ("float64", on_int WriteFloat64));
  ("WriteVarint16", ("int16", on_int WriteVarint16)); ("WriteVarint32", ("int32", on_int WriteVarint32));
  ("WriteVarint64", ("int64", on_int WriteVarint64)); ("WriteVarint", ("int64", on_int WriteVarint));
  ("WriteVaruint16", ("uint16", on_int WriteVaruint16)); ("WriteVaruint32", ("uint32", on_int WriteVaruint32));
  ("WriteVaruint64", ("uint64", on_int WriteVaruint64)); ("WriteVaruint", ("uint64", on_int WriteVaruint));
  ("WriteVarsize", ("uint64", on_int WriteVarsize))]%string.

Definition to_value {A} (f : A -> value) (r : reader A) : reader value := x <-r r; rret (f x).
Definition to_buffer (r : reader (Z * list Z)) : reader value := to_value VBuf (x <-r r; rret (Some x)).

(** The functions Read... of ztype/*_decode.go with the Go type of the result. *)
Definition ztype_readers : list (string * (string * reader value)) := [
  ("ReadUint8", ("uint8", to_value VInt ReadUint8)); ("ReadUint16", ("uint16", to_value VInt ReadUint16));
  ("ReadUint32", ("uint32", to_value VInt ReadUint32)); ("ReadUint64", ("uint64", to_value VInt ReadUint64));
  ("ReadInt8", ("int8", to_value VInt ReadInt8)); ("ReadInt16", ("int16", to_value VInt ReadInt16));
  ("ReadInt32", ("int32", to_value VInt ReadInt32)); ("ReadInt64", ("int64", to_value VInt ReadInt64));
  ("ReadBool", ("bool", to_value VBool ReadBool)); ("ReadString", ("string", to_value VStr ReadString));
  ("ReadBytes", ("*ztype.BytesType", to_buffer ReadBytes)); ("ReadExtern", ("*ztype.ExternType", to_buffer ReadExtern));
  ("ReadFloat16", ("float32", to_value VInt ReadFloat16)); ("ReadFloat32", ("float32", to_value VInt ReadFloat32));
  ("ReadFloat64", ("float64", to_value VInt ReadFloat64));
  ("ReadVarint16", ("int16", to_value VInt ReadVarint16)); ("ReadVarint32", ("int32", to_value VInt ReadVarint32));
  ("ReadVarint64", ("int64", to_value VInt ReadVarint64)); ("ReadVarint", ("int64", to_value VInt ReadVarint));
  ("ReadVaruint16", ("uint16", to_value VInt ReadVaruint16)); ("ReadVaruint32", ("uint32", to_value VInt ReadVaruint32));
  ("ReadVaruint64", ("uint64", to_value VInt ReadVaruint64)); ("ReadVaruint", ("uint64", to_value VInt ReadVaruint));
  ("ReadVarsize", ("uint64", to_value VInt ReadVarsize))]%string.

(** The integer types of Go by name. *)
Definition go_ints : list (string * gotype) := [
  ("uint8", GU 8); ("uint16", GU 16); ("uint32", GU 32); ("uint64", GU 64); ("uint", GU 64);
  ("int8", GS 8); ("int16", GS 16); ("int32", GS 32); ("int64", GS 64); ("int", GS 64)]%string.

(** The variable ztype.ArrayTraits, ztype/array_traits.go:51-76: the type of a member
    and the codec it points to. *)
Definition ztype_traits : list (string * (string * builtin)) := [
  ("VarInt", ("ztype.VarIntArrayTraits", BVarint)); ("VarInt16", ("ztype.VarInt16ArrayTraits", BVarint16));
  ("VarInt32", ("ztype.VarInt32ArrayTraits", BVarint32)); ("VarInt64", ("ztype.VarInt64ArrayTraits", BVarint64));
  ("VarUInt", ("ztype.VarUIntArrayTraits", BVaruint)); ("VarUInt16", ("ztype.VarUInt16ArrayTraits", BVaruint16));
  ("VarUInt32", ("ztype.VarUInt32ArrayTraits", BVaruint32)); ("VarUInt64", ("ztype.VarUInt64ArrayTraits", BVaruint64));
  ("VarSize", ("ztype.VarSizeArrayTraits", BVarsize)); ("Bool", ("ztype.BooleanArrayTraits", BBool));
  ("String", ("ztype.StringArrayTraits", BString)); ("Float16", ("ztype.Float16ArrayTraits", BFloat16));
  ("Float32", ("ztype.Float32ArrayTraits", BFloat32)); ("Float64", ("ztype.Float64ArrayTraits", BFloat64));
  ("Bytes", ("ztype.BytesArrayTraits", BBytes)); ("Extern", ("ztype.BitBufferArrayTraits", BExtern));
  ("UInt8", ("ztype.BitFieldArrayTraits[uint8]", BBits (GU 8) 8)); ("UInt16", ("ztype.BitFieldArrayTraits[uint16]", BBits (GU 16) 16));
  ("UInt32", ("ztype.BitFieldArrayTraits[uint32]", BBits (GU 32) 32)); ("UInt64", ("ztype.BitFieldArrayTraits[uint64]", BBits (GU 64) 64));
  ("Int8", ("ztype.SignedBitFieldArrayTraits[int8]", BSBits (GS 8) 8)); ("Int16", ("ztype.SignedBitFieldArrayTraits[int16]", BSBits (GS 16) 16));
  ("Int32", ("ztype.SignedBitFieldArrayTraits[int32]", BSBits (GS 32) 32)); ("Int64", ("ztype.SignedBitFieldArrayTraits[int64]", BSBits (GS 64) 64))]%string.

(** The element types of those codecs (the T of IArrayTraits[T] that they implement,
    ztype/array_traits.go). *)
Definition element_types : list (string * string) := [
  ("ztype.VarIntArrayTraits", "int64"); ("ztype.VarInt16ArrayTraits", "int16"); ("ztype.VarInt32ArrayTraits", "int32");
  ("ztype.VarInt64ArrayTraits", "int64"); ("ztype.VarUIntArrayTraits", "uint64"); ("ztype.VarUInt16ArrayTraits", "uint16");
  ("ztype.VarUInt32ArrayTraits", "uint32"); ("ztype.VarUInt64ArrayTraits", "uint64"); ("ztype.VarSizeArrayTraits", "uint64");
  ("ztype.BooleanArrayTraits", "bool"); ("ztype.StringArrayTraits", "string"); ("ztype.Float16ArrayTraits", "float32");
  ("ztype.Float32ArrayTraits", "float32"); ("ztype.Float64ArrayTraits", "float64"); ("ztype.BytesArrayTraits", "*ztype.BytesType");
  ("ztype.BitBufferArrayTraits", "*ztype.ExternType");
  ("ztype.BitFieldArrayTraits[uint8]", "uint8"); ("ztype.BitFieldArrayTraits[uint16]", "uint16");
  ("ztype.BitFieldArrayTraits[uint32]", "uint32"); ("ztype.BitFieldArrayTraits[uint64]", "uint64");
  ("ztype.SignedBitFieldArrayTraits[int8]", "int8"); ("ztype.SignedBitFieldArrayTraits[int16]", "int16");
  ("ztype.SignedBitFieldArrayTraits[int32]", "int32"); ("ztype.SignedBitFieldArrayTraits[int64]", "int64")]%string.

(** ** Fields *)

(** The call of a function by name, or of Write(Un)SignedBits, Read(Un)SignedBits
    with a width. *)
Inductive call := Named (f : string) | BitsCall (signed : bool) (width : length_expr).

(** $bit_size: the length expression if there is one, else the constant. *)
Definition bit_size (t : tref) (w : length_expr) : length_expr := if t_dynamic t then w else fun _ => Some (t_bits t).

(** encode.go.tmpl:65-76 *)
Definition encode_call (t : tref) (w : length_expr) : call :=
  if (0 <? t_bits t) || t_dynamic t then BitsCall (t_name t =? "int")%string (bit_size t w)
  else Named ("Write" ++ title (t_name t)).
(** decode.go.tmpl:49-58 *)
Definition decode_call (t : tref) (w : length_expr) : call :=
  if (0 <? t_bits t) || t_dynamic t then BitsCall (t_name t =? "int")%string (bit_size t w)
  else Named ("Read" ++ title (t_name t)).

(** What the generated call does; None: there is no such function, the code does not
    compile. *)
Definition run_write (c : call) (E : env) (v : value) : option (writer unit) :=
  match c with
  | Named f => option_map (fun x => snd x v) (assoc f ztype_writers)
  | BitsCall signed w =>
      Some (match w E, v with
            | Some n, VInt z => if signed then WriteSignedBits (i64 z) (to_u 8 n) else WriteUnsignedBits (u64 z) (to_u 8 n)
            | _, _ => wpanic
            end)
  end.
(** The result of Read(Un)SignedBits is converted to the Go type of the field. *)
Definition run_read (c : call) (go : string) (E : env) : option (reader value) :=
  match c with
  | Named f => option_map snd (assoc f ztype_readers)
  | BitsCall signed w =>
      option_map (fun g =>
        match w E with
        | Some n => z <-r (if signed then ReadSignedBits (to_u 8 n) else ReadUnsignedBits (to_u 8 n)); rret (VInt (gconv g z))
        | None => rpanic
        end) (assoc go go_ints)
  end.
(** The Go type that a writer takes and that a reader returns; Write(Un)SignedBits
    come with conversions to and from it. *)
Definition write_type (c : call) (go : string) : option string :=
  match c with Named f => option_map fst (assoc f ztype_writers) | BitsCall _ _ => Some go end.
Definition read_type (c : call) (go : string) : option string :=
  match c with Named f => option_map fst (assoc f ztype_readers) | BitsCall _ _ => Some go end.

(** ** Sizes *)

Definition const_size (n : Z) (v : value) : outcome Z := Ok n.
Definition of_int (f : Z -> outcome Z) (v : value) : outcome Z := match v with VInt z => f z | _ => Panic end.

(** builtin_bitsizeof.go.tmpl:13-26.  The sizes of numbers and bool do not look at
    the value. *)
Definition fixed_sizes : list (string * Z) := [
  ("uint8", 8); ("uint16", 16); ("uint32", 32); ("uint64", 64); ("int8", 8); ("int16", 16); ("int32", 32); ("int64", 64);
  ("bool", 1); ("float16", 16); ("float32", 32); ("float64", 64)]%string.
(** The types whose size is called for, with the conversion of the value that is in
    the text of the call, if any (builtin_bitsizeof.go.tmpl:29-38). *)
Definition called_sizes : list (string * (option string * (string * (value -> outcome Z)))) := [
  ("varuint", (None, ("uint64", of_int (fun v => UnsignedBitSize v 9))));
  ("varuint16", (Some "uint64", ("uint64", of_int (fun v => UnsignedBitSize v 2))));
  ("varuint32", (Some "uint64", ("uint64", of_int (fun v => UnsignedBitSize v 4))));
  ("varuint64", (None, ("uint64", of_int (fun v => UnsignedBitSize v 8))));
  ("varsize", (None, ("uint64", of_int (fun v => UnsignedBitSize v 5))));
  ("varint", (None, ("int64", of_int (fun v => SignedBitSize v 9))));
  ("varint16", (Some "int64", ("int64", of_int (fun v => SignedBitSize v 2))));
  ("varint32", (Some "int64", ("int64", of_int (fun v => SignedBitSize v 4))));
  ("varint64", (None, ("int64", of_int (fun v => SignedBitSize v 8))));
  ("string", (None, ("string", fun v => match v with VStr s => BitSizeOfString s | _ => Panic end)))]%string.

(** builtin_bitsizeof.go.tmpl:7-45, without arrays and objects; None is text that does
    not compile.  [go] is the Go type of the expression whose size is taken: a value
    of another type than the function's is an error of the compiler. *)
Definition run_size (t : tref) (w : length_expr) (go : string) (E : env) (v : value) : option (outcome Z) :=
  if 0 <? t_bits t then Some (Ok (t_bits t))
  else if t_dynamic t then Some (match w E with Some n => Ok (i64 n) | None => Panic end)
  else match assoc (t_name t) fixed_sizes with
       | Some n => Some (Ok n)
       | None =>
           if (t_name t =? "extern")%string then Some (match v with VBuf (Some (n, _)) => Ok n | _ => Panic end)
           else if (t_name t =? "bytes")%string then Some (match v with VBuf (Some (n, _)) => Ok (8 * n) | _ => Panic end)
           else match assoc (t_name t) called_sizes with
                | Some (conv, (param, f)) =>
                    if (match conv with Some c => c | None => go end =? param)%string then Some (f v) else None
                | None => None
                end
       end.

(** ** Element codecs *)

(** The members of ztype.ArrayTraits by zserio type (instantiate_array_traits.go.tmpl). *)
Definition bit_instances : list (string * string) := [
  ("uint8", "UInt8"); ("uint16", "UInt16"); ("uint32", "UInt32"); ("uint64", "UInt64");
  ("int8", "Int8"); ("int16", "Int16"); ("int32", "Int32"); ("int64", "Int64")]%string.
Definition other_instances : list (string * string) := [
  ("varint", "VarInt"); ("varint16", "VarInt16"); ("varint32", "VarInt32"); ("varint64", "VarInt64");
  ("varuint", "VarUInt"); ("varuint16", "VarUInt16"); ("varuint32", "VarUInt32"); ("varuint64", "VarUInt64");
  ("varsize", "VarSize"); ("bool", "Bool"); ("string", "String"); ("float16", "Float16"); ("float32", "Float32");
  ("float64", "Float64"); ("bytes", "Bytes"); ("extern", "Extern")]%string.

Inductive instance :=
| IStatic (member : string)                              (* ztype.ArrayTraits.member *)
| IGet (signed : bool) (go : string) (width : length_expr). (* ztype.Get(Signed)BitFieldArrayTraits[go](uint8(width)) *)

(** instantiate_array_traits.go.tmpl:4-43, without objects; None is UNSUPPORTED. *)
Definition instantiate (t : tref) (w : length_expr) : option instance :=
  match GoArrayTraits t, GoType t with
  | Some tr, Some go =>
      let signed := (tr =? "ztype.SignedBitFieldArrayTraits")%string in
      if (tr =? "ztype.BitFieldArrayTraits")%string || signed then
        if 0 <? t_bits t then Some (IGet signed go (fun _ => Some (t_bits t)))
        else if t_dynamic t then Some (IGet signed go w)
        else option_map IStatic (assoc (t_name t) bit_instances)
      else option_map IStatic (assoc (t_name t) other_instances)
  | _, _ => None
  end.

(** array_traits_type.go.tmpl, without objects *)
Definition traits_type (t : tref) : option string :=
  match GoArrayTraits t, GoType t with
  | Some tr, Some go =>
      Some (if ((tr =? "ztype.BitFieldArrayTraits") || (tr =? "ztype.SignedBitFieldArrayTraits"))%string
            then tr ++ "[" ++ go ++ "]" else tr)%string
  | _, _ => None
  end.

(** The codec that an instance is (see [codec_of] for the cache) and its type. *)
Definition run_instance (i : instance) (E : env) : option (outcome (traits value)) :=
  match i with
  | IStatic m => option_map (fun x => Ok (vtraits (snd x))) (assoc m ztype_traits)
  | IGet signed go w =>
      option_map (fun g =>
        match w E with
        | Some n => let n := to_u 8 n in
            if 64 <=? n then Panic else Ok (vtraits (if signed then BSBits g n else BBits g n))
        | None => Panic
        end) (assoc go go_ints)
  end.
Definition instance_type (i : instance) : option string :=
  match i with
  | IStatic m => option_map fst (assoc m ztype_traits)
  | IGet signed go _ => Some ((if signed then "ztype.SignedBitFieldArrayTraits" else "ztype.BitFieldArrayTraits") ++ "[" ++ go ++ "]")%string
  end.

(** ** Enums and bitmasks *)

(** enum.go.tmpl:114-126; [PanicCall] is panic("unsupported type"). *)
Inductive scalar_call := Call (c : call) | PanicCall.
Definition enum_write_call (native : tref) : scalar_call :=
  if t_bits native =? 0 then Call (Named ("Write" ++ title (t_name native)))
  else if (t_name native =? "bit")%string then Call (BitsCall false (fun _ => Some (t_bits native)))
  else if (t_name native =? "int")%string then Call (BitsCall true (fun _ => Some (t_bits native)))
  else PanicCall.
(** enum.go.tmpl:133-139, bitmask.go.tmpl:43-49 *)
Definition scalar_read_call (native : tref) : call :=
  if t_bits native =? 0 then Named ("Read" ++ title (t_name native))
  else BitsCall (t_name native =? "int")%string (fun _ => Some (t_bits native)).
(** bitmask.go.tmpl:24-36: the width is that of the reference itself, which has none
    if it refers to a subtype. *)
Definition bitmask_write_call (direct native : tref) : scalar_call :=
  if t_bits native =? 0 then Call (Named ("Write" ++ title (t_name native)))
  else if (t_name native =? "bit")%string then Call (BitsCall false (fun _ => Some (t_bits direct)))
  else if (t_name native =? "int")%string then Call (BitsCall true (fun _ => Some (t_bits direct)))
  else PanicCall.
(** A reference to a subtype. *)
Definition subtype_ref (n : string) : tref := mkT n 0 false.
