(** Builtin types: internal/visitor/visitor.go (type references) and
    internal/ast/scope.go (Go types, array traits, delta packing). *)

Require Import ZArith String Ascii List Bool.
From Verif Require Import Bits AstExpr.
Import ListNotations.
Open Scope Z_scope.

(** strconv.ParseUint(s, 10, 8) with the error dropped, as in visitor.go:648: 0 for
    an empty text or one with another character, 255 once the number exceeds 255. *)
Definition digit (c : ascii) : option Z :=
  let n := Z.of_nat (nat_of_ascii c) in if (48 <=? n) && (n <=? 57) then Some (n - 48) else None.
Fixpoint parse_digits (s : string) (n : Z) : Z :=
  match s with
  | EmptyString => n
  | String c s' =>
      match digit c with
      | None => 0
      | Some d => if 255 <? n * 10 + d then 255 else parse_digits s' (n * 10 + d)
      end
  end.
Definition ParseUint8 (s : string) : Z := match s with EmptyString => 0 | _ => parse_digits s 0 end.

(** strings.Index(name, ":") and the two slices around it. *)
Fixpoint cut_colon (s : string) : option (string * string) :=
  match s with
  | EmptyString => None
  | String c s' =>
      if (c =? ":")%char then Some (EmptyString, s')
      else match cut_colon s' with Some (a, b) => Some (String c a, b) | None => None end
  end.

(** VisitTypeReference on a builtin type, visitor.go:641-665.  The text has no
    blanks (ANTLR's GetText).  Sprintf("%d") is written out for the four widths. *)
Definition VisitTypeReference (text : string) : tref :=
  match cut_colon text with
  | None => mkT text 0 false
  | Some (name, digits) =>
      let bits := ParseUint8 digits in
      let suffix := if bits =? 8 then "8"%string else if bits =? 16 then "16"%string else if bits =? 32 then "32"%string else "64"%string in
      if (bits =? 8) || (bits =? 16) || (bits =? 32) || (bits =? 64) then
        if (name =? "bit")%string then mkT ("uint" ++ suffix) 0 false
        else if ((name =? "uint") || (name =? "int"))%string then mkT (name ++ suffix) 0 false
        else mkT name bits false
      else mkT name bits false
  end.

(** goBits, scope.go:163-177. *)
Definition goBits (b : Z) : string :=
  if b =? 0 then "" else if b <=? 8 then "8" else if b <=? 16 then "16" else if b <=? 32 then "32" else "64".

(** zserioTypeToGoType, scope.go:12-41. *)
Definition go_type_table : list (string * string) := [
  ("int8", "int8"); ("int16", "int16"); ("int32", "int32"); ("int64", "int64");
  ("uint8", "uint8"); ("uint16", "uint16"); ("uint32", "uint32"); ("uint64", "uint64");
  ("varint", "int64"); ("varint16", "int16"); ("varint32", "int32"); ("varint64", "int64");
  ("varuint", "uint64"); ("varsize", "uint64"); ("varuint16", "uint16"); ("varuint32", "uint32"); ("varuint64", "uint64");
  ("bool", "bool"); ("string", "string"); ("float16", "float32"); ("float32", "float32"); ("float64", "float64")]%string.

Fixpoint assoc {A} (n : string) (l : list (string * A)) : option A :=
  match l with [] => None | (k, v) :: l' => if (k =? n)%string then Some v else assoc n l' end.

(** RootScope.GoType on a builtin type, scope.go:179-216. *)
Definition GoType (t : tref) : option string :=
  if (t_name t =? "int")%string then Some (if t_dynamic t then "int64" else "int" ++ goBits (t_bits t))%string
  else if ((t_name t =? "bit") || (t_name t =? "uint"))%string then
    Some (if t_dynamic t then "uint64" else "uint" ++ goBits (t_bits t))%string
  else if (t_name t =? "extern")%string then Some "*ztype.ExternType"%string
  else if (t_name t =? "bytes")%string then Some "*ztype.BytesType"%string
  else assoc (t_name t) go_type_table.

(** zserioTypeToArrayTraits, scope.go:43-80. *)
Definition array_traits_table : list (string * string) := [
  ("int8", "ztype.SignedBitFieldArrayTraits"); ("int16", "ztype.SignedBitFieldArrayTraits");
  ("int32", "ztype.SignedBitFieldArrayTraits"); ("int64", "ztype.SignedBitFieldArrayTraits");
  ("uint8", "ztype.BitFieldArrayTraits"); ("uint16", "ztype.BitFieldArrayTraits");
  ("uint32", "ztype.BitFieldArrayTraits"); ("uint64", "ztype.BitFieldArrayTraits");
  ("int", "ztype.SignedBitFieldArrayTraits"); ("uint", "ztype.BitFieldArrayTraits"); ("bit", "ztype.BitFieldArrayTraits");
  ("varint", "ztype.VarIntArrayTraits"); ("varint16", "ztype.VarInt16ArrayTraits"); ("varint32", "ztype.VarInt32ArrayTraits");
  ("varint64", "ztype.VarInt64ArrayTraits"); ("varuint", "ztype.VarUIntArrayTraits"); ("varsize", "ztype.VarSizeArrayTraits");
  ("varuint16", "ztype.VarUInt16ArrayTraits"); ("varuint32", "ztype.VarUInt32ArrayTraits"); ("varuint64", "ztype.VarUInt64ArrayTraits");
  ("bool", "ztype.BooleanArrayTraits"); ("string", "ztype.StringArrayTraits");
  ("float16", "ztype.Float16ArrayTraits"); ("float32", "ztype.Float32ArrayTraits"); ("float64", "ztype.Float64ArrayTraits");
  ("extern", "ztype.BitBufferArrayTraits"); ("bytes", "ztype.BytesArrayTraits")]%string.
Definition GoArrayTraits (t : tref) : option string := assoc (t_name t) array_traits_table.

(** zserioDeltaPackabeTypes, scope.go:82-106. *)
Definition delta_packable : list string := [
  "int8"; "int16"; "int32"; "int64"; "uint8"; "uint16"; "uint32"; "uint64"; "int"; "uint"; "bit";
  "varint"; "varint16"; "varint32"; "varint64"; "varuint"; "varsize"; "varuint16"; "varuint32"; "varuint64"]%string.
Definition IsDeltaPackable (t : tref) : bool := existsb (fun n => (n =? t_name t)%string) delta_packable.
