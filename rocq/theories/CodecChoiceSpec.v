(** The builtin types of the schema language, how each is stored and in which Go type
    it is held.  Independent of the templates. *)

Require Import ZArith String List Bool.
From Verif Require Import Bits Traits Schema AstTypesSpec.
Import ListNotations.
Open Scope Z_scope.

(** The types with a name of their own: the codec and the Go type. *)
Definition named_types : list (string * (builtin * string)) := [
  ("uint8", (BUint8, "uint8")); ("uint16", (BUint16, "uint16")); ("uint32", (BUint32, "uint32")); ("uint64", (BUint64, "uint64"));
  ("int8", (BInt8, "int8")); ("int16", (BInt16, "int16")); ("int32", (BInt32, "int32")); ("int64", (BInt64, "int64"));
  ("varint", (BVarint, "int64")); ("varint16", (BVarint16, "int16")); ("varint32", (BVarint32, "int32")); ("varint64", (BVarint64, "int64"));
  ("varuint", (BVaruint, "uint64")); ("varuint16", (BVaruint16, "uint16")); ("varuint32", (BVaruint32, "uint32"));
  ("varuint64", (BVaruint64, "uint64")); ("varsize", (BVarsize, "uint64"));
  ("bool", (BBool, "bool")); ("string", (BString, "string")); ("float16", (BFloat16, "float32")); ("float32", (BFloat32, "float32"));
  ("float64", (BFloat64, "float64")); ("bytes", (BBytes, "*ztype.BytesType")); ("extern", (BExtern, "*ztype.ExternType"))]%string.

(** The smallest Go integer of at least [n] bits. *)
Definition go_ints_of (signed : bool) : list (Z * string) :=
  if signed then [(8, "int8"); (16, "int16"); (32, "int32"); (64, "int64")]%string
  else [(8, "uint8"); (16, "uint16"); (32, "uint32"); (64, "uint64")]%string.
Definition smallest (n w : Z) : Prop := In w [8; 16; 32; 64] /\ n <= w /\ forall w', In w' [8; 16; 32; 64] -> n <= w' -> w <= w'.
Definition gint (signed : bool) (w : Z) : gotype := if signed then GS w else GU w.

(** A type as it is written, with the expression in angle brackets if it has one; how
    it is stored; and its Go type. *)
Inductive builtin_text : string -> option Schema.expr -> basic -> string -> Prop :=
| BT_named : forall n b g, In (n, (b, g)) named_types -> builtin_text n None (Std b) g
| BT_bits : forall (signed : bool) ds w g, ds <> [] -> Forall (fun d => (d <= 9)%nat) ds -> 1 <= number_of ds <= 64 ->
    ~ In (number_of ds) [8; 16; 32; 64] -> smallest (number_of ds) w -> In (w, g) (go_ints_of signed) ->
    builtin_text ((if signed then "int:" else "bit:") ++ text_of ds) None (Bits signed (gint signed w) (fun _ => Some (number_of ds))) g
| BT_standard : forall (signed : bool) ds g, ds <> [] -> Forall (fun d => (d <= 9)%nat) ds ->
    In (number_of ds, g) (go_ints_of signed) ->
    builtin_text ((if signed then "int:" else "bit:") ++ text_of ds) None
      (Std (if signed then BSBits (GS (number_of ds)) (number_of ds) else BBits (GU (number_of ds)) (number_of ds))) g
| BT_angle : forall (signed : bool) w,
    builtin_text (if signed then "int" else "bit") (Some w) (Bits signed (gint signed 64) w) (if signed then "int64" else "uint64").

(** The integer types. *)
Definition is_integer (t : basic) : Prop :=
  match t with
  | Bits _ _ _ | Std (BBits _ _) | Std (BSBits _ _) => True
  | Std b => In b [BVarint; BVarint16; BVarint32; BVarint64; BVaruint; BVaruint16; BVaruint32; BVaruint64; BVarsize]
  end.

(** The values of a Go type. *)
Definition of_go_type (g : string) (v : value) : Prop :=
  match v with
  | VBool _ => g = "bool"%string
  | VStr _ => g = "string"%string
  | VBuf _ => In g ["*ztype.BytesType"; "*ztype.ExternType"]%string
  | VInt _ => In g ["uint8"; "uint16"; "uint32"; "uint64"; "int8"; "int16"; "int32"; "int64"; "float32"; "float64"]%string
  | _ => False
  end.
