(** The text methods of a generated enum (templates/enum.go.tmpl), and the methods
    of a generated bitmask (templates/bitmask.go.tmpl). *)

Require Import ZArith String Ascii List Bool DecimalString.
From Verif Require Import Bits Stream Scalars Files.
Import ListNotations.
Open Scope Z_scope.

(** An enum declaration after evaluation: the items in their order, each with its
    name and its value (a Go constant of the enum type).  Go does not compile a
    map literal with a constant key twice, so in compiled code the names are
    different and the values are different. *)
Definition items := list (text * Z).

(** Sprintf("%v") of an integer *)
Definition show (z : Z) : text := str (NilZero.string_of_int (Z.to_int z)).

(** The maps, enum.go.tmpl:33-43. *)
Fixpoint name_of_value (e : items) (v : Z) : option text :=
  match e with [] => None | (n, x) :: e' => if x =? v then Some n else name_of_value e' v end.
Fixpoint value_of_name (e : items) (s : text) : option Z :=
  match e with [] => None | (n, x) :: e' => if list_eq_dec ascii_dec n s then Some x else value_of_name e' s end.

(** EnumValues and EnumStrings, enum.go.tmpl:45-55. *)
Definition EnumValues (e : items) : list Z := map snd e.
Definition EnumStrings (e : items) : list text := map fst e.

(** EnumString, enum.go.tmpl:59-66; None is the error. *)
Definition EnumString (e : items) (s : text) : option Z := value_of_name e s.

(** String, enum.go.tmpl:69-74. *)
Definition ToString (e : items) (v : Z) : text :=
  match name_of_value e v with
  | Some n => n
  | None => str "unknown(" ++ show v ++ str ")"
  end.

(** Value, enum.go.tmpl:78-80: the value stored in a database. *)
Definition SqlValue (e : items) (v : Z) : text := ToString e v.

(** Scan, enum.go.tmpl:83-107.  The sources: nil, a byte slice, a string, a
    Stringer, or something else.  The result is the new value of the variable, or
    None for an error, which leaves it as it was. *)
Inductive source := SrcNil | SrcBytes (s : text) | SrcString (s : text) | SrcStringer (s : text) | SrcOther.
Definition Scan (e : items) (old : Z) (src : source) : option Z :=
  match src with
  | SrcNil => Some old
  | SrcBytes s | SrcString s | SrcStringer s => EnumString e s
  | SrcOther => None
  end.

(** ** Bitmasks *)

(** The methods of a bitmask whose original type is bit:N (N other than 8, 16, 32
    and 64), bitmask.go.tmpl:24-67.  [own] is the width of the type as it is
    written in the declaration (Type.Bits): N for bit:N, 0 for the name of a
    subtype. *)
Definition BitmaskMarshal (own native v : Z) : writer unit := WriteUnsignedBits (u64 v) own.
Definition BitmaskUnmarshal (native : Z) : reader Z := ReadUnsignedBits native.
Definition BitmaskBitSize (native v : Z) : Z := native.
