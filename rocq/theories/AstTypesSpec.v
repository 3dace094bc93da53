(** Integer types: values and notation. *)

Require Import ZArith String Ascii List Bool.
From Verif Require Import AstExpr.
Import ListNotations.
Open Scope Z_scope.

(** The least value and the least number above all values of a zserio integer
    type.  The types are those with a name of their own, [bit:n] and [int:n] with
    1 to 64 bits, and [bit<e>] and [int<e>]. *)
Definition named_range : list (string * (Z * Z)) := [
  ("int8", (- 2 ^ 7, 2 ^ 7)); ("int16", (- 2 ^ 15, 2 ^ 15)); ("int32", (- 2 ^ 31, 2 ^ 31)); ("int64", (- 2 ^ 63, 2 ^ 63));
  ("uint8", (0, 2 ^ 8)); ("uint16", (0, 2 ^ 16)); ("uint32", (0, 2 ^ 32)); ("uint64", (0, 2 ^ 64));
  ("varint16", (- 2 ^ 14 + 1, 2 ^ 14)); ("varint32", (- 2 ^ 28 + 1, 2 ^ 28)); ("varint64", (- 2 ^ 56 + 1, 2 ^ 56));
  ("varint", (- 2 ^ 63, 2 ^ 63)); ("varuint16", (0, 2 ^ 15)); ("varuint32", (0, 2 ^ 29)); ("varuint64", (0, 2 ^ 57));
  ("varuint", (0, 2 ^ 64)); ("varsize", (0, 2 ^ 31))]%string.

Inductive int_type_range : tref -> Z * Z -> Prop :=
| range_named : forall n r, In (n, r) named_range -> int_type_range (mkT n 0 false) r
| range_bit : forall n, 1 <= n <= 64 -> int_type_range (mkT "bit" n false) (0, 2 ^ n)
| range_int : forall n, 1 <= n <= 64 -> int_type_range (mkT "int" n false) (- 2 ^ (n - 1), 2 ^ (n - 1))
| range_bit_dynamic : int_type_range (mkT "bit" 0 true) (0, 2 ^ 64)
| range_int_dynamic : int_type_range (mkT "int" 0 true) (- 2 ^ 63, 2 ^ 63).

Definition in_range (r : Z * Z) (v : Z) : Prop := fst r <= v < snd r.

(** Go's integer types. *)
Definition go_range : list (string * (Z * Z)) := [
  ("int8", (- 2 ^ 7, 2 ^ 7)); ("int16", (- 2 ^ 15, 2 ^ 15)); ("int32", (- 2 ^ 31, 2 ^ 31)); ("int64", (- 2 ^ 63, 2 ^ 63));
  ("uint8", (0, 2 ^ 8)); ("uint16", (0, 2 ^ 16)); ("uint32", (0, 2 ^ 32)); ("uint64", (0, 2 ^ 64))]%string.

(** Decimal notation: the text of a list of digits, most significant first, and
    the number that it denotes. *)
Definition digit_char (d : nat) : ascii := ascii_of_nat (48 + d).
Fixpoint text_of (ds : list nat) : string := match ds with [] => "" | d :: ds' => String (digit_char d) (text_of ds') end.
Definition number_of (ds : list nat) : Z := fold_left (fun n d => n * 10 + Z.of_nat d) ds 0.
