(** Which element types and values the array theorems range over. *)

Require Import ZArith List Bool.
From Verif Require Import Bits Stream Scalars Float16 ScalarTable Traits.
Import ListNotations.
Open Scope Z_scope.

(** The bits a writer produces on an empty stream. *)
Definition output (m : writer unit) : list bool := wbits (fst (m (mkW [] []))).

Definition go_width (w : Z) : Prop := w = 8 \/ w = 16 \/ w = 32 \/ w = 64.

(** Element types of generated code: an unsigned bit field lives in an unsigned
    Go type at least as wide, a signed one in a signed Go type. *)
Definition wf_builtin (b : builtin) : Prop :=
  match b with
  | BBits (GU w) n => go_width w /\ 1 <= n <= w
  | BBits (GS w) n => False
  | BSBits (GS w) n => go_width w /\ 1 <= n <= w
  | BSBits (GU w) n => False
  | _ => True
  end.

(** Values of the element type. *)
Definition in_range (b : builtin) : elt b -> Prop :=
  match b as b return elt b -> Prop with
  | BVarint => in_s 64
  | BVarint16 => fun v => - MaxVarint16 <= v <= MaxVarint16
  | BVarint32 => fun v => - MaxVarint32 <= v <= MaxVarint32
  | BVarint64 => fun v => - MaxVarint64 <= v <= MaxVarint64
  | BVaruint => in_u 64
  | BVaruint16 => fun v => 0 <= v <= MaxVaruint16
  | BVaruint32 => fun v => 0 <= v <= MaxVaruint32
  | BVaruint64 => fun v => 0 <= v <= MaxVaruint64
  | BVarsize => fun v => 0 <= v <= MaxVarsize
  | BBool => fun _ => True
  | BString => byte_string
  | BFloat16 => fun v => exists h, 0 <= h < 2 ^ 16 /\ v = f16_to_f32 h
  | BFloat32 => in_u 32
  | BFloat64 => in_u 64
  | BBytes => fun p => exists x, p = Some x /\ bytes_value x
  | BExtern => fun p => exists x, p = Some x /\ extern_value x
  | BBits _ n => fun v => 0 <= v < 2 ^ n
  | BSBits _ n => fun v => - 2 ^ (n - 1) <= v < 2 ^ (n - 1)
  end.

(** Types that delta packing is meant for: integers, bit fields and bools. *)
Definition integer_like (b : builtin) : Prop :=
  match b with
  | BString | BFloat16 | BFloat32 | BFloat64 | BBytes | BExtern => False
  | _ => True
  end.
