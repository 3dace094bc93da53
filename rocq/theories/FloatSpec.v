(** The values of floats, as integers in a fixed unit. *)

Require Import ZArith Bool.
Open Scope Z_scope.

(** A float32 pattern: sign, exponent and fraction. *)
Definition sign32 (u : Z) : Z := u / 2 ^ 31.
Definition exp32 (u : Z) : Z := (u / 2 ^ 23) mod 2 ^ 8.
Definition frac32 (u : Z) : Z := u mod 2 ^ 23.
(** The absolute value of a finite float32, in units of 2^-149. *)
Definition single_magnitude (u : Z) : Z :=
  if exp32 u =? 0 then frac32 u else (2 ^ 23 + frac32 u) * 2 ^ (exp32 u - 1).

(** A float16 pattern without its sign; the absolute value in the same unit.  The
    pattern of the infinity, 31 * 2^10, gets 2^16, which is where the next finite
    number would be. *)
Definition half_magnitude (h : Z) : Z :=
  let e := h / 2 ^ 10 in let m := h mod 2 ^ 10 in
  (if e =? 0 then m else (2 ^ 10 + m) * 2 ^ (e - 1)) * 2 ^ 125.
Definition half_infinity : Z := 31 * 2 ^ 10.

(** [h] is nearest to [x], and even if another one is as near. *)
Definition nearest_even (x h : Z) : Prop :=
  0 <= h <= half_infinity /\
  forall h', 0 <= h' <= half_infinity -> h' <> h ->
    Z.abs (x - half_magnitude h) < Z.abs (x - half_magnitude h') \/
    Z.abs (x - half_magnitude h) = Z.abs (x - half_magnitude h') /\ Z.even h = true.
