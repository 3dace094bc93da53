(** Property C78: half-precision floats round to nearest, ties to even. *)

Require Import ZArith List Bool Lia.
From Verif Require Import Bits Stream Spec Scalars Float16 FloatSpec Float16Convert Float16Round.
Import ListNotations.
Open Scope Z_scope.

(** Every finite float32 is written with its sign and the half-precision number
    nearest to it; of two that are as near, the even one.  From the middle between
    the greatest half-precision number and 2^16 on, that is the infinity. *)
Theorem C78_rounds : forall u, 0 <= u < 2 ^ 32 -> exp32 u <> 255 ->
  exists h, encodes (WriteFloat16 u) (bits_of 16 (sign32 u * 2 ^ 15 + h)) /\ nearest_even (single_magnitude u) h.
Proof. exact write_rounds. Qed.
Print Assumptions C78_rounds.

(** Only one pattern is nearest in that sense. *)
Theorem C78_unique : forall x h h', nearest_even x h -> nearest_even x h' -> h = h'.
Proof. exact nearest_unique. Qed.
Print Assumptions C78_unique.

(** Infinities are written as infinities and NaNs as NaNs, with their signs. *)
Theorem C78_special : forall u, 0 <= u < 2 ^ 32 -> exp32 u = 255 ->
  exists h, encodes (WriteFloat16 u) (bits_of 16 (sign32 u * 2 ^ 15 + h)) /\
    if frac32 u =? 0 then h = half_infinity else half_infinity < h < 2 ^ 15.
Proof. exact write_special. Qed.
Print Assumptions C78_special.

(** Reading a finite half-precision pattern gives its value exactly. *)
Theorem C78_read : forall h, 0 <= h < 2 ^ 16 -> (h mod 2 ^ 15) / 2 ^ 10 <> 31 ->
  exists u, decodes ReadFloat16 (bits_of 16 h) u /\ exp32 u <> 255 /\
    sign32 u = h / 2 ^ 15 /\ single_magnitude u = half_magnitude (h mod 2 ^ 15).
Proof. exact read_exact. Qed.
Print Assumptions C78_read.

(** 1.5 is exact; 1 + 2^-11 is as near to 1 as to 1 + 2^-10 and becomes 1;
    1 + 3 * 2^-11 becomes 1 + 2^-9; 65520 becomes infinite, 65519 does not;
    -2^-25 becomes -0. *)
Example C78_applies :
  exp32 0x3fc00000 <> 255 /\ f32_to_f16 0x3fc00000 = 0x3e00 /\
  f32_to_f16 0x3f801000 = 0x3c00 /\ f32_to_f16 0x3f803000 = 0x3c02 /\
  f32_to_f16 0x477ff000 = 0x7c00 /\ f32_to_f16 0x477fef00 = 0x7bff /\
  f32_to_f16 0xb3000000 = 0x8000 /\ sign32 0xb3000000 = 1 /\
  exp32 0x7f800001 = 255 /\ f32_to_f16 0x7f800001 = 0x7e00 /\
  half_magnitude 0x3c00 = 2 ^ 149 /\ single_magnitude 0x3f800000 = 2 ^ 149 /\
  nearest_even (single_magnitude 0x3f801000) 0x3c00.
Proof.
  assert (Hn : nearest_even (single_magnitude 0x3f801000) 0x3c00).
  { destruct (narrow_finite 0x3f801000 ltac:(lia) ltac:(vm_compute; discriminate)) as (h & E & Hn).
    change (f32_to_f16 0x3f801000) with 0x3c00 in E. change (sign32 0x3f801000) with 0 in E.
    assert (Eh : h = 0x3c00) by lia. rewrite <- Eh. exact Hn. }
  do 12 (split; [vm_compute; first [reflexivity|discriminate]|]). exact Hn.
Qed.
