(** Half-precision floats: WriteFloat16 and ReadFloat16.

    The conversions are those of github.com/x448/float16 v0.8.4 (go.mod:14),
    which is not in the sandbox; the definitions follow its published source
    (f16bitsToF32bits and f32bitsToF16bits).  A float32 is its bit pattern. *)

Require Import ZArith List Bool.
From Verif Require Import Bits Stream Scalars.
Import ListNotations.
Open Scope Z_scope.
Open Scope io_scope.

(** The loop normalising a subnormal: at most 10 shifts are needed. *)
Fixpoint f16_normalize (fuel : nat) (coef exp : Z) : Z * Z :=
  if Z.land coef 0x7f800000 =? 0 then
    match fuel with
    | O => (coef, exp)
    | S f => f16_normalize f (to_u 32 (Z.shiftl coef 1)) (to_u 32 (exp - 1))
    end
  else (coef, exp).

(** float16.Frombits(v).Float32(). *)
Definition f16_to_f32 (h : Z) : Z :=
  let sign := Z.shiftl (Z.land h 0x8000) 16 in
  let exp := Z.shiftr (Z.land h 0x7c00) 10 in
  let coef := Z.shiftl (Z.land h 0x3ff) 13 in
  if exp =? 0x1f then
    if coef =? 0 then Z.lor (Z.lor sign 0x7f800000) coef
    else Z.lor (Z.lor sign 0x7fc00000) coef
  else if (exp =? 0) && (coef =? 0) then sign
  else
    let '(coef', exp') :=
      if exp =? 0 then
        let '(c, e) := f16_normalize 11 coef 1 in (Z.land c 0x7fffff, e)
      else (coef, exp) in
    Z.lor (Z.lor sign (to_u 32 (Z.shiftl (to_u 32 (exp' + (0x7f - 0xf))) 23))) coef'.

(** float16.Fromfloat32(v).Bits(). *)
Definition f32_to_f16 (u : Z) : Z :=
  let sign := Z.land u 0x80000000 in
  let exp := Z.land u 0x7f800000 in
  let coef := Z.land u 0x7fffff in
  let halfSign := Z.shiftr sign 16 in
  if exp =? 0x7f800000 then
    let nanBit := if coef =? 0 then 0 else 0x200 in
    to_u 16 (Z.lor (Z.lor (Z.lor halfSign 0x7c00) nanBit) (Z.shiftr coef 13))
  else
    let halfExp := Z.shiftr exp 23 - 127 + 15 in
    if 0x1f <=? halfExp then to_u 16 (Z.lor halfSign 0x7c00)
    else if halfExp <=? 0 then
      if 24 <? 14 - halfExp then to_u 16 halfSign
      else
        let c := Z.lor coef 0x800000 in
        let halfCoef := Z.shiftr c (14 - halfExp) in
        let roundBit := Z.shiftl 1 (13 - halfExp) in
        let up := negb (Z.land c roundBit =? 0) && negb (Z.land c (3 * roundBit - 1) =? 0) in
        to_u 16 (Z.lor halfSign (if up then halfCoef + 1 else halfCoef))
    else
      let uHalfExp := Z.shiftl halfExp 10 in
      let halfCoef := Z.shiftr coef 13 in
      let roundBit := 0x1000 in
      let up := negb (Z.land coef roundBit =? 0) && negb (Z.land coef (3 * roundBit - 1) =? 0) in
      let h := Z.lor (Z.lor halfSign uHalfExp) halfCoef in
      to_u 16 (if up then h + 1 else h).

(** WriteFloat16 (ztype/float_encode.go:11-14), ReadFloat16
    (ztype/float_decode.go:11-17). *)
Definition WriteFloat16 (pattern : Z) : writer unit := write_bytes (be_bytes 2 (f32_to_f16 pattern)).
Definition ReadFloat16 : reader Z := l <-r read_full 2; rret (f16_to_f32 (be_value l)).
