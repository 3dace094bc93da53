(** Rounding to half precision. *)

Require Import ZArith List Bool Lia ZifyBool.
From Verif Require Import Bits BitsFacts Stream Spec StreamFacts Scalars ScalarFacts Float16 Float16Convert Float16Facts FloatSpec.
Import ListNotations.
Open Scope Z_scope.

(** ** As written *)

Lemma write_rounds : forall u, 0 <= u < 2 ^ 32 -> exp32 u <> 255 ->
  exists h, encodes (WriteFloat16 u) (bits_of 16 (sign32 u * 2 ^ 15 + h)) /\ nearest_even (single_magnitude u) h.
Proof.
  intros u Hu He. destruct (narrow_finite u Hu He) as (h & E & Hn). exists h. split; [|exact Hn].
  rewrite <- E. apply WriteFloat16_enc.
Qed.
Lemma write_special : forall u, 0 <= u < 2 ^ 32 -> exp32 u = 255 ->
  exists h, encodes (WriteFloat16 u) (bits_of 16 (sign32 u * 2 ^ 15 + h)) /\
    if frac32 u =? 0 then h = half_infinity else half_infinity < h < 2 ^ 15.
Proof.
  intros u Hu He. pose proof (narrow_special u Hu He) as E. rewrite <- Z.add_assoc in E.
  eexists. split; [rewrite <- E; apply WriteFloat16_enc|]. destruct (frac32 u =? 0); [lia|].
  pose proof (frac32_range u) as Hm.
  assert (Hd : 0 <= frac32 u / 2 ^ 13 < 2 ^ 10) by (split; [apply Z.div_pos; lia|apply Z.div_lt_upper_bound; lia]).
  assert (Hl : 0 < Z.lor (2 ^ 9) (frac32 u / 2 ^ 13) < 2 ^ 10).
  { assert (Hz : 0 <= Z.lor (2 ^ 9) (frac32 u / 2 ^ 13)) by (apply Z.lor_nonneg; lia).
    assert (Hnz : Z.lor (2 ^ 9) (frac32 u / 2 ^ 13) <> 0) by (intros H; apply Z.lor_eq_0_iff in H; lia).
    split; [lia|]. apply Z.log2_lt_cancel. rewrite Z.log2_lor by lia. rewrite !Z.log2_pow2 by lia.
    destruct (Z.eq_dec (frac32 u / 2 ^ 13) 0) as [E0|E0]; [rewrite E0; cbn; lia|].
    assert (Z.log2 (frac32 u / 2 ^ 13) < 10) by (apply Z.log2_lt_pow2; lia). lia. }
  unfold half_infinity. lia.
Qed.
Lemma read_exact : forall h, 0 <= h < 2 ^ 16 -> (h mod 2 ^ 15) / 2 ^ 10 <> 31 ->
  exists u, decodes ReadFloat16 (bits_of 16 h) u /\ exp32 u <> 255 /\
    sign32 u = h / 2 ^ 15 /\ single_magnitude u = half_magnitude (h mod 2 ^ 15).
Proof.
  intros h Hh Hf. exists (f16_to_f32 h). destruct (f16_value h Hh Hf) as (A & B & C). split; [now apply ReadFloat16_dec|auto].
Qed.
