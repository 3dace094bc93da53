(** The conversions between half and single precision. *)

Require Import ZArith List Bool Lia ZifyBool.
From Verif Require Import Bits BitsFacts Stream Spec StreamFacts Scalars ScalarFacts Float16 FloatSpec.
Import ListNotations.
Open Scope Z_scope.

Lemma half_step : forall h, 0 <= h -> half_magnitude h < half_magnitude (h + 1).
Proof.
  intros h Hh. unfold half_magnitude. apply Z.mul_lt_mono_pos_r; [reflexivity|].
  pose proof (Z.mod_pos_bound h (2 ^ 10) ltac:(lia)) as Hm. pose proof (Z.div_pos h (2 ^ 10) ltac:(lia) ltac:(lia)) as He.
  assert (Hd : h = 2 ^ 10 * (h / 2 ^ 10) + h mod 2 ^ 10) by (apply Z.div_mod; lia).
  destruct (Z.eq_dec (h mod 2 ^ 10) (2 ^ 10 - 1)) as [El|El].
  - assert (E1 : (h + 1) / 2 ^ 10 = h / 2 ^ 10 + 1) by (symmetry; apply (Z.div_unique _ _ _ 0); lia).
    assert (E2 : (h + 1) mod 2 ^ 10 = 0) by (symmetry; apply (Z.mod_unique _ _ (h / 2 ^ 10 + 1)); lia).
    rewrite E1, E2, El. replace (h / 2 ^ 10 + 1 =? 0) with false by lia. rewrite Z.add_simpl_r, Z.add_0_r.
    destruct (h / 2 ^ 10 =? 0) eqn:E0.
    + replace (h / 2 ^ 10) with 0 by lia. lia.
    + replace (h / 2 ^ 10) with (Z.succ (h / 2 ^ 10 - 1)) at 2 by lia. rewrite Z.pow_succ_r by lia.
      pose proof (Z.pow_pos_nonneg 2 (h / 2 ^ 10 - 1) ltac:(lia) ltac:(lia)). nia.
  - assert (E1 : (h + 1) / 2 ^ 10 = h / 2 ^ 10) by (symmetry; apply (Z.div_unique _ _ _ (h mod 2 ^ 10 + 1)); lia).
    assert (E2 : (h + 1) mod 2 ^ 10 = h mod 2 ^ 10 + 1) by (symmetry; apply (Z.mod_unique _ _ (h / 2 ^ 10)); lia).
    rewrite E1, E2. destruct (h / 2 ^ 10 =? 0) eqn:E0; [lia|].
    pose proof (Z.pow_pos_nonneg 2 (h / 2 ^ 10 - 1) ltac:(lia) ltac:(lia)). nia.
Qed.

Lemma half_mono : forall a b, 0 <= a -> a < b -> half_magnitude a < half_magnitude b.
Proof.
  intros a b Ha Hab. replace b with (a + 1 + Z.of_nat (Z.to_nat (b - a - 1))) by lia.
  generalize (Z.to_nat (b - a - 1)) as n. induction n as [|n IH].
  - replace (a + 1 + Z.of_nat 0) with (a + 1) by lia. now apply half_step.
  - eapply Z.lt_trans; [exact IH|]. replace (a + 1 + Z.of_nat (S n)) with (a + 1 + Z.of_nat n + 1) by lia.
    apply half_step. lia.
Qed.

(** Between two neighbours, the middle decides. *)
Lemma nearest_between : forall x h0 (up : bool), 0 <= h0 < half_infinity ->
  half_magnitude h0 <= x <= half_magnitude (h0 + 1) ->
  (if up then 2 * (x - half_magnitude h0) > half_magnitude (h0 + 1) - half_magnitude h0 \/
              2 * (x - half_magnitude h0) = half_magnitude (h0 + 1) - half_magnitude h0 /\ Z.odd h0 = true
   else 2 * (x - half_magnitude h0) < half_magnitude (h0 + 1) - half_magnitude h0 \/
        2 * (x - half_magnitude h0) = half_magnitude (h0 + 1) - half_magnitude h0 /\ Z.even h0 = true) ->
  nearest_even x (if up then h0 + 1 else h0).
Proof.
  intros x h0 up Hh Hx Hup. split; [destruct up; lia|]. intros h' Hh' Hne.
  assert (L : h' < h0 -> half_magnitude h' < half_magnitude h0) by (intros; apply half_mono; lia).
  assert (R : h0 + 1 < h' -> half_magnitude (h0 + 1) < half_magnitude h') by (intros; apply half_mono; lia).
  assert (Hcases : h' < h0 \/ h' = h0 \/ h' = h0 + 1 \/ h0 + 1 < h') by lia.
  assert (Ho : Z.even (h0 + 1) = Z.odd h0) by (rewrite Z.add_1_r, Z.even_succ; reflexivity).
  destruct up.
  - destruct Hcases as [H|[->|[->|H]]]; [left; specialize (L H); lia| |congruence|left; specialize (R H); lia].
    destruct Hup as [Hup|[Hup Hodd]]; [left; lia|right; rewrite Ho; split; [lia|exact Hodd]].
  - destruct Hcases as [H|[->|[->|H]]]; [left; specialize (L H); lia|congruence| |left; specialize (R H); lia].
    destruct Hup as [Hup|[Hup Hev]]; [left; lia|right; split; [lia|exact Hev]].
Qed.

Lemma nearest_unique : forall x h h', nearest_even x h -> nearest_even x h' -> h = h'.
Proof.
  intros x h h' [H1 H2] [H3 H4]. destruct (Z.eq_dec h h') as [E|E]; [exact E|exfalso].
  destruct (H2 h' H3 ltac:(congruence)) as [A|[A A']]; destruct (H4 h H1 E) as [B|[B B']]; try lia.
  (* both even and equally near: something lies between them *)
  assert (Hb : exists m, 0 <= m <= half_infinity /\ m <> h /\ m <> h' /\
    (h < m < h' \/ h' < m < h)).
  { assert (h + 1 <> h' /\ h' + 1 <> h).
    { split; intros <-; rewrite Z.add_1_r, Z.even_succ, <- Z.negb_even in *; [rewrite A' in B'|rewrite B' in A']; discriminate. }
    exists (if h <? h' then h + 1 else h' + 1). destruct (h <? h') eqn:El; lia. }
  destruct Hb as (m & Hm & N1 & N2 & Hbt).
  pose proof (H2 m Hm N1). pose proof (H4 m Hm N2).
  destruct Hbt as [[G1 G2]|[G1 G2]].
  - pose proof (half_mono h m ltac:(lia) G1). pose proof (half_mono m h' ltac:(lia) G2). lia.
  - pose proof (half_mono h' m ltac:(lia) G1). pose proof (half_mono m h ltac:(lia) G2). lia.
Qed.

(** ** Bits *)

Lemma testbit_div : forall c k, 0 <= k -> Z.testbit c k = Z.odd (c / 2 ^ k).
Proof. intros c k Hk. now rewrite Z.testbit_odd, Z.shiftr_div_pow2. Qed.
Lemma land_bit : forall c k, 0 <= k -> (Z.land c (2 ^ k) =? 0) = negb (Z.testbit c k).
Proof.
  intros c k Hk. destruct (Z.testbit c k) eqn:E; cbn [negb].
  - apply Z.eqb_neq. intros H. assert (Z.testbit (Z.land c (2 ^ k)) k = true) as T.
    { now rewrite Z.land_spec, E, Z.pow2_bits_true. }
    rewrite H, Z.bits_0 in T. discriminate.
  - apply Z.eqb_eq. apply Z.bits_inj'. intros n Hn. rewrite Z.land_spec, Z.bits_0, Z.pow2_bits_eqb by lia.
    destruct (k =? n) eqn:En; [|apply andb_false_r]. replace n with k by lia. now rewrite E.
Qed.
Lemma round_mask : forall k, 1 <= k -> 3 * 2 ^ (k - 1) - 1 = Z.lor (2 ^ k) (Z.ones (k - 1)).
Proof.
  intros k Hk. pose proof (Z.pow_pos_nonneg 2 (k - 1) ltac:(lia) ltac:(lia)) as Hp.
  assert (E : 2 ^ k = 2 * 2 ^ (k - 1)) by (replace k with (Z.succ (k - 1)) at 1 by lia; now rewrite Z.pow_succ_r by lia).
  rewrite Z.ones_equiv. pose proof (lor_group 1 k (Z.pred (2 ^ (k - 1))) ltac:(lia) ltac:(lia)) as Hl.
  rewrite Z.shiftl_mul_pow2, Z.mul_1_l in Hl by lia. rewrite Hl. lia.
Qed.
Lemma land_round : forall c k, 1 <= k ->
  (Z.land c (3 * 2 ^ (k - 1) - 1) =? 0) = negb (Z.odd (c / 2 ^ k)) && (c mod 2 ^ (k - 1) =? 0).
Proof.
  intros c k Hk. rewrite round_mask, Z.land_lor_distr_r, Z.land_ones by lia.
  rewrite <- testbit_div, <- land_bit by lia.
  destruct (Z.land c (2 ^ k) =? 0) eqn:E1, (c mod 2 ^ (k - 1) =? 0) eqn:E2; cbn [andb].
  - apply Z.eqb_eq in E1, E2. now rewrite E1, E2.
  - apply Z.eqb_neq. apply Z.eqb_neq in E2. intros H. apply E2. now apply Z.lor_eq_0_iff in H.
  - apply Z.eqb_neq. apply Z.eqb_neq in E1. intros H. apply E1. now apply Z.lor_eq_0_iff in H.
  - apply Z.eqb_neq. apply Z.eqb_neq in E1. intros H. apply E1. now apply Z.lor_eq_0_iff in H.
Qed.

(** The decision of the code: [r] bits of [k] are dropped from [c]. *)
Definition rounds_up (c k : Z) : bool :=
  negb (Z.land c (2 ^ (k - 1)) =? 0) && negb (Z.land c (3 * 2 ^ (k - 1) - 1) =? 0).
Lemma rounds_up_spec : forall c k, 1 <= k ->
  if rounds_up c k then 2 * (c mod 2 ^ k) > 2 ^ k \/ 2 * (c mod 2 ^ k) = 2 ^ k /\ Z.odd (c / 2 ^ k) = true
  else 2 * (c mod 2 ^ k) < 2 ^ k \/ 2 * (c mod 2 ^ k) = 2 ^ k /\ Z.even (c / 2 ^ k) = true.
Proof.
  intros c k Hk. unfold rounds_up. rewrite land_bit, land_round, negb_involutive, testbit_div by lia.
  set (p := 2 ^ (k - 1)). assert (Hp : 0 < p) by (apply Z.pow_pos_nonneg; lia).
  assert (E : 2 ^ k = p * 2) by (unfold p; replace k with (Z.succ (k - 1)) at 1 by lia; rewrite Z.pow_succ_r by lia; lia).
  rewrite E. rewrite (Z.rem_mul_r c p 2) by lia. pose proof (Z.mod_pos_bound c p Hp) as Hr.
  rewrite <- Z.negb_odd. rewrite (Zmod_odd (c / p)). destruct (Z.odd (c / p)); cbn [andb].
  - destruct (Z.odd (c / (p * 2))); cbn [negb andb].
    + destruct (Z.eq_dec (c mod p) 0); [right; split; [lia|reflexivity]|left; lia].
    + destruct (c mod p =? 0) eqn:E0; cbn [negb]; [right; split; [lia|reflexivity]|left; lia].
  - left. lia.
Qed.

(** ** The conversion *)

Lemma half_parts : forall e m, 0 <= e -> 0 <= m < 2 ^ 10 -> (e * 2 ^ 10 + m) / 2 ^ 10 = e /\ (e * 2 ^ 10 + m) mod 2 ^ 10 = m.
Proof.
  intros e m He Hm. split.
  - symmetry. apply (Z.div_unique _ _ _ m); lia.
  - symmetry. apply (Z.mod_unique _ _ e); lia.
Qed.
Lemma half_magnitude_normal : forall e m, 1 <= e -> 0 <= m < 2 ^ 10 ->
  half_magnitude (e * 2 ^ 10 + m) = (2 ^ 10 + m) * 2 ^ (e - 1) * 2 ^ 125.
Proof.
  intros e m He Hm. destruct (half_parts e m ltac:(lia) Hm) as [E1 E2]. unfold half_magnitude. rewrite E1, E2.
  now replace (e =? 0) with false by lia.
Qed.
Lemma half_magnitude_next : forall e m, 1 <= e -> 0 <= m < 2 ^ 10 ->
  half_magnitude (e * 2 ^ 10 + m + 1) = (2 ^ 10 + m + 1) * 2 ^ (e - 1) * 2 ^ 125.
Proof.
  intros e m He Hm. destruct (Z.eq_dec m (2 ^ 10 - 1)) as [->|Hn].
  - replace (e * 2 ^ 10 + (2 ^ 10 - 1) + 1) with ((e + 1) * 2 ^ 10 + 0) by lia.
    rewrite half_magnitude_normal by lia. replace (e + 1 - 1) with (Z.succ (e - 1)) by lia. rewrite Z.pow_succ_r by lia. lia.
  - replace (e * 2 ^ 10 + m + 1) with (e * 2 ^ 10 + (m + 1)) by lia. rewrite half_magnitude_normal by lia. lia.
Qed.
Lemma half_magnitude_small : forall h, 0 <= h <= 2 ^ 10 -> half_magnitude h = h * 2 ^ 125.
Proof.
  intros h Hh. destruct (Z.eq_dec h (2 ^ 10)) as [->|Hn]; [reflexivity|]. unfold half_magnitude.
  rewrite Z.div_small, Z.mod_small by lia. reflexivity.
Qed.

Lemma land_shiftl_mask : forall u w k, 0 <= k -> Z.land u (Z.shiftl w k) = Z.shiftl (Z.land (Z.shiftr u k) w) k.
Proof.
  intros u w k Hk. apply Z.bits_inj'. intros n Hn. rewrite Z.land_spec, !Z.shiftl_spec by lia.
  destruct (Z.ltb_spec n k).
  - rewrite !(Z.testbit_neg_r _ (n - k)) by lia. apply andb_false_r.
  - rewrite Z.land_spec, Z.shiftr_spec by lia. now replace (n - k + k) with n by lia.
Qed.
Lemma f32_sign : forall u, 0 <= u < 2 ^ 32 -> Z.shiftr (Z.land u 0x80000000) 16 = sign32 u * 2 ^ 15.
Proof.
  intros u Hu. change 0x80000000 with (Z.shiftl (Z.ones 1) 31). rewrite land_shiftl_mask, Z.land_ones by lia.
  rewrite Z.shiftr_div_pow2, (Z.shiftr_div_pow2 u), Z.shiftl_mul_pow2 by lia. unfold sign32.
  assert (0 <= u / 2 ^ 31 < 2) by (split; [apply Z.div_pos; lia|apply Z.div_lt_upper_bound; lia]).
  rewrite (Z.mod_small (u / 2 ^ 31)) by (change (2 ^ 1) with 2; lia).
  change (2 ^ 31) with (2 ^ 15 * 2 ^ 16) at 2. rewrite Z.mul_assoc. now rewrite Z.div_mul by lia.
Qed.
Lemma f32_exp : forall u, Z.land u 0x7f800000 = exp32 u * 2 ^ 23.
Proof.
  intros u. change 0x7f800000 with (Z.shiftl (Z.ones 8) 23). rewrite land_shiftl_mask, Z.land_ones by lia.
  now rewrite Z.shiftr_div_pow2, Z.shiftl_mul_pow2 by lia.
Qed.
Lemma f32_frac : forall u, Z.land u 0x7fffff = frac32 u.
Proof. intros u. change 0x7fffff with (Z.ones 23). now rewrite Z.land_ones by lia. Qed.
Lemma sign32_range : forall u, 0 <= u < 2 ^ 32 -> 0 <= sign32 u <= 1.
Proof. intros u Hu. unfold sign32. assert (0 <= u / 2 ^ 31 < 2) by (split; [apply Z.div_pos; lia|apply Z.div_lt_upper_bound; lia]). lia. Qed.
Lemma exp32_range : forall u, 0 <= exp32 u < 256.
Proof. intros u. unfold exp32. change 256 with (2 ^ 8). apply Z.mod_pos_bound. lia. Qed.
Lemma frac32_range : forall u, 0 <= frac32 u < 2 ^ 23.
Proof. intros u. unfold frac32. apply Z.mod_pos_bound. lia. Qed.

Lemma signed_half : forall s h, 0 <= s <= 1 -> 0 <= h < 2 ^ 15 -> Z.lor (s * 2 ^ 15) h = s * 2 ^ 15 + h.
Proof. intros s h Hs Hh. rewrite <- (lor_group s 15 h) by lia. now rewrite Z.shiftl_mul_pow2 by lia. Qed.

Lemma narrow_special : forall u, 0 <= u < 2 ^ 32 -> exp32 u = 255 ->
  f32_to_f16 u = sign32 u * 2 ^ 15 + half_infinity + (if frac32 u =? 0 then 0 else Z.lor (2 ^ 9) (frac32 u / 2 ^ 13)).
Proof.
  intros u Hu He. unfold f32_to_f16. rewrite f32_sign, f32_exp, f32_frac, He by lia.
  change (255 * 2 ^ 23 =? 0x7f800000) with true. cbv iota zeta.
  pose proof (sign32_range u Hu). pose proof (frac32_range u).
  rewrite signed_half by lia. rewrite Z.shiftr_div_pow2 by lia. rewrite <- Z.lor_assoc.
  assert (Hd : 0 <= frac32 u / 2 ^ 13 < 2 ^ 10) by (split; [apply Z.div_pos; lia|apply Z.div_lt_upper_bound; lia]).
  replace (sign32 u * 2 ^ 15 + 0x7c00) with (Z.shiftl (sign32 u * 2 ^ 5 + 31) 10) by (rewrite Z.shiftl_mul_pow2 by lia; lia).
  assert (Hl : forall n, n = (if frac32 u =? 0 then 0 else 0x200) -> 0 <= Z.lor n (frac32 u / 2 ^ 13) < 2 ^ 10
    /\ Z.lor n (frac32 u / 2 ^ 13) = (if frac32 u =? 0 then 0 else Z.lor (2 ^ 9) (frac32 u / 2 ^ 13))).
  { intros n ->. destruct (frac32 u =? 0) eqn:E0.
    - apply Z.eqb_eq in E0. rewrite E0. cbn. lia.
    - split; [|reflexivity]. split; [apply Z.lor_nonneg; lia|].
      apply Z.log2_lt_cancel. rewrite Z.log2_lor by lia. change (Z.log2 0x200) with 9. rewrite Z.log2_pow2 by lia.
      destruct (Z.eq_dec (frac32 u / 2 ^ 13) 0) as [E|E]; [rewrite E; cbn; lia|].
      assert (Z.log2 (frac32 u / 2 ^ 13) < 10) by (apply Z.log2_lt_pow2; lia). lia. }
  destruct (Hl _ eq_refl) as [R1 R2]. rewrite lor_group by lia. rewrite R2 in *. unfold to_u, half_infinity.
  set (z := if frac32 u =? 0 then 0 else Z.lor (2 ^ 9) (frac32 u / 2 ^ 13)) in *. clearbody z.
  rewrite Z.mod_small; lia.
Qed.

Lemma nearest_beyond : forall x, half_magnitude half_infinity <= x -> nearest_even x half_infinity.
Proof.
  intros x Hx. split; [unfold half_infinity; lia|]. intros h' Hh Hn. left.
  pose proof (half_mono h' half_infinity ltac:(lia) ltac:(lia)). lia.
Qed.

Lemma nearest_scaled : forall x h0 k r P, 0 < P -> 0 <= h0 < half_infinity -> 0 <= k -> 0 <= r < 2 ^ k ->
  x = half_magnitude h0 + r * P -> half_magnitude (h0 + 1) = half_magnitude h0 + 2 ^ k * P ->
  forall up : bool,
  (if up then 2 * r > 2 ^ k \/ 2 * r = 2 ^ k /\ Z.odd h0 = true else 2 * r < 2 ^ k \/ 2 * r = 2 ^ k /\ Z.even h0 = true) ->
  nearest_even x (if up then h0 + 1 else h0).
Proof.
  intros x h0 k r P HP Hh Hk Hr Hx Hn up Hup. apply nearest_between; [exact Hh|nia|]. rewrite Hx, Hn.
  replace (2 * (half_magnitude h0 + r * P - half_magnitude h0)) with (2 * r * P) by ring.
  replace (half_magnitude h0 + 2 ^ k * P - half_magnitude h0) with (2 ^ k * P) by ring.
  destruct up; (destruct Hup as [Hup|[Hup Hp]]; [left; nia|right; split; [now rewrite Hup|exact Hp]]).
Qed.

Lemma narrow_finite : forall u, 0 <= u < 2 ^ 32 -> exp32 u <> 255 ->
  exists h, f32_to_f16 u = sign32 u * 2 ^ 15 + h /\ nearest_even (single_magnitude u) h.
Proof.
  intros u Hu He. unfold f32_to_f16. rewrite f32_sign, f32_exp, f32_frac by lia.
  pose proof (sign32_range u Hu) as Hs. pose proof (frac32_range u) as Hm. pose proof (exp32_range u) as Hr.
  unfold single_magnitude. set (s := sign32 u) in *. set (m := frac32 u) in *. set (e := exp32 u) in *. clearbody s m e.
  replace (e * 2 ^ 23 =? 0x7f800000) with false by lia.
  rewrite Z.shiftr_div_pow2, Z.div_mul by lia. cbv zeta.
  assert (Hmod : forall h, 0 <= h <= half_infinity -> to_u 16 (s * 2 ^ 15 + h) = s * 2 ^ 15 + h).
  { intros h Hh. unfold half_infinity in Hh. unfold to_u. apply Z.mod_small. lia. }
  destruct (0x1f <=? e - 127 + 15) eqn:E1.
  { exists half_infinity. rewrite signed_half by lia. split; [apply Hmod; unfold half_infinity; lia|].
    apply nearest_beyond. replace (e =? 0) with false by lia. change (half_magnitude half_infinity) with (2 ^ 23 * 2 ^ 142).
    assert (2 ^ 142 <= 2 ^ (e - 1)) by (apply Z.pow_le_mono_r; lia). nia. }
  destruct (e - 127 + 15 <=? 0) eqn:E2.
  - destruct (24 <? 14 - (e - 127 + 15)) eqn:E3.
    + exists 0. rewrite Z.add_0_r. split; [rewrite <- (Z.add_0_r (s * 2 ^ 15)) at 1; rewrite Hmod; unfold half_infinity; lia|].
      apply (nearest_between _ 0 false); [unfold half_infinity; lia| |left].
      * change (half_magnitude 0) with 0. change (half_magnitude (0 + 1)) with (2 ^ 125). destruct (e =? 0) eqn:E0; [lia|].
        assert (2 ^ (e - 1) <= 2 ^ 100) by (apply Z.pow_le_mono_r; lia).
        pose proof (Z.pow_pos_nonneg 2 (e - 1) ltac:(lia) ltac:(lia)). nia.
      * change (half_magnitude 0) with 0. change (half_magnitude (0 + 1)) with (2 ^ 125). destruct (e =? 0) eqn:E0; [lia|].
        assert (2 ^ (e - 1) <= 2 ^ 100) by (apply Z.pow_le_mono_r; lia).
        pose proof (Z.pow_pos_nonneg 2 (e - 1) ltac:(lia) ltac:(lia)). nia.
    + set (k := 14 - (e - 127 + 15)) in *. assert (Hk : 14 <= k <= 24) by lia.
      assert (Hc : Z.lor m 0x800000 = 2 ^ 23 + m).
      { rewrite Z.lor_comm. change 0x800000 with (Z.shiftl 1 23). rewrite lor_group by lia. lia. }
      rewrite Hc. replace (13 - (e - 127 + 15)) with (k - 1) by lia. rewrite Z.shiftl_mul_pow2, Z.mul_1_l by lia.
      change (negb (Z.land (2 ^ 23 + m) (2 ^ (k - 1)) =? 0) && negb (Z.land (2 ^ 23 + m) (3 * 2 ^ (k - 1) - 1) =? 0))
        with (rounds_up (2 ^ 23 + m) k).
      rewrite Z.shiftr_div_pow2 by lia. set (c := 2 ^ 23 + m) in *.
      assert (Hpk : 2 ^ 14 <= 2 ^ k) by (apply Z.pow_le_mono_r; lia).
      assert (Hh0 : 0 <= c / 2 ^ k < 2 ^ 10).
      { split; [apply Z.div_pos; lia|apply Z.div_lt_upper_bound; [lia|]]. unfold c. nia. }
      pose proof (rounds_up_spec c k ltac:(lia)) as Hup.
      assert (Hn : nearest_even (c * 2 ^ (125 - k)) (if rounds_up c k then c / 2 ^ k + 1 else c / 2 ^ k)).
      { apply (nearest_scaled _ _ k (c mod 2 ^ k) (2 ^ (125 - k))).
        - apply Z.pow_pos_nonneg; lia.
        - unfold half_infinity. lia.
        - lia.
        - apply Z.mod_pos_bound. lia.
        - rewrite half_magnitude_small by lia. replace 125 with (k + (125 - k)) at 2 by lia. rewrite Z.pow_add_r by lia.
          rewrite (Z.div_mod c (2 ^ k)) at 1 by lia. ring.
        - rewrite !half_magnitude_small by lia. replace (2 ^ 125) with (2 ^ k * 2 ^ (125 - k)) by (rewrite <- Z.pow_add_r by lia; f_equal; lia).
          ring.
        - exact Hup. }
      eexists. split; [|replace (e =? 0) with false by lia; replace (e - 1) with (125 - k) by lia; exact Hn].
      rewrite signed_half by (try lia; destruct (rounds_up c k); lia). apply Hmod. apply Hn.
  - set (he := e - 127 + 15) in *. assert (Hhe : 1 <= he <= 30) by lia.
    change (negb (Z.land m 0x1000 =? 0) && negb (Z.land m (3 * 0x1000 - 1) =? 0)) with (rounds_up m 13).
    rewrite (Z.shiftr_div_pow2 m), (Z.shiftl_mul_pow2 he) by lia.
    assert (Hq : 0 <= m / 2 ^ 13 < 2 ^ 10) by (split; [apply Z.div_pos; lia|apply Z.div_lt_upper_bound; lia]).
    set (q := m / 2 ^ 13) in *. pose proof (rounds_up_spec m 13 ltac:(lia)) as Hup. fold q in Hup.
    assert (Hn : nearest_even ((2 ^ 23 + m) * 2 ^ (e - 1)) (if rounds_up m 13 then he * 2 ^ 10 + q + 1 else he * 2 ^ 10 + q)).
    { assert (E : 2 ^ (e - 1) = 2 ^ (he - 1) * 2 ^ 112) by (rewrite <- Z.pow_add_r by lia; f_equal; lia).
      pose proof (Z.pow_pos_nonneg 2 (he - 1) ltac:(lia) ltac:(lia)) as HP.
      apply (nearest_scaled _ _ 13 (m mod 2 ^ 13) (2 ^ (he - 1) * 2 ^ 112)).
      - lia.
      - unfold half_infinity. lia.
      - lia.
      - apply Z.mod_pos_bound. lia.
      - rewrite half_magnitude_normal by lia. rewrite E. rewrite (Z.div_mod m (2 ^ 13)) at 1 by lia. fold q.
        change (2 ^ 125) with (2 ^ 13 * 2 ^ 112). change (2 ^ 23) with (2 ^ 10 * 2 ^ 13). ring.
      - rewrite half_magnitude_normal, half_magnitude_next by lia. change (2 ^ 125) with (2 ^ 13 * 2 ^ 112). ring.
      - assert (Eo : Z.odd (he * 2 ^ 10 + q) = Z.odd q) by (rewrite Z.odd_add, Z.odd_mul; change (Z.odd (2 ^ 10)) with false; now rewrite andb_false_r, xorb_false_l).
        rewrite <- (Z.negb_odd (he * 2 ^ 10 + q)), Eo, Z.negb_odd. exact Hup. }
    exists (if rounds_up m 13 then he * 2 ^ 10 + q + 1 else he * 2 ^ 10 + q).
    split; [|replace (e =? 0) with false by lia; exact Hn].
    rewrite <- Z.lor_assoc. 
    replace (Z.lor (he * 2 ^ 10) q) with (he * 2 ^ 10 + q) by (rewrite <- (lor_group he 10 q) by lia; now rewrite Z.shiftl_mul_pow2 by lia).
    rewrite signed_half by lia.
    rewrite <- (Hmod _ (proj1 Hn)). f_equal. destruct (rounds_up m 13); lia.
Qed.

(** ** What is read is exact *)

(** Sign, exponent and fraction of a float16. *)
Lemma half_pattern : forall h, 0 <= h < 2 ^ 16 -> exists s e m, 0 <= s <= 1 /\ 0 <= e < 32 /\ 0 <= m < 2 ^ 10 /\ h = s * 2 ^ 15 + (e * 2 ^ 10 + m).
Proof.
  intros h Hh. exists (h / 2 ^ 15), (h / 2 ^ 10 mod 32), (h mod 2 ^ 10).
  pose proof (Z.div_pos h (2 ^ 15) ltac:(lia) ltac:(lia)). assert (h / 2 ^ 15 < 2) by (apply Z.div_lt_upper_bound; lia).
  pose proof (Z.mod_pos_bound (h / 2 ^ 10) 32 ltac:(lia)). pose proof (Z.mod_pos_bound h (2 ^ 10) ltac:(lia)).
  repeat (split; [lia|]). change (2 ^ 15) with (2 ^ 10 * 32). rewrite <- Z.div_div by lia.
  pose proof (Z.div_mod h (2 ^ 10) ltac:(lia)). pose proof (Z.div_mod (h / 2 ^ 10) 32 ltac:(lia)). lia.
Qed.
Lemma half_fields : forall s e m, 0 <= s <= 1 -> 0 <= e < 32 -> 0 <= m < 2 ^ 10 -> let h := s * 2 ^ 15 + (e * 2 ^ 10 + m) in
  Z.land h 0x8000 = s * 2 ^ 15 /\ Z.land h 0x7c00 = e * 2 ^ 10 /\ Z.land h 0x3ff = m.
Proof.
  intros s e m Hs He Hm h. assert (D : h / 2 ^ 10 = s * 32 + e) by (symmetry; apply (Z.div_unique _ _ _ m); unfold h; lia).
  assert (D' : h / 2 ^ 15 = s) by (symmetry; apply (Z.div_unique _ _ _ (e * 2 ^ 10 + m)); unfold h; lia). repeat split.
  - change 0x8000 with (Z.shiftl (Z.ones 1) 15). rewrite land_shiftl_mask, Z.land_ones, Z.shiftr_div_pow2, Z.shiftl_mul_pow2, D' by lia.
    now rewrite Z.mod_small by lia.
  - change 0x7c00 with (Z.shiftl (Z.ones 5) 10). rewrite land_shiftl_mask, Z.land_ones, Z.shiftr_div_pow2, Z.shiftl_mul_pow2, D by lia.
    f_equal. symmetry. apply (Z.mod_unique _ _ s); lia.
  - change 0x3ff with (Z.ones 10). rewrite Z.land_ones by lia. symmetry. apply (Z.mod_unique _ _ (s * 32 + e)); unfold h; lia.
Qed.

(** The smallest exponent: the fraction is shifted until its first bit is the hidden one. *)
Definition zrange (n : nat) : list Z := map Z.of_nat (seq 0 n).
Lemma zrange_in : forall n z, 0 <= z < Z.of_nat n -> In z (zrange n).
Proof.
  intros n z H. unfold zrange. apply in_map_iff. exists (Z.to_nat z). split; [lia|].
  apply in_seq. lia.
Qed.
Definition small (m : Z) : Z := if m =? 0 then 0 else let j := 10 - Z.log2 m in (113 - j) * 2 ^ 23 + (m * 2 ^ (13 + j) - 2 ^ 23).
Lemma small_sweep : forallb (fun m => (f16_to_f32 m =? small m) && (f16_to_f32 (2 ^ 15 + m) =? 2 ^ 31 + small m)) (zrange 1024) = true.
Proof. vm_cast_no_check (eq_refl true). Qed.
Lemma widen_small : forall s m, 0 <= s <= 1 -> 0 <= m < 2 ^ 10 -> f16_to_f32 (s * 2 ^ 15 + m) = s * 2 ^ 31 + small m.
Proof.
  intros s m Hs Hm. pose proof small_sweep as H. rewrite forallb_forall in H. specialize (H m (zrange_in 1024 m ltac:(lia))).
  apply andb_prop in H. destruct H as [A B]. apply Z.eqb_eq in A, B. assert (s = 0 \/ s = 1) as [-> | ->] by lia.
  - rewrite !Z.mul_0_l, !Z.add_0_l. exact A.
  - rewrite !Z.mul_1_l. exact B.
Qed.
Lemma widen_normal : forall s e m, 0 <= s <= 1 -> 1 <= e < 31 -> 0 <= m < 2 ^ 10 ->
  f16_to_f32 (s * 2 ^ 15 + (e * 2 ^ 10 + m)) = s * 2 ^ 31 + ((e + 112) * 2 ^ 23 + m * 2 ^ 13).
Proof.
  intros s e m Hs He Hm. destruct (half_fields s e m Hs ltac:(lia) Hm) as (A & B & C). cbv zeta in A, B, C. unfold f16_to_f32. rewrite A, B, C. clear A B C.
  rewrite (Z.shiftr_div_pow2 (e * 2 ^ 10)), Z.div_mul by lia. replace (e =? 0x1f) with false by lia. replace (e =? 0) with false by lia. cbn [andb].
  rewrite !(Z.shiftl_mul_pow2 _ 16), (Z.shiftl_mul_pow2 m 13) by lia. replace (s * 2 ^ 15 * 2 ^ 16) with (s * 2 ^ 31) by lia.
  assert (E : to_u 32 (e + (0x7f - 0xf)) = e + 112) by (unfold to_u; rewrite Z.mod_small; lia). rewrite E.
  assert (E' : to_u 32 (Z.shiftl (e + 112) 23) = (e + 112) * 2 ^ 23) by (unfold to_u; rewrite Z.shiftl_mul_pow2, Z.mod_small; lia). rewrite E'.
  replace (Z.lor (s * 2 ^ 31) ((e + 112) * 2 ^ 23)) with (Z.shiftl (s * 2 ^ 8 + (e + 112)) 23).
  - rewrite lor_group by lia. lia.
  - rewrite Z.shiftl_mul_pow2 by lia. rewrite <- (Z.shiftl_mul_pow2 s 31), lor_group by lia. lia.
Qed.
Lemma lor_quiet : forall n, 0 <= n < 2 ^ 23 -> 0 <= Z.lor (2 ^ 22) n < 2 ^ 23.
Proof.
  intros n Hn. split; [apply Z.lor_nonneg; lia|]. apply Z.log2_lt_cancel. rewrite Z.log2_lor by lia. rewrite !Z.log2_pow2 by lia.
  destruct (Z.eq_dec n 0) as [->|N]; [cbn; lia|]. assert (Z.log2 n < 23) by (apply Z.log2_lt_pow2; lia). lia.
Qed.
Lemma widen_special : forall s m, 0 <= s <= 1 -> 0 <= m < 2 ^ 10 ->
  f16_to_f32 (s * 2 ^ 15 + (31 * 2 ^ 10 + m)) = s * 2 ^ 31 + (255 * 2 ^ 23 + (if m =? 0 then 0 else Z.lor (2 ^ 22) (m * 2 ^ 13))).
Proof.
  intros s m Hs Hm. destruct (half_fields s 31 m Hs ltac:(lia) Hm) as (A & B & C). cbv zeta in A, B, C. unfold f16_to_f32. rewrite A, B, C. clear A B C.
  change (Z.shiftr (31 * 2 ^ 10) 10 =? 0x1f) with true. cbv iota zeta.
  rewrite !(Z.shiftl_mul_pow2 _ 16), (Z.shiftl_mul_pow2 m 13) by lia. replace (s * 2 ^ 15 * 2 ^ 16) with (s * 2 ^ 31) by lia.
  assert (E : Z.lor (s * 2 ^ 31) 0x7f800000 = Z.shiftl (s * 2 ^ 8 + 255) 23).
  { rewrite Z.shiftl_mul_pow2 by lia. rewrite <- (Z.shiftl_mul_pow2 s 31), lor_group by lia. lia. }
  destruct (m =? 0) eqn:M.
  - replace (m * 2 ^ 13 =? 0) with true by lia. apply Z.eqb_eq in M. subst m. rewrite E, lor_group by lia. lia.
  - replace (m * 2 ^ 13 =? 0) with false by lia. change 0x7fc00000 with (Z.lor 0x7f800000 (2 ^ 22)). rewrite Z.lor_assoc, E, <- Z.lor_assoc.
    rewrite lor_group by (try lia; apply lor_quiet; lia). lia.
Qed.

Lemma widened_parts : forall s e m, 0 <= s <= 1 -> 0 <= e < 2 ^ 8 -> 0 <= m < 2 ^ 23 -> let u := s * 2 ^ 31 + (e * 2 ^ 23 + m) in
  sign32 u = s /\ exp32 u = e /\ frac32 u = m /\ 0 <= u < 2 ^ 32.
Proof.
  intros s e m Hs He Hm u. assert (D : u / 2 ^ 23 = s * 2 ^ 8 + e) by (symmetry; apply (Z.div_unique _ _ _ m); unfold u; lia). unfold sign32, exp32, frac32. rewrite D. repeat split.
  - symmetry. apply (Z.div_unique _ _ _ (e * 2 ^ 23 + m)); unfold u; lia.
  - symmetry. apply (Z.mod_unique _ _ s); lia.
  - symmetry. apply (Z.mod_unique _ _ (s * 2 ^ 8 + e)); unfold u; lia.
  - unfold u. lia.
  - unfold u. lia.
Qed.
Lemma small_parts : forall m, 0 < m < 2 ^ 10 -> exists j, 0 < j <= 10 /\ 2 ^ 10 <= m * 2 ^ j < 2 ^ 11 /\ small m = (113 - j) * 2 ^ 23 + (m * 2 ^ j - 2 ^ 10) * 2 ^ 13.
Proof.
  intros m Hm. pose proof (Z.log2_spec m ltac:(lia)) as L. assert (Z.log2 m < 10) by (apply Z.log2_lt_pow2; lia). pose proof (Z.log2_nonneg m).
  exists (10 - Z.log2 m). split; [lia|].
  assert (E : 2 ^ 10 = 2 ^ Z.log2 m * 2 ^ (10 - Z.log2 m)) by (rewrite <- Z.pow_add_r by lia; f_equal; lia). assert (0 < 2 ^ (10 - Z.log2 m)) by (apply Z.pow_pos_nonneg; lia).
  rewrite Z.pow_succ_r in L by lia. change (2 ^ 11) with (2 * 2 ^ 10). split; [nia|].
  unfold small. replace (m =? 0) with false by lia. cbv zeta. rewrite (Z.pow_add_r 2 13) by lia. lia.
Qed.

Lemma f16_value : forall h, 0 <= h < 2 ^ 16 -> (h mod 2 ^ 15) / 2 ^ 10 <> 31 ->
  sign32 (f16_to_f32 h) = h / 2 ^ 15 /\ exp32 (f16_to_f32 h) <> 255 /\
  single_magnitude (f16_to_f32 h) = half_magnitude (h mod 2 ^ 15).
Proof.
  intros h Hh Hf. destruct (half_pattern h Hh) as (s & e & m & Hs & He & Hm & ->).
  assert (M : (s * 2 ^ 15 + (e * 2 ^ 10 + m)) mod 2 ^ 15 = e * 2 ^ 10 + m) by (symmetry; apply (Z.mod_unique _ _ s); lia). rewrite M in *.
  assert (D : (s * 2 ^ 15 + (e * 2 ^ 10 + m)) / 2 ^ 15 = s) by (symmetry; apply (Z.div_unique _ _ _ (e * 2 ^ 10 + m)); lia). rewrite D.
  destruct (half_parts e m ltac:(lia) Hm) as [Pe _]. rewrite Pe in Hf. destruct (Z.eq_dec e 0) as [->|Ne].
  - rewrite Z.mul_0_l, Z.add_0_l, widen_small by lia. rewrite half_magnitude_small by lia. destruct (Z.eq_dec m 0) as [->|Nm].
    + change (small 0) with 0. assert (s = 0 \/ s = 1) as [-> | ->] by lia; repeat split; vm_compute; congruence.
    + destruct (small_parts m ltac:(lia)) as (j & Hj & B & ->). destruct (widened_parts s (113 - j) ((m * 2 ^ j - 2 ^ 10) * 2 ^ 13) Hs ltac:(lia) ltac:(lia)) as (A1 & A2 & A3 & _).
      cbv zeta in A1, A2, A3. unfold single_magnitude. rewrite A1, A2, A3. split; [reflexivity|]. split; [lia|]. replace (113 - j =? 0) with false by lia.
      replace (2 ^ 23 + (m * 2 ^ j - 2 ^ 10) * 2 ^ 13) with (m * 2 ^ j * 2 ^ 13) by lia.
      rewrite <- !Z.mul_assoc, <- !Z.pow_add_r by lia. do 2 f_equal. lia.
  - rewrite widen_normal by lia. destruct (widened_parts s (e + 112) (m * 2 ^ 13) Hs ltac:(lia) ltac:(lia)) as (A1 & A2 & A3 & _).
    cbv zeta in A1, A2, A3. unfold single_magnitude. rewrite A1, A2, A3. split; [reflexivity|]. split; [lia|]. replace (e + 112 =? 0) with false by lia.
    rewrite half_magnitude_normal by lia. replace (2 ^ 23 + m * 2 ^ 13) with ((2 ^ 10 + m) * 2 ^ 13) by lia.
    rewrite <- !Z.mul_assoc, <- !Z.pow_add_r by lia. do 2 f_equal. lia.
Qed.

Lemma widen_range : forall h, 0 <= h < 2 ^ 16 -> 0 <= f16_to_f32 h < 2 ^ 32.
Proof.
  intros h Hh. destruct (half_pattern h Hh) as (s & e & m & Hs & He & Hm & ->). destruct (Z.eq_dec e 0) as [->|Ne].
  - rewrite Z.mul_0_l, Z.add_0_l, widen_small by lia. destruct (Z.eq_dec m 0) as [->|Nm]; [change (small 0) with 0; lia|].
    destruct (small_parts m ltac:(lia)) as (j & Hj & B & ->). lia.
  - destruct (Z.eq_dec e 31) as [->|N31].
    + rewrite widen_special by lia. pose proof (lor_quiet (m * 2 ^ 13) ltac:(lia)). destruct (m =? 0); lia.
    + rewrite widen_normal by lia. lia.
Qed.

(** Writing what was read gives it back, but for the bit that makes a NaN quiet. *)
Lemma nearest_self : forall h, 0 <= h <= half_infinity -> nearest_even (half_magnitude h) h.
Proof.
  intros h Hh. split; [exact Hh|]. intros h' Hh' N. left. rewrite Z.sub_diag. cbn [Z.abs].
  destruct (Z.lt_ge_cases h h'); [pose proof (half_mono h h' ltac:(lia) ltac:(lia)) | pose proof (half_mono h' h ltac:(lia) ltac:(lia))]; lia.
Qed.
Lemma quiet_div : forall m, 0 <= m < 2 ^ 10 -> Z.lor (2 ^ 22) (m * 2 ^ 13) = Z.lor (2 ^ 9) m * 2 ^ 13.
Proof. intros m Hm. rewrite <- !Z.shiftl_mul_pow2 by lia. rewrite Z.shiftl_lor. reflexivity. Qed.

Lemma f16_checked : forall h, 0 <= h < 65536 ->
  f16_to_f32 (f32_to_f16 (f16_to_f32 h)) = f16_to_f32 h /\
  0 <= f16_to_f32 h < 2 ^ 32 /\
  f32_to_f16 (f16_to_f32 h) =
    (if (Z.land h 0x7c00 =? 0x7c00) && negb (Z.land h 0x3ff =? 0) then Z.lor h 0x200 else h).
Proof.
  intros h Hh. change 65536 with (2 ^ 16) in Hh. pose proof (widen_range h Hh) as R. destruct (half_pattern h Hh) as (s & e & m & Hs & He & Hm & E).
  destruct (half_fields s e m Hs ltac:(lia) Hm) as (_ & B & C). cbv zeta in B, C. rewrite <- E in B, C. rewrite B, C. destruct (Z.eq_dec e 31) as [->|N31].
  - change (31 * 2 ^ 10 =? 0x7c00) with true. cbn [andb]. pose proof (widen_special s m Hs Hm) as W. rewrite <- E in W.
    assert (Q : 0 <= (if m =? 0 then 0 else Z.lor (2 ^ 22) (m * 2 ^ 13)) < 2 ^ 23) by (pose proof (lor_quiet (m * 2 ^ 13) ltac:(lia)); destruct (m =? 0); lia).
    destruct (widened_parts s 255 _ Hs ltac:(lia) Q) as (A1 & A2 & A3 & _). cbv zeta in A1, A2, A3. rewrite <- W in A1, A2, A3.
    pose proof (narrow_special _ R A2) as F. rewrite A1, A3 in F. clear A1 A2 A3. destruct (m =? 0) eqn:M; cbn [negb].
    + cbn [Z.eqb] in F. rewrite Z.add_0_r in F. assert (F' : f32_to_f16 (f16_to_f32 h) = h) by (rewrite F, E; unfold half_infinity; lia). rewrite F'. auto.
    + pose proof (lor_quiet (m * 2 ^ 13) ltac:(lia)) as Q2. rewrite quiet_div in * by lia.
      assert (L : 2 ^ 9 <= Z.lor (2 ^ 9) m).
      { assert (0 <= Z.lor (2 ^ 9) m) by (apply Z.lor_nonneg; lia). assert (Z.lor (2 ^ 9) m <> 0) by (intros Q0; apply Z.lor_eq_0_iff in Q0; lia).
        apply Z.log2_le_pow2; [lia|]. rewrite Z.log2_lor, Z.log2_pow2 by lia. lia. }
      replace (Z.lor (2 ^ 9) m * 2 ^ 13 =? 0) with false in F by lia. rewrite Z.div_mul in F by lia. rewrite Z.lor_assoc in F. change (Z.lor (2 ^ 9) (2 ^ 9)) with (2 ^ 9) in F.
      assert (F' : f32_to_f16 (f16_to_f32 h) = Z.lor h 0x200).
      { rewrite F, E. unfold half_infinity. replace (s * 2 ^ 15 + (31 * 2 ^ 10 + m)) with (Z.lor (Z.shiftl (s * 32 + 31) 10) m) by (rewrite lor_group by lia; lia).
        rewrite <- Z.lor_assoc, (Z.lor_comm m). change 0x200 with (2 ^ 9). rewrite lor_group by lia. lia. }
      split; [|split; [exact R | exact F']]. rewrite F, W. unfold half_infinity.
      replace (s * 2 ^ 15 + 31 * 2 ^ 10 + Z.lor (2 ^ 9) m) with (s * 2 ^ 15 + (31 * 2 ^ 10 + Z.lor (2 ^ 9) m)) by lia. rewrite widen_special by lia.
      replace (Z.lor (2 ^ 9) m =? 0) with false by lia. rewrite quiet_div by lia. now rewrite Z.lor_assoc.
  - replace (e * 2 ^ 10 =? 0x7c00) with false by lia. cbn [andb].
    assert (M : h mod 2 ^ 15 = e * 2 ^ 10 + m) by (rewrite E; symmetry; apply (Z.mod_unique _ _ s); lia).
    assert (D : h / 2 ^ 15 = s) by (rewrite E; symmetry; apply (Z.div_unique _ _ _ (e * 2 ^ 10 + m)); lia).
    destruct (half_parts e m ltac:(lia) Hm) as [Pe _]. destruct (f16_value h Hh) as (V1 & V2 & V3); [rewrite M, Pe; exact N31|].
    destruct (narrow_finite _ R V2) as (g & F & Ng). rewrite V3, M in Ng.
    rewrite (nearest_unique _ _ _ Ng (nearest_self (e * 2 ^ 10 + m) ltac:(unfold half_infinity; lia))) in F. rewrite V1, D in F. rewrite F, <- E. auto.
Qed.
