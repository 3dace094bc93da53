(** The wire format of builtin values. *)

Require Import ZArith List Bool Lia ZifyBool ZifyNat.
From Verif Require Import Bits BitsFacts Stream Spec StreamFacts Scalars FixedFacts VarFacts PrefixFacts ScalarFacts
  ScalarTable ScalarThms Float16 FloatSpec Float16Convert Float16Facts Traits TraitSpec Delta DeltaFacts TraitFacts SizeFacts Schema SchemaSpec
  SchemaFacts WireSpec.
Import ListNotations.
Open Scope Z_scope.

(** ** The shortest encoding *)

Lemma find_seq : forall (f : Z -> bool) n s k, (s <= k < s + n)%nat -> f (Z.of_nat k) = true ->
  (forall j, (s <= j < k)%nat -> f (Z.of_nat j) = false) ->
  find f (map Z.of_nat (seq s n)) = Some (Z.of_nat k).
Proof.
  intros f. induction n as [|n IH]; intros s k Hk Hf Hlt; [lia|]. cbn [seq map find].
  destruct (Nat.eq_dec s k) as [->|Hne]; [now rewrite Hf|].
  rewrite Hlt by lia. apply IH; [lia|exact Hf|]. intros j Hj. apply Hlt. lia.
Qed.
Lemma find_none_seq : forall (f : Z -> bool) n s, (forall j, (s <= j < s + n)%nat -> f (Z.of_nat j) = false) ->
  find f (map Z.of_nat (seq s n)) = None.
Proof.
  intros f. induction n as [|n IH]; intros s H; [reflexivity|]. cbn [seq map find]. rewrite H by lia.
  apply IH. intros j Hj. apply H. lia.
Qed.

Lemma ucap_pow : forall a b m, 1 <= a -> a <= b <= m -> 2 ^ ucap a m <= 2 ^ ucap b m.
Proof.
  intros a b m Ha Hb. apply Z.pow_le_mono_r; [lia|]. now apply ucap_mono.
Qed.
Lemma scap_pow : forall a b m, 1 <= a -> a <= b <= m -> 2 ^ scap a m <= 2 ^ scap b m.
Proof. intros a b m Ha Hb. apply Z.pow_le_mono_r; [lia|]. now apply scap_mono. Qed.

Lemma ulength_shortest : forall v k m, ushortest v k m -> ulength m v = Some k.
Proof.
  intros v k m (Hk & Hlt & Hge). unfold ulength, byte_counts. rewrite <- (Z2Nat.id k) by lia.
  apply find_seq; [lia|rewrite Z2Nat.id by lia; lia|].
  intros j Hj. destruct Hge as [->|Hge]; [lia|].
  pose proof (ucap_pow (Z.of_nat j) (k - 1) m ltac:(lia) ltac:(lia)). lia.
Qed.
Lemma slength_shortest : forall v k m, sshortest v k m -> slength m v = Some k.
Proof.
  intros v k m (Hk & Hlt & Hge). unfold slength, byte_counts. rewrite <- (Z2Nat.id k) by lia.
  apply find_seq; [lia|rewrite Z2Nat.id by lia; lia|].
  intros j Hj. destruct Hge as [->|Hge]; [lia|].
  pose proof (scap_pow (Z.of_nat j) (k - 1) m ltac:(lia) ltac:(lia)). lia.
Qed.
Lemma ulength_none : forall v m, 0 < m -> 2 ^ ucap m m <= v -> ulength m v = None.
Proof.
  intros v m Hm H. apply find_none_seq. intros j Hj.
  pose proof (ucap_pow (Z.of_nat j) m m ltac:(lia) ltac:(lia)). lia.
Qed.
Lemma slength_none : forall v m, 0 < m -> 2 ^ scap m m <= Z.abs v -> slength m v = None.
Proof.
  intros v m Hm H. apply find_none_seq. intros j Hj.
  pose proof (scap_pow (Z.of_nat j) m m ltac:(lia) ltac:(lia)). lia.
Qed.

(** The sizes that the codecs compute. *)
Lemma usize_reckoned : forall v m, 0 <= v -> limit m -> size_or_0 (UnsignedBitSize v m) = Ok (bytes_or_0 (ulength m v)).
Proof.
  intros v m Hv Hm. pose proof (UnsignedBitSize_spec v m Hv Hm) as H. assert (0 < m) by (unfold limit in Hm; lia).
  destruct (UnsignedBitSize v m) as [s|e| |]; cbn in H; try contradiction; cbn [size_or_0].
  - destruct H as (k & -> & Hk). rewrite (ulength_shortest v k m Hk). reflexivity.
  - rewrite ulength_none by (lia || apply H). reflexivity.
Qed.
Lemma ssize_reckoned : forall v m, in_s 64 v -> v <> MinInt64 -> limit m ->
  size_or_0 (SignedBitSize v m) = Ok (bytes_or_0 (slength m v)).
Proof.
  intros v m Hv Hn Hm. pose proof (SignedBitSize_spec v m Hv Hn Hm) as H. assert (0 < m) by (unfold limit in Hm; lia).
  destruct (SignedBitSize v m) as [s|e| |]; cbn in H; try contradiction; cbn [size_or_0].
  - destruct H as (k & -> & Hk). rewrite (slength_shortest v k m Hk). reflexivity.
  - rewrite slength_none by (lia || apply H). reflexivity.
Qed.

(** ** Half-precision floats *)

Lemma half_parted : forall s e m, 0 <= s <= 1 -> 0 <= e < 2 ^ 8 -> 0 <= m < 2 ^ 23 -> half (s * 2 ^ 31 + (e * 2 ^ 23 + m)) =
  s * 2 ^ 15 + (if e =? 255 then 31 * 2 ^ 10 + m / 2 ^ 13 else if 113 <=? e then (e - 112) * 2 ^ 10 + m / 2 ^ 13 else if e =? 0 then 0 else (2 ^ 23 + m) / 2 ^ (126 - e)).
Proof.
  intros s e m Hs He Hm. destruct (widened_parts s e m Hs He Hm) as (A & B & C & _). cbv zeta in A, B, C. unfold sign32, exp32, frac32 in A, B, C.
  unfold half. change 256 with (2 ^ 8). now rewrite A, B, C.
Qed.
Lemma half_ok : forall h, 0 <= h < 2 ^ 16 -> half (f16_to_f32 h) = f32_to_f16 (f16_to_f32 h).
Proof.
  intros h Hh. destruct (f16_checked h Hh) as (_ & _ & ->). destruct (half_pattern h Hh) as (s & e & m & Hs & He & Hm & E).
  destruct (half_fields s e m Hs ltac:(lia) Hm) as (_ & B & C). cbv zeta in B, C. rewrite <- E in B, C. rewrite B, C. destruct (Z.eq_dec e 31) as [->|N31].
  - change (31 * 2 ^ 10 =? 0x7c00) with true. cbn [andb]. rewrite E, widen_special by lia. pose proof (lor_quiet (m * 2 ^ 13) ltac:(lia)).
    destruct (m =? 0) eqn:M; cbn [negb]; rewrite half_parted by lia; cbn [Z.eqb Pos.eqb].
    + change (0 / 2 ^ 13) with 0. lia.
    + rewrite quiet_div in * by lia. rewrite Z.div_mul by lia.
      replace (s * 2 ^ 15 + (31 * 2 ^ 10 + m)) with (Z.lor (Z.shiftl (s * 32 + 31) 10) m) by (rewrite lor_group by lia; lia).
      rewrite <- Z.lor_assoc, (Z.lor_comm m). change 0x200 with (2 ^ 9). rewrite lor_group by lia. lia.
  - replace (e * 2 ^ 10 =? 0x7c00) with false by lia. cbn [andb]. rewrite E. destruct (Z.eq_dec e 0) as [->|Ne].
    + rewrite Z.mul_0_l, Z.add_0_l, widen_small by lia. destruct (Z.eq_dec m 0) as [->|Nm].
      * change (small 0) with (0 * 2 ^ 23 + 0). rewrite half_parted by lia. reflexivity.
      * destruct (small_parts m ltac:(lia)) as (j & Hj & Bj & ->). rewrite half_parted by lia. replace (113 - j =? 255) with false by lia.
        replace (113 <=? 113 - j) with false by lia. replace (113 - j =? 0) with false by lia. f_equal.
        replace (2 ^ 23 + (m * 2 ^ j - 2 ^ 10) * 2 ^ 13) with (m * (2 ^ j * 2 ^ 13)) by lia. rewrite <- Z.pow_add_r by lia.
        replace (126 - (113 - j)) with (j + 13) by lia. apply Z.div_mul. pose proof (Z.pow_pos_nonneg 2 (j + 13)). lia.
    + rewrite widen_normal, half_parted by lia. replace (e + 112 =? 255) with false by lia. replace (113 <=? e + 112) with true by lia.
      rewrite Z.div_mul by lia. lia.
Qed.

(** ** External buffers *)

Lemma varsize_bits : forall n, 0 <= n <= MaxVarsize ->
  exists bs, varuint_bits 5 n = Some bs /\ encodes (WriteVarsize n) bs /\ decodes ReadVarsize bs n.
Proof.
  intros n Hn. destruct (WriteVarsize_rt n Hn) as (k & Hk & _ & He & Hd). exists (uwire n k 5).
  unfold varuint_bits. rewrite (ulength_shortest n k 5 Hk). auto.
Qed.

Lemma firstn_bytes : forall j l, firstn (8 * j) (bytes_bits l) = bytes_bits (firstn j l).
Proof.
  induction j as [|j IH]; intros [|b l]; try reflexivity.
  unfold bytes_bits in *. cbn [firstn flat_map]. replace (8 * S j)%nat with (8 + 8 * j)%nat by lia.
  rewrite firstn_app, bits_of_length. replace (8 + 8 * j - 8)%nat with (8 * j)%nat by lia.
  rewrite IH, firstn_all2 by (rewrite bits_of_length; lia). reflexivity.
Qed.

Lemma firstn_bits_of : forall a b z, firstn a (bits_of (a + b) z) = bits_of a (z / 2 ^ Z.of_nat b).
Proof.
  intros a b z. rewrite bits_of_app, firstn_app, bits_of_length, Nat.sub_diag, firstn_O, app_nil_r.
  apply firstn_all2. rewrite bits_of_length. lia.
Qed.

Lemma extern_bits : forall n buf, 0 <= n <= MaxVarsize -> Z.of_nat (length buf) = (n + 7) / 8 ->
  exists bs, counted n (firstn (Z.to_nat n) (bytes_bits buf)) = Some bs /\ encodes (WriteExtern n buf) bs.
Proof.
  intros n buf Hn Hlen. destruct (varsize_bits n Hn) as (hd & Hh & He & _). unfold counted. rewrite Hh. cbn [option_map].
  eexists. split; [reflexivity|]. apply encodes_bind; [exact He|]. cbv beta zeta.
  pose proof (Z.div_mod n 8 ltac:(lia)) as DM. pose proof (Z.mod_pos_bound n 8 ltac:(lia)) as MB.
  destruct (Z.eq_dec (n mod 8) 0) as [E0|E0].
  - assert (L : Z.of_nat (length buf) = n / 8).
    { rewrite Hlen. symmetry. apply Z.div_unique with 7; lia. }
    replace (Z.of_nat (length buf) <? n / 8) with false by lia. rewrite E0. cbn [Z.eqb].
    replace (Z.to_nat n) with (8 * Z.to_nat (n / 8))%nat by lia. rewrite firstn_bytes.
    rewrite <- (app_nil_r (bytes_bits _)). apply encodes_bind; [apply encodes_put|apply encodes_ret].
  - assert (L : Z.of_nat (length buf) = n / 8 + 1).
    { rewrite Hlen. symmetry. apply Z.div_unique with (n mod 8 - 1); lia. }
    replace (Z.of_nat (length buf) <? n / 8) with false by lia. replace (n mod 8 =? 0) with false by lia.
    destruct (exists_last (l := buf)) as (pre & b & ->); [intros ->; cbn in L; pose proof (Z.div_pos n 8); lia|].
    rewrite app_length in L. cbn [length] in L. rewrite rev_app_distr. cbn [rev app].
    assert (Lp : length pre = Z.to_nat (n / 8)) by lia.
    replace (Z.to_nat n) with (8 * Z.to_nat (n / 8) + Z.to_nat (n mod 8))%nat by lia.
    rewrite bytes_bits_app, (firstn_app _ (bytes_bits pre)), bytes_bits_length.
    replace (8 * Z.to_nat (n / 8) + Z.to_nat (n mod 8) - 8 * length pre)%nat with (Z.to_nat (n mod 8)) by lia.
    rewrite (firstn_all2 (bytes_bits pre)) by (rewrite bytes_bits_length; lia).
    rewrite (firstn_app _ pre), Lp, Nat.sub_diag, firstn_O, app_nil_r, (firstn_all2 pre) by lia.
    apply encodes_bind; [apply encodes_put|]. unfold bytes_bits. cbn [flat_map]. rewrite app_nil_r.
    replace 8%nat with (Z.to_nat (n mod 8) + Z.to_nat (8 - n mod 8))%nat by lia. rewrite firstn_bits_of.
    rewrite Z2Nat.id by lia. rewrite <- Z.shiftr_div_pow2 by lia. apply encodes_put.
Qed.

(** ** All builtin types *)

Lemma uvar_bits : forall v m w (r : reader Z), (exists k, ushortest v k m /\ UnsignedBitSize v m = Ok (8 * k) /\
    roundtrips w r (uwire v k m) v) ->
  exists bs, varuint_bits m v = Some bs /\ encodes w bs /\ encodes w bs.
Proof.
  intros v m w r (k & Hk & _ & He & _). exists (uwire v k m). unfold varuint_bits.
  rewrite (ulength_shortest v k m Hk). auto.
Qed.
Lemma svar_bits : forall v m w (r : reader Z), (exists k, sshortest v k m /\ SignedBitSize v m = Ok (8 * k) /\
    roundtrips w r (swire v k m) v) ->
  exists bs, varint_bits m v = Some bs /\ encodes w bs /\ encodes w bs.
Proof.
  intros v m w r (k & Hk & _ & He & _). exists (swire v k m). unfold varint_bits.
  rewrite (slength_shortest v k m Hk). auto.
Qed.

Lemma scalar_wire : forall b e, wf_builtin b -> in_range b e ->
  exists bs, scalar_bits b (inj b e) = Some bs /\ encodes (t_write (traits_of b) e) bs /\ encodes (std_write b e) bs.
Proof.
  intros b e Hb He. destruct b as [| | | | | | | | | | | | | | | |g n|g n]; cbn [in_range elt inj scalar_bits] in *.
  - destruct (e =? - 2 ^ 63) eqn:E.
    + assert (e = MinInt64) by (unfold MinInt64; lia). subst e. exists (bits_of 8 128). split; [reflexivity|].
      split; apply WriteVarint_min.
    + assert (e <> MinInt64) by (unfold MinInt64; lia). eapply svar_bits. now apply WriteVarint_rt.
  - eapply svar_bits. now apply WriteVarint16_rt.
  - eapply svar_bits. now apply WriteVarint32_rt.
  - eapply svar_bits. now apply WriteVarint64_rt.
  - eapply uvar_bits. apply WriteVaruint_rt. unfold in_u, MaxUint64 in *. lia.
  - eapply uvar_bits. now apply WriteVaruint16_rt.
  - eapply uvar_bits. now apply WriteVaruint32_rt.
  - eapply uvar_bits. now apply WriteVaruint64_rt.
  - eapply uvar_bits. now apply WriteVarsize_rt.
  - exists [e]. split; [reflexivity|]. split; apply encodes_put.
  - destruct He as [_ Hl]. destruct (varsize_bits (Z.of_nat (length e)) ltac:(lia)) as (hd & Hh & He & _).
    unfold counted. rewrite Hh. exists (hd ++ bytes_bits e). split; [reflexivity|].
    split; (apply encodes_bind; [exact He|apply encodes_put]).
  - destruct He as (h & Hh & ->). eexists. split; [reflexivity|]. rewrite (half_ok h Hh). split; apply WriteFloat16_enc.
  - eexists. split; [reflexivity|]. split; now apply WriteFloat32_rt.
  - eexists. split; [reflexivity|]. split; now apply WriteFloat64_rt.
  - destruct He as ([n buf] & -> & Hl). destruct Hl as [[_ Hl] Hn]. cbn [fst snd] in *.
    destruct (varsize_bits n ltac:(lia)) as (hd & Hh & He & _). unfold counted. rewrite Hh.
    exists (hd ++ bytes_bits buf). split; [reflexivity|]. split; (apply encodes_bind; [exact He|apply encodes_put]).
  - destruct He as ([n buf] & -> & Hl). destruct Hl as (Hn & _ & Hl & _).
    destruct (extern_bits n buf Hn Hl) as (bs & H1 & H2). exists bs. auto.
  - destruct g as [w|w]; [|contradiction]. destruct Hb as [Hw Hn]. pose proof (go_width_pos w Hw).
    eexists. split; [reflexivity|]. split; [apply (bitfield_rt w n e Hw Hn He)|].
    cbn [std_write]. apply (WriteUnsignedBits_ok e n); lia.
  - destruct g as [w|w]; [contradiction|]. destruct Hb as [Hw Hn]. pose proof (go_width_pos w Hw).
    eexists. split; [reflexivity|]. split; [apply (sbitfield_rt w n e Hw Hn He)|].
    cbn [std_write]. apply WriteSignedBits_ok; [lia|exact He].
Qed.

Lemma small_s64 : forall v m, - m <= v <= m -> m < 2 ^ 63 -> in_s 64 v /\ v <> MinInt64.
Proof. intros v m H1 H2. unfold in_s, MinInt64. change (2 ^ (64 - 1)) with (2 ^ 63). lia. Qed.

Lemma reckoned_size : forall b e, integer_like b -> in_range b e ->
  exists s, reckoned b (inj b e) = Some s /\ t_size (traits_of b) e = Ok s.
Proof.
  intros b e Hi He.
  destruct b as [| | | | | | | | | | | | | | | |g n|g n]; try contradiction; cbn [in_range elt inj reckoned traits_of] in *;
    (eexists; split; [reflexivity|]);
    unfold MaxVarint16, MaxVarint32, MaxVarint64, MaxVaruint16, MaxVaruint32, MaxVaruint64, MaxVarsize in He.
  - cbn [t_size VarIntArrayTraits]. destruct (e =? - 2 ^ 63) eqn:E.
    + assert (e = MinInt64) by (unfold MinInt64; lia). subst e. now rewrite SignedBitSize_min by lia.
    + apply ssize_reckoned; [exact He|unfold MinInt64; lia|apply limits_ok].
  - destruct (small_s64 e _ He ltac:(lia)). apply ssize_reckoned; try assumption; apply limits_ok.
  - destruct (small_s64 e _ He ltac:(lia)). apply ssize_reckoned; try assumption; apply limits_ok.
  - destruct (small_s64 e _ He ltac:(lia)). apply ssize_reckoned; try assumption; apply limits_ok.
  - apply usize_reckoned; [apply He|apply limits_ok].
  - apply usize_reckoned; [apply He|apply limits_ok].
  - apply usize_reckoned; [apply He|apply limits_ok].
  - apply usize_reckoned; [apply He|apply limits_ok].
  - apply usize_reckoned; [apply He|apply limits_ok].
  - reflexivity.
  - reflexivity.
  - reflexivity.
Qed.

Lemma number_as : forall b e, integer_like b -> number (inj b e) = Some (t_as (traits_of b) e).
Proof. intros b e Hi. destruct b; try contradiction; reflexivity. Qed.

Lemma type_in_eq : forall E t, type_in E t = builtin_of E t.
Proof. intros E [b|[|] g w]; cbn; [reflexivity| |]; destruct (w E); reflexivity. Qed.

Lemma basic_wire : forall E t v, basic_value E t v -> exists bs, basic_bits E t v = Some bs /\ encodes (write_basic E t v) bs.
Proof.
  intros E t v (b & e & Hb & Hwf & He & ->). unfold basic_bits. rewrite type_in_eq, Hb.
  destruct (scalar_wire b e Hwf He) as (bs & H1 & _ & H2). exists bs. split; [exact H1|].
  destruct t as [b'|signed g w]; cbn in Hb.
  - injection Hb as <-. cbn [write_basic]. now rewrite proj_inj.
  - unfold write_basic. destruct (w E) as [n0|]; [|discriminate].
    set (n := to_u 8 n0) in *. destruct signed; injection Hb as <-; cbn [inj wf_builtin in_range elt std_write] in *.
    + destruct g as [gw|gw]; [contradiction|]. destruct Hwf as [Hw Hn].
      destruct (signed_field gw n e Hw Hn He) as [E1 E2]. now rewrite E1.
    + destruct g as [gw|gw]; [|contradiction]. destruct Hwf as [Hw Hn].
      destruct (unsigned_field gw n e Hw Hn He) as [E1 E2]. now rewrite E1.
Qed.
