(** Facts about the element codecs of arrays. *)

Require Import ZArith List Bool Lia ZifyBool ZifyNat.
From Verif Require Import Bits BitsFacts Stream StreamFacts Scalars FixedFacts VarFacts PrefixFacts
  ScalarFacts ScalarTable ScalarThms Float16 Float16Facts Traits TraitSpec Delta DeltaFacts.
Import ListNotations.
Open Scope Z_scope.

Lemma output_eq : forall m bs, encodes m bs -> output m = bs.
Proof. intros m bs H. unfold output. rewrite (H (mkW [] []) eq_refl). reflexivity. Qed.

Lemma roundtrips_output : forall {A} w (r : reader A) bs a, roundtrips w r bs a -> roundtrips w r (output w) a.
Proof. intros A w r bs a [H1 H2]. rewrite (output_eq w bs H1). now split. Qed.

(** ** Signed bit fields *)

Lemma upper_mask : forall n, 1 <= n <= 64 ->
  u64 (MaxUint64 - u64 (shl1_u64 n - 1)) = Z.shiftl (Z.ones (64 - n)) n.
Proof.
  intros n Hn. unfold shl1_u64, u64, MaxUint64. rewrite !Z.shiftl_mul_pow2, Z.mul_1_l by lia.
  rewrite Z.ones_equiv. destruct (Z.eq_dec n 64) as [->|Hne]; [reflexivity|].
  assert (2 ^ 64 = 2 ^ (64 - n) * 2 ^ n) as E by (rewrite <- Z.pow_add_r by lia; f_equal; lia).
  assert (0 < 2 ^ n) by (apply pow2_pos; lia). assert (0 < 2 ^ (64 - n)) by (apply pow2_pos; lia).
  assert (2 ^ n < 2 ^ 64) by (apply Z.pow_lt_mono_r; lia).
  rewrite (to_u_small 64 (2 ^ n)) by lia. rewrite (to_u_small 64 (2 ^ n - 1)) by lia.
  rewrite to_u_small by lia. nia.
Qed.

Lemma sign_bit : forall n, 1 <= n <= 64 -> shl1_u64 (to_u 8 (n - 1)) = 2 ^ (n - 1).
Proof.
  intros n Hn. rewrite (to_u_small 8 (n - 1)) by (change (2 ^ 8) with 256; lia).
  unfold shl1_u64. rewrite Z.shiftl_mul_pow2, Z.mul_1_l by lia. unfold u64. apply to_u_small.
  pose proof (pow2_pos (n - 1) ltac:(lia)). split; [lia|]. apply Z.pow_lt_mono_r; lia.
Qed.

(** A number whose bits from [n - 1] on equal its sign. *)
Lemma testbit_signed : forall v n i, 0 < n -> - 2 ^ (n - 1) <= v < 2 ^ (n - 1) -> n - 1 <= i ->
  Z.testbit v i = (v <? 0).
Proof.
  intros v n i Hn Hv Hi. rewrite Z.testbit_odd, Z.shiftr_div_pow2 by lia.
  pose proof (pow2_le (n - 1) i ltac:(lia)) as Hp. pose proof (pow2_pos (n - 1) ltac:(lia)).
  destruct (v <? 0) eqn:E.
  - assert (v / 2 ^ i = -1) as ->; [|reflexivity]. symmetry. apply Z.div_unique with (v + 2 ^ i); lia.
  - now rewrite Z.div_small by lia.
Qed.

Lemma fillUpperBits_spec : forall x v n, 1 <= n <= 64 -> - 2 ^ (n - 1) <= v < 2 ^ (n - 1) ->
  x = v mod 2 ^ n \/ x = u64 v -> fillUpperBits x n = u64 v.
Proof.
  intros x v n Hn Hv Hx. unfold fillUpperBits. rewrite sign_bit, upper_mask by assumption.
  rewrite land_pow2_testbit by lia.
  assert (Hlow : forall i, 0 <= i < n -> Z.testbit x i = Z.testbit v i).
  { intros i Hi. destruct Hx as [->| ->]; unfold u64, to_u; apply Z.mod_pow2_bits_low; lia. }
  assert (Hhigh : forall i, 64 <= i -> Z.testbit x i = false).
  { intros i Hi. destruct Hx as [->| ->]; unfold u64, to_u; apply Z.mod_pow2_bits_high; lia. }
  assert (Hmid : forall i, n <= i < 64 -> Z.testbit x i = false \/ Z.testbit x i = (v <? 0)).
  { intros i Hi. destruct Hx as [->| ->]; unfold u64, to_u.
    - left. apply Z.mod_pow2_bits_high; lia.
    - right. rewrite Z.mod_pow2_bits_low by lia. apply (testbit_signed v n); lia. }
  rewrite Hlow by lia. rewrite (testbit_signed v n (n - 1)) by lia.
  assert (Hu : forall i, 0 <= i -> Z.testbit (u64 v) i = (i <? 64) && (if i <? n then Z.testbit v i else (v <? 0))).
  { intros i Hi. unfold u64, to_u. destruct (i <? 64) eqn:E.
    - rewrite Z.mod_pow2_bits_low by lia. destruct (i <? n) eqn:E2; [reflexivity|]. apply (testbit_signed v n); lia.
    - apply Z.mod_pow2_bits_high; lia. }
  apply Z.bits_inj'. intros i Hi. rewrite Hu by exact Hi.
  destruct (v <? 0) eqn:Eneg.
  - rewrite Z.lor_spec, Z.shiftl_spec by lia. destruct (i <? 64) eqn:E64; cbn [andb].
    + destruct (i <? n) eqn:En.
      * rewrite (Z.testbit_neg_r (Z.ones (64 - n))) by lia. rewrite orb_false_r. apply Hlow. lia.
      * rewrite Z.ones_spec_low by lia. apply orb_true_r.
    + rewrite Hhigh by lia. rewrite Z.ones_spec_high by lia. reflexivity.
  - destruct (i <? 64) eqn:E64; cbn [andb].
    + destruct (i <? n) eqn:En; [apply Hlow; lia|]. destruct (Hmid i ltac:(lia)); assumption.
    + apply Hhigh; lia.
Qed.

Lemma to_s_u64 : forall w v n, go_width w -> 1 <= n <= w -> - 2 ^ (n - 1) <= v < 2 ^ (n - 1) -> to_s w (u64 v) = v.
Proof.
  intros w v n Hw Hn Hv. pose proof (pow2_le (n - 1) (w - 1) ltac:(lia)).
  transitivity (to_s w v); [|apply to_s_small; unfold go_width in Hw; lia].
  apply to_s_mod_eq. unfold u64, to_u. apply mod_mod_pow2. unfold go_width in Hw; lia.
Qed.

Lemma to_u_u64 : forall w v n, go_width w -> 1 <= n <= w -> 0 <= v < 2 ^ n -> to_u w (u64 v) = v.
Proof.
  intros w v n Hw Hn Hv. assert (n <= 64) by (unfold go_width in Hw; lia).
  pose proof (pow2_le n w ltac:(lia)). pose proof (pow2_le n 64 ltac:(lia)).
  unfold u64. rewrite (to_u_small 64) by lia. apply to_u_small. lia.
Qed.

(** ** Round trip of every element *)

Lemma bitfield_rt : forall w n v, go_width w -> 1 <= n <= w -> 0 <= v < 2 ^ n ->
  roundtrips (t_write (BitFieldArrayTraits (GU w) n) v) (t_read (BitFieldArrayTraits (GU w) n))
             (bits_of (Z.to_nat n) v) v.
Proof.
  intros w n v Hw Hn Hv. assert (n <= 64) by (unfold go_width in Hw; lia).
  pose proof (pow2_le n w ltac:(lia)). pose proof (pow2_le n 64 ltac:(lia)). split.
  - cbn [t_write BitFieldArrayTraits]. unfold write_bits, u64. rewrite to_u_small by lia. apply encodes_put.
  - cbn [t_read BitFieldArrayTraits]. eapply decodes_map.
    + apply decodes_read_bits_of; [lia|]. rewrite Z2Nat.id by lia. exact Hv.
    + cbn [gconv]. now rewrite to_u_small by lia.
Qed.

Lemma sbitfield_rt : forall w n v, go_width w -> 1 <= n <= w -> - 2 ^ (n - 1) <= v < 2 ^ (n - 1) ->
  roundtrips (t_write (SignedBitFieldArrayTraits (GS w) n) v) (t_read (SignedBitFieldArrayTraits (GS w) n))
             (bits_of (Z.to_nat n) v) v.
Proof.
  intros w n v Hw Hn Hv. assert (n <= 64) by (unfold go_width in Hw; lia).
  assert (E : bits_of (Z.to_nat n) (u64 v) = bits_of (Z.to_nat n) v).
  { apply bits_of_eqm. rewrite Z2Nat.id by lia. unfold u64, to_u. apply mod_mod_pow2. lia. }
  assert (E2 : bits_of (Z.to_nat n) (v mod 2 ^ n) = bits_of (Z.to_nat n) v) by (apply bits_of_modn; lia).
  split.
  - cbn [t_write SignedBitFieldArrayTraits]. unfold write_bits. rewrite E. apply encodes_put.
  - cbn [t_read SignedBitFieldArrayTraits]. rewrite <- E2. eapply decodes_map.
    + apply decodes_read_bits_of; [lia|]. rewrite Z2Nat.id by lia. apply Z.mod_pos_bound. apply pow2_pos. lia.
    + cbn beta. f_equal. rewrite (fillUpperBits_spec _ v n) by (try lia; now left). cbn [gconv].
      now apply (to_s_u64 w v n).
Qed.

Lemma scalar_element : forall A w r P (T : traits A), scalar_type A w r P -> t_write T = w -> t_read T = r ->
  forall v, P v -> element_ok T (output (t_write T v)) v.
Proof.
  intros A w r P T H Ew Er v Hv. destruct (scalar_roundtrip A w r P H v Hv) as [bs Hbs].
  unfold element_ok. rewrite Ew, Er. now apply (roundtrips_output _ _ bs).
Qed.

Lemma builtin_roundtrip : forall b v, wf_builtin b -> in_range b v ->
  element_ok (traits_of b) (output (t_write (traits_of b) v)) v.
Proof.
  intros b v Hb Hv. destruct b as [| | | | | | | | | | | | | | | |g n|g n]; cbn [traits_of in_range elt] in *.
  - now apply (scalar_element _ _ _ _ VarIntArrayTraits ST_varint eq_refl eq_refl).
  - now apply (scalar_element _ _ _ _ VarInt16ArrayTraits ST_varint16 eq_refl eq_refl).
  - now apply (scalar_element _ _ _ _ VarInt32ArrayTraits ST_varint32 eq_refl eq_refl).
  - now apply (scalar_element _ _ _ _ VarInt64ArrayTraits ST_varint64 eq_refl eq_refl).
  - apply (scalar_element _ _ _ _ VarUIntArrayTraits ST_varuint eq_refl eq_refl).
    unfold in_u, MaxUint64 in *. lia.
  - now apply (scalar_element _ _ _ _ VarUInt16ArrayTraits ST_varuint16 eq_refl eq_refl).
  - now apply (scalar_element _ _ _ _ VarUInt32ArrayTraits ST_varuint32 eq_refl eq_refl).
  - now apply (scalar_element _ _ _ _ VarUInt64ArrayTraits ST_varuint64 eq_refl eq_refl).
  - now apply (scalar_element _ _ _ _ VarSizeArrayTraits ST_varsize eq_refl eq_refl).
  - now apply (scalar_element _ _ _ _ BooleanArrayTraits ST_bool eq_refl eq_refl).
  - now apply (scalar_element _ _ _ _ StringArrayTraits ST_string eq_refl eq_refl).
  - destruct Hv as (h & Hh & ->). unfold element_ok. eapply roundtrips_output. now apply WriteFloat16_rt.
  - now apply (scalar_element _ _ _ _ Float32ArrayTraits ST_float32 eq_refl eq_refl).
  - now apply (scalar_element _ _ _ _ Float64ArrayTraits ST_float64 eq_refl eq_refl).
  - destruct Hv as ([n buf] & -> & Hx). destruct (scalar_roundtrip _ _ _ _ ST_bytes _ Hx) as [bs [H1 H2]].
    unfold element_ok. eapply roundtrips_output. split; [exact H1|]. eapply decodes_map; [exact H2|reflexivity].
  - destruct Hv as ([n buf] & -> & Hx). destruct (scalar_roundtrip _ _ _ _ ST_extern _ Hx) as [bs [H1 H2]].
    unfold element_ok. eapply roundtrips_output. split; [exact H1|]. eapply decodes_map; [exact H2|reflexivity].
  - destruct g as [w|w]; [|contradiction]. destruct Hb as [Hw Hn].
    unfold element_ok. eapply roundtrips_output. now apply bitfield_rt.
  - destruct g as [w|w]; [contradiction|]. destruct Hb as [Hw Hn].
    unfold element_ok. eapply roundtrips_output. now apply sbitfield_rt.
Qed.

(** ** Numbers of the elements *)

Lemma u64_range : forall v, 0 <= u64 v < 2 ^ 64.
Proof. intros v. apply (to_u_range 64). lia. Qed.

Lemma i64_u64 : forall v, in_s 64 v -> i64 (u64 v) = v.
Proof. intros v Hv. unfold i64. apply (to_s_u64 64 v 64); unfold go_width, in_s in *; lia. Qed.

Lemma u64_u64 : forall v, in_u 64 v -> u64 (u64 v) = v.
Proof. intros v Hv. unfold in_u in Hv. unfold u64. rewrite !(to_u_small 64 v) by exact Hv. reflexivity. Qed.

Lemma builtin_number : forall b v, wf_builtin b -> integer_like b -> in_range b v -> number_ok (traits_of b) v.
Proof.
  intros b v Hb Hi Hv. unfold number_ok.
  destruct b as [| | | | | | | | | | | | | | | |g n|g n]; try contradiction; cbn [traits_of in_range elt] in *;
    unfold MaxVarint16, MaxVarint32, MaxVarint64, MaxVaruint16, MaxVaruint32, MaxVaruint64, MaxVarsize in Hv.
  - split; [apply u64_range|]. now apply i64_u64.
  - split; [apply u64_range|]. apply (to_s_u64 16 v 16); unfold go_width; change (2 ^ (16 - 1)) with (2 ^ 15); lia.
  - split; [apply u64_range|]. apply (to_s_u64 32 v 32); unfold go_width; change (2 ^ (32 - 1)) with (2 ^ 31); lia.
  - split; [apply u64_range|]. apply i64_u64. unfold in_s. change (2 ^ (64 - 1)) with (2 ^ 63). lia.
  - split; [apply u64_range|]. now apply u64_u64.
  - split; [apply u64_range|]. apply (to_u_u64 16 v 16); unfold go_width; lia.
  - split; [apply u64_range|]. apply (to_u_u64 32 v 32); unfold go_width; lia.
  - split; [apply u64_range|]. apply u64_u64. unfold in_u. lia.
  - split; [apply u64_range|]. apply u64_u64. unfold in_u. lia.
  - split; [destruct v; cbn; lia|]. now destruct v.
  - destruct g as [w|w]; [|contradiction]. destruct Hb as [Hw Hn]. split; [apply u64_range|].
    now apply (to_u_u64 w v n).
  - destruct g as [w|w]; [contradiction|]. destruct Hb as [Hw Hn]. split; [apply u64_range|].
    cbn [t_from t_as SignedBitFieldArrayTraits gconv].
    rewrite (fillUpperBits_spec _ v n); [now apply (to_s_u64 w v n)|unfold go_width in Hw; lia|exact Hv|now right].
Qed.

Lemma size_or_0_ok : forall o, (exists s, o = Ok s) \/ (exists e, o = Err e) -> exists s, size_or_0 o = Ok s.
Proof. intros o [[s ->]|[e ->]]; cbn; eauto. Qed.

Lemma unsigned_loop_total : forall f v m b x, (exists s, unsignedBitSize_loop f v m b x = Ok s) \/
  (exists e, unsignedBitSize_loop f v m b x = Err e).
Proof.
  induction f as [|f IH]; intros v m b x; cbn [unsignedBitSize_loop]; destruct (v <=? x); eauto.
Qed.

Lemma signed_loop_total : forall f v m b x, (exists s, signedBitSize_loop f v m b x = Ok s) \/
  (exists e, signedBitSize_loop f v m b x = Err e).
Proof.
  induction f as [|f IH]; intros v m b x; cbn [signedBitSize_loop]; destruct (v <=? x); eauto.
Qed.

Lemma builtin_sized : forall b v, in_range b v -> sized (traits_of b) v.
Proof.
  intros b v Hv. unfold sized.
  destruct b as [| | | | | | | | | | | | | | | |g n|g n]; cbn [traits_of in_range elt] in *;
    try (apply size_or_0_ok; apply signed_loop_total);
    try (apply size_or_0_ok; apply unsigned_loop_total);
    try (eexists; reflexivity).
  - cbn [t_size StringArrayTraits].
    destruct (signed_loop_total (Z.to_nat (4 - 1)) (Z.of_nat (length v)) 4 1 63) as [[s E]|[e E]];
      unfold SignedBitSize; replace (Z.of_nat (length v) <? 0) with false by lia; rewrite E; eauto.
  - destruct Hv as ([n buf] & -> & _). eexists; reflexivity.
  - destruct Hv as ([n buf] & -> & _). eexists; reflexivity.
Qed.
