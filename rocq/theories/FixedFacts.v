(** Facts about the fixed-width integer codecs. *)

Require Import ZArith List Bool Lia ZifyBool ZifyNat.
From Verif Require Import Bits BitsFacts Stream StreamFacts Scalars.
Import ListNotations.
Open Scope Z_scope.
Open Scope io_scope.

Lemma pow2_pos : forall n, 0 <= n -> 0 < 2 ^ n.
Proof. intros. apply Z.pow_pos_nonneg; lia. Qed.

Lemma pow2_le : forall a b, 0 <= a <= b -> 2 ^ a <= 2 ^ b.
Proof. intros. apply Z.pow_le_mono_r; lia. Qed.

(** The limit computed by WriteUnsignedBits. *)
Lemma unsigned_limit : forall bits, 0 <= bits <= 64 ->
  u64 (shl1_u64 bits - 1) = 2 ^ bits - 1.
Proof.
  intros bits Hb. unfold shl1_u64, u64. rewrite Z.shiftl_1_l.
  destruct (Z.eq_dec bits 64) as [->|Hne]; [reflexivity|].
  assert (2 ^ bits <= 2 ^ 63) by (apply pow2_le; lia).
  pose proof (pow2_pos bits). assert (2 ^ 63 < 2 ^ 64) by reflexivity.
  rewrite (to_u_small 64 (2 ^ bits)) by lia. apply to_u_small. lia.
Qed.

Lemma WriteUnsignedBits_ok : forall v bits, 0 <= bits <= 64 -> 0 <= v < 2 ^ bits ->
  encodes (WriteUnsignedBits v bits) (bits_of (Z.to_nat bits) v).
Proof.
  intros v bits Hb Hv. unfold WriteUnsignedBits. rewrite unsigned_limit by lia.
  replace (2 ^ bits - 1 <? v) with false by lia. apply encodes_put.
Qed.

Lemma WriteUnsignedBits_rejects : forall v bits, 0 <= bits <= 64 -> 2 ^ bits <= v ->
  rejects (WriteUnsignedBits v bits) ErrValueOutOfBitRange.
Proof.
  intros v bits Hb Hv w. unfold WriteUnsignedBits. rewrite unsigned_limit by lia.
  replace (2 ^ bits - 1 <? v) with true by lia. reflexivity.
Qed.

Lemma ReadUnsignedBits_ok : forall v bits, 0 <= bits <= 64 -> 0 <= v < 2 ^ bits ->
  decodes (ReadUnsignedBits bits) (bits_of (Z.to_nat bits) v) v.
Proof.
  intros v bits Hb Hv. unfold ReadUnsignedBits. apply decodes_read_bits_of; [lia|].
  rewrite Z2Nat.id by lia. exact Hv.
Qed.

(** The limits computed by WriteSignedBits. *)
Lemma signed_min : forall bits, 1 <= bits <= 64 ->
  i64 (- shl1_i64 (to_u 8 (bits - 1))) = - 2 ^ (bits - 1).
Proof.
  intros bits Hb. rewrite to_u_small by (change (2 ^ 8) with 256; lia).
  unfold shl1_i64, i64. rewrite Z.shiftl_1_l.
  destruct (Z.eq_dec bits 64) as [->|Hne]; [reflexivity|].
  assert (2 ^ (bits - 1) <= 2 ^ 62) by (apply pow2_le; lia).
  pose proof (pow2_pos (bits - 1)). assert (2 ^ 62 < 2 ^ (64 - 1)) by reflexivity.
  rewrite (to_s_small 64 (2 ^ (bits - 1))) by lia. apply to_s_small; lia.
Qed.

Lemma signed_max : forall bits, 1 <= bits <= 64 ->
  i64 (shl1_i64 (to_u 8 (bits - 1)) - 1) = 2 ^ (bits - 1) - 1.
Proof.
  intros bits Hb. rewrite to_u_small by (change (2 ^ 8) with 256; lia).
  unfold shl1_i64, i64. rewrite Z.shiftl_1_l.
  destruct (Z.eq_dec bits 64) as [->|Hne]; [reflexivity|].
  assert (2 ^ (bits - 1) <= 2 ^ 62) by (apply pow2_le; lia).
  pose proof (pow2_pos (bits - 1)). assert (2 ^ 62 < 2 ^ (64 - 1)) by reflexivity.
  rewrite (to_s_small 64 (2 ^ (bits - 1))) by lia. apply to_s_small; lia.
Qed.

Lemma bits_of_eqm : forall n a b, a mod 2 ^ Z.of_nat n = b mod 2 ^ Z.of_nat n ->
  bits_of n a = bits_of n b.
Proof. intros n a b H. rewrite <- (bits_of_mod n n a), <- (bits_of_mod n n b) by lia. now rewrite H. Qed.

(** Reducing modulo a larger power of two first changes nothing. *)
Lemma mod_mod_pow2 : forall z a b, 0 <= a <= b -> (z mod 2 ^ b) mod 2 ^ a = z mod 2 ^ a.
Proof.
  intros z a b H. rewrite <- (Z.mod_mod z (2 ^ a)) at 1 by (pose proof (pow2_pos a); lia).
  replace b with (a + (b - a)) by lia. rewrite Z.pow_add_r by lia.
  rewrite Z.rem_mul_r by (pose proof (pow2_pos a); pose proof (pow2_pos (b - a)); lia).
  rewrite Z.mul_comm, Z.mod_add by (pose proof (pow2_pos a); lia).
  rewrite !Z.mod_mod by (pose proof (pow2_pos a); lia). reflexivity.
Qed.

(** The pattern WriteSignedBits sends for a negative value. *)
Lemma signed_pattern : forall v bits, 1 <= bits <= 64 -> - 2 ^ (bits - 1) <= v < 0 ->
  bits_of (Z.to_nat bits) (Z.lor (shl1_u64 bits) (u64 (i64 (v + shl1_i64 bits))))
  = bits_of (Z.to_nat bits) v.
Proof.
  intros v bits Hb Hv.
  assert (Hlow : bits_of (Z.to_nat bits) (u64 (i64 (v + shl1_i64 bits))) = bits_of (Z.to_nat bits) v).
  { apply bits_of_eqm. rewrite Z2Nat.id by lia.
    unfold u64, to_u. rewrite mod_mod_pow2 by lia.
    rewrite <- (mod_mod_pow2 (i64 _) bits 64) by lia.
    unfold i64 at 1. rewrite to_s_mod by lia. rewrite mod_mod_pow2 by lia.
    assert (E : shl1_i64 bits mod 2 ^ bits = 0).
    { rewrite <- (mod_mod_pow2 _ bits 64) by lia.
      unfold shl1_i64, i64. rewrite to_s_mod by lia. rewrite mod_mod_pow2 by lia.
      rewrite Z.shiftl_1_l. apply Z.mod_same. pose proof (pow2_pos bits); lia. }
    rewrite Z.add_mod, E, Z.add_0_r by (pose proof (pow2_pos bits); lia).
    rewrite Z.mod_mod by (pose proof (pow2_pos bits); lia). reflexivity. }
  rewrite <- Hlow. apply bits_of_ext. intros i Hi.
  rewrite Z.lor_spec. unfold shl1_u64, u64, to_u.
  rewrite Z.mod_pow2_bits_low by lia. rewrite Z.shiftl_1_l, Z.pow2_bits_eqb by lia.
  replace (bits =? i) with false by lia. reflexivity.
Qed.

Lemma WriteSignedBits_ok : forall v bits, 1 <= bits <= 64 ->
  - 2 ^ (bits - 1) <= v < 2 ^ (bits - 1) ->
  encodes (WriteSignedBits v bits) (bits_of (Z.to_nat bits) v).
Proof.
  intros v bits Hb Hv. unfold WriteSignedBits.
  replace (64 <? bits) with false by lia. cbv zeta.
  rewrite signed_min, signed_max by lia.
  replace ((v <? - 2 ^ (bits - 1)) || (2 ^ (bits - 1) - 1 <? v)) with false by lia.
  destruct (Z.leb_spec 0 v).
  - assert (2 ^ (bits - 1) <= 2 ^ 63) by (apply pow2_le; lia).
    unfold u64. rewrite to_u_small by (change (2 ^ 63) with (2 ^ 64 / 2) in *; lia).
    apply encodes_put.
  - rewrite <- signed_pattern by lia. apply encodes_put.
Qed.

Lemma WriteSignedBits_rejects : forall v bits, 1 <= bits <= 64 ->
  v < - 2 ^ (bits - 1) \/ 2 ^ (bits - 1) <= v ->
  rejects (WriteSignedBits v bits) ErrValueOutOfBitRange.
Proof.
  intros v bits Hb Hv w. unfold WriteSignedBits.
  replace (64 <? bits) with false by lia. cbv zeta.
  rewrite signed_min, signed_max by lia.
  replace ((v <? - 2 ^ (bits - 1)) || (2 ^ (bits - 1) - 1 <? v)) with true by lia.
  reflexivity.
Qed.

Lemma WriteSignedBits_panics : forall v bits w, 64 < bits -> WriteSignedBits v bits w = (w, Panic).
Proof. intros v bits w H. unfold WriteSignedBits. replace (64 <? bits) with true by lia. reflexivity. Qed.

Lemma land_pow2_testbit : forall u n, 0 <= n -> negb (Z.land u (2 ^ n) =? 0) = Z.testbit u n.
Proof.
  intros u n Hn. destruct (Z.testbit u n) eqn:E.
  - destruct (Z.eqb_spec (Z.land u (2 ^ n)) 0) as [H|H]; [|reflexivity].
    apply (f_equal (fun z => Z.testbit z n)) in H.
    rewrite Z.land_spec, E, Z.pow2_bits_true, Z.bits_0 in H by lia. discriminate.
  - replace (Z.land u (2 ^ n)) with 0; [reflexivity|].
    apply Z.bits_inj'. intros i Hi. rewrite Z.land_spec, Z.bits_0, Z.pow2_bits_eqb by lia.
    destruct (Z.eqb_spec n i) as [->|]; [now rewrite E|now rewrite andb_false_r].
Qed.

Lemma testbit_top : forall u n, 0 <= n -> 0 <= u < 2 ^ (n + 1) ->
  Z.testbit u n = (2 ^ n <=? u).
Proof.
  intros u n Hn Hu.
  rewrite Z.testbit_odd, Z.shiftr_div_pow2 by lia.
  pose proof (pow2_pos n Hn). rewrite Z.pow_add_r in Hu by lia. change (2 ^ 1) with 2 in Hu.
  destruct (Z.leb_spec (2 ^ n) u).
  - replace (u / 2 ^ n) with 1; [reflexivity|].
    apply Z.div_unique with (u - 2 ^ n); lia.
  - now rewrite Z.div_small by lia.
Qed.

(** ReadSignedBits is the two's complement value of the bits read. *)
Lemma ReadSignedBits_eq : forall bits r, 1 <= bits <= 64 ->
  ReadSignedBits bits r =
  match read_bits (Z.to_nat bits) r with
  | (r', Ok u) => (r', Ok (to_s bits u))
  | (r', Err e) => (r', Err e)
  | (r', Panic) => (r', Panic)
  | (r', NoFuel) => (r', NoFuel)
  end.
Proof.
  intros bits r Hb. unfold ReadSignedBits. replace (64 <? bits) with false by lia.
  unfold rbind, read_bits.
  destruct (Z.to_nat bits <=? length (rrem r))%nat eqn:E; [|reflexivity].
  set (u0 := val_of (firstn (Z.to_nat bits) (rrem r))).
  assert (Hu : 0 <= u0 < 2 ^ bits).
  { pose proof (val_of_range (firstn (Z.to_nat bits) (rrem r))) as H.
    rewrite firstn_length_le in H by (apply Nat.leb_le; exact E).
    rewrite Z2Nat.id in H by lia. exact H. }
  assert (2 ^ bits <= 2 ^ 64) by (apply pow2_le; lia).
  unfold u64. rewrite (to_u_small 64 u0) by lia.
  rewrite to_u_small by (change (2 ^ 8) with 256; lia).
  assert (Hsh : shl1_u64 (bits - 1) = 2 ^ (bits - 1)).
  { unfold shl1_u64, u64. rewrite Z.shiftl_1_l. apply to_u_small.
    split; [pose proof (pow2_pos (bits - 1)); lia|].
    apply Z.pow_lt_mono_r; lia. }
  rewrite Hsh, land_pow2_testbit by lia.
  rewrite testbit_top by (try lia; replace (bits - 1 + 1) with bits by lia; lia).
  pose proof (pow2_double bits ltac:(lia)) as D.
  unfold rret. unfold to_s at 1. rewrite (Z.mod_small u0 (2 ^ bits)) by lia.
  destruct (Z.leb_spec (2 ^ (bits - 1)) u0); destruct (Z.ltb_spec u0 (2 ^ (bits - 1))); try lia.
  - repeat f_equal.
    rewrite <- (to_s_small 64 (u0 - 2 ^ bits)) by
      (try lia; assert (2 ^ (bits - 1) <= 2 ^ 63) by (apply pow2_le; lia);
       change (2 ^ (64 - 1)) with (2 ^ 63); lia).
    unfold i64. apply to_s_mod_eq.
    unfold shl1_i64, i64. rewrite Z.shiftl_1_l.
    rewrite (Zminus_mod (to_s 64 u0)), !to_s_mod by lia.
    rewrite <- Zminus_mod. reflexivity.
  - repeat f_equal. unfold i64. apply to_s_small; [lia|].
    assert (2 ^ (bits - 1) <= 2 ^ 63) by (apply pow2_le; lia).
    change (2 ^ (64 - 1)) with (2 ^ 63). lia.
Qed.

Lemma ReadSignedBits_ok : forall v bits, 1 <= bits <= 64 ->
  - 2 ^ (bits - 1) <= v < 2 ^ (bits - 1) ->
  decodes (ReadSignedBits bits) (bits_of (Z.to_nat bits) v) v.
Proof.
  intros v bits Hb Hv pos rest. rewrite ReadSignedBits_eq by lia.
  pose proof (decodes_read_bits_of (Z.to_nat bits) (v mod 2 ^ bits)) as H.
  assert (E : bits_of (Z.to_nat bits) v = bits_of (Z.to_nat bits) (v mod 2 ^ bits)).
  { symmetry. rewrite <- (Z2Nat.id bits) at 2 by lia. apply bits_of_mod. lia. }
  rewrite E, H.
  - repeat f_equal. now apply to_s_to_u; lia || idtac.
  - lia.
  - rewrite Z2Nat.id by lia. apply Z.mod_pos_bound. apply pow2_pos; lia.
Qed.

Lemma decodes_conv : forall (m : reader Z) (c : Z -> Z) bs v,
  decodes m bs v -> c v = v -> decodes (rbind m (fun x => rret (c x))) bs v.
Proof. intros m c bs v H E. eapply decodes_map; [exact H|]. now rewrite E. Qed.

Definition uint_reader (n : Z) : reader Z := v <-r ReadUnsignedBits n; rret (to_u n v).
Definition int_reader (n : Z) : reader Z := v <-r ReadSignedBits n; rret (to_s n v).

Lemma uint_reader_ok : forall n v, 0 <= n <= 64 -> 0 <= v < 2 ^ n ->
  decodes (uint_reader n) (bits_of (Z.to_nat n) v) v.
Proof.
  intros n v Hn Hv. apply decodes_conv; [now apply ReadUnsignedBits_ok|now apply to_u_small].
Qed.

Lemma int_reader_ok : forall n v, 1 <= n <= 64 -> - 2 ^ (n - 1) <= v < 2 ^ (n - 1) ->
  decodes (int_reader n) (bits_of (Z.to_nat n) v) v.
Proof.
  intros n v Hn Hv. apply decodes_conv; [now apply ReadSignedBits_ok|apply to_s_small; lia].
Qed.
