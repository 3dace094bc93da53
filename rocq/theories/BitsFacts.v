(** Lemmas about [Bits.v]. *)

Require Import ZArith List Bool Lia ZifyBool ZifyNat.
From Verif Require Import Bits.
Import ListNotations.
Open Scope Z_scope.

Lemma bits_of_length : forall n z, length (bits_of n z) = n.
Proof. induction n as [|n IH]; intros z; simpl; [reflexivity|]. now rewrite IH. Qed.

Lemma fold_val_acc : forall l a,
  fold_left (fun a b => 2 * a + b2z b) l a = a * 2 ^ Z.of_nat (length l) + val_of l.
Proof.
  unfold val_of. induction l as [|b l IH]; intros a.
  - simpl. lia.
  - cbn [fold_left length]. rewrite IH, (IH (2 * 0 + b2z b)).
    rewrite Nat2Z.inj_succ, Z.pow_succ_r by lia. ring.
Qed.

Lemma val_of_cons : forall b l,
  val_of (b :: l) = b2z b * 2 ^ Z.of_nat (length l) + val_of l.
Proof.
  intros b l. unfold val_of at 1. cbn [fold_left]. rewrite fold_val_acc. ring.
Qed.

Lemma val_of_app : forall l1 l2,
  val_of (l1 ++ l2) = val_of l1 * 2 ^ Z.of_nat (length l2) + val_of l2.
Proof.
  intros l1 l2. unfold val_of at 1. rewrite fold_left_app, fold_val_acc. reflexivity.
Qed.

Lemma val_of_range : forall l, 0 <= val_of l < 2 ^ Z.of_nat (length l).
Proof.
  induction l as [|b l IH].
  - unfold val_of; simpl. lia.
  - rewrite val_of_cons. cbn [length]. rewrite Nat2Z.inj_succ, Z.pow_succ_r by lia.
    destruct b; unfold b2z; lia.
Qed.

Lemma testbit_div_step : forall z n, 0 <= n ->
  z mod 2 ^ (n + 1) = b2z (Z.testbit z n) * 2 ^ n + z mod 2 ^ n.
Proof.
  intros z n Hn.
  rewrite Z.pow_add_r by lia. change (2 ^ 1) with 2.
  rewrite Z.rem_mul_r by lia.
  assert (H : b2z (Z.testbit z n) = (z / 2 ^ n) mod 2).
  { rewrite <- Z.testbit_spec' by lia. unfold b2z, Z.b2z. now destruct (Z.testbit z n). }
  rewrite H. ring.
Qed.

Lemma val_of_bits_of : forall n z, val_of (bits_of n z) = z mod 2 ^ Z.of_nat n.
Proof.
  induction n as [|n IH]; intros z.
  - simpl. unfold val_of; simpl. now rewrite Z.mod_1_r.
  - cbn [bits_of]. rewrite val_of_cons, bits_of_length, IH.
    rewrite Nat2Z.inj_succ, <- Z.add_1_r. rewrite testbit_div_step by lia. reflexivity.
Qed.

Lemma bits_of_ext : forall n z1 z2,
  (forall i, 0 <= i < Z.of_nat n -> Z.testbit z1 i = Z.testbit z2 i) ->
  bits_of n z1 = bits_of n z2.
Proof.
  induction n as [|n IH]; intros z1 z2 H; simpl; [reflexivity|].
  f_equal; [apply H; lia | apply IH; intros; apply H; lia].
Qed.

Lemma bits_of_mod : forall n m z, (n <= m)%nat -> bits_of n (z mod 2 ^ Z.of_nat m) = bits_of n z.
Proof.
  intros n m z H. apply bits_of_ext. intros i Hi.
  apply Z.mod_pow2_bits_low. lia.
Qed.

Lemma val_of_inj : forall l1 l2, length l1 = length l2 -> val_of l1 = val_of l2 -> l1 = l2.
Proof.
  induction l1 as [|b1 l1 IH]; intros [|b2 l2] Hlen H; try discriminate; [reflexivity|].
  cbn in Hlen. injection Hlen as Hlen.
  rewrite !val_of_cons, Hlen in H.
  pose proof (val_of_range l1) as R1. pose proof (val_of_range l2) as R2.
  rewrite Hlen in R1.
  assert (b1 = b2) by (destruct b1, b2; unfold b2z in H; auto; lia).
  subst b2. f_equal. apply IH; auto. lia.
Qed.

Lemma bits_of_val_of : forall l, bits_of (length l) (val_of l) = l.
Proof.
  intros l. apply val_of_inj.
  - apply bits_of_length.
  - rewrite val_of_bits_of. apply Z.mod_small. apply val_of_range.
Qed.

Lemma bits_of_app : forall a b z,
  bits_of (a + b) z = bits_of a (z / 2 ^ Z.of_nat b) ++ bits_of b z.
Proof.
  induction a as [|a IH]; intros b z; simpl; [reflexivity|].
  f_equal; [|apply IH].
  rewrite Z.div_pow2_bits by lia. f_equal. lia.
Qed.

Lemma bits_of_shift_lor : forall a b x y, 0 <= x -> 0 <= y < 2 ^ Z.of_nat b ->
  bits_of (a + b) (x * 2 ^ Z.of_nat b + y) = bits_of a x ++ bits_of b y.
Proof.
  intros a b x y Hx Hy. rewrite bits_of_app. f_equal.
  - rewrite Z.div_add_l by lia. rewrite (Z.div_small y) by lia. now rewrite Z.add_0_r.
  - rewrite <- (bits_of_mod b b) by lia.
    rewrite Z.add_comm, Z.mod_add by lia. now rewrite Z.mod_small by lia.
Qed.

Lemma bits_of_inj : forall n x y, 0 <= x < 2 ^ Z.of_nat n -> 0 <= y < 2 ^ Z.of_nat n ->
  bits_of n x = bits_of n y -> x = y.
Proof.
  intros n x y Hx Hy H. apply (f_equal val_of) in H.
  rewrite !val_of_bits_of, !Z.mod_small in H by lia. exact H.
Qed.

Lemma bits_of_0 : forall n, bits_of n 0 = repeat false n.
Proof. induction n as [|n IH]; simpl; [reflexivity|]. now rewrite Z.bits_0, IH. Qed.

(** ** Conversions *)

Lemma to_u_small : forall n z, 0 <= z < 2 ^ n -> to_u n z = z.
Proof. intros. unfold to_u. now apply Z.mod_small. Qed.

Lemma to_u_range : forall n z, 0 <= n -> 0 <= to_u n z < 2 ^ n.
Proof. intros. unfold to_u. apply Z.mod_pos_bound. apply Z.pow_pos_nonneg; lia. Qed.

Lemma pow2_double : forall n, 0 < n -> 2 ^ n = 2 * 2 ^ (n - 1).
Proof.
  intros n Hn. replace n with (Z.succ (n - 1)) at 1 by lia.
  rewrite Z.pow_succ_r by lia. reflexivity.
Qed.

Lemma to_s_small : forall n z, 0 < n -> - 2 ^ (n - 1) <= z < 2 ^ (n - 1) -> to_s n z = z.
Proof.
  intros n z Hn H. unfold to_s. pose proof (pow2_double n Hn) as D.
  assert (0 < 2 ^ (n - 1)) by (apply Z.pow_pos_nonneg; lia).
  destruct (Z_lt_le_dec z 0) as [Hneg|Hpos].
  - assert (E : z mod 2 ^ n = z + 2 ^ n).
    { rewrite <- (Z_mod_plus_full z 1). rewrite Z.mul_1_l. apply Z.mod_small. lia. }
    rewrite E. destruct (Z.ltb_spec (z + 2 ^ n) (2 ^ (n - 1))); lia.
  - rewrite Z.mod_small by lia. destruct (Z.ltb_spec z (2 ^ (n - 1))); lia.
Qed.

Lemma to_s_range : forall n z, 0 < n -> - 2 ^ (n - 1) <= to_s n z < 2 ^ (n - 1).
Proof.
  intros n z Hn. unfold to_s. pose proof (pow2_double n Hn) as D.
  assert (0 < 2 ^ (n - 1)) by (apply Z.pow_pos_nonneg; lia).
  pose proof (Z.mod_pos_bound z (2 ^ n)).
  destruct (Z.ltb_spec (z mod 2 ^ n) (2 ^ (n - 1))); lia.
Qed.

Lemma to_s_to_u : forall n z, 0 < n -> - 2 ^ (n - 1) <= z < 2 ^ (n - 1) ->
  to_s n (to_u n z) = z.
Proof.
  intros n z Hn H. rewrite <- (to_s_small n z Hn H) at 2.
  unfold to_s, to_u. now rewrite Z.mod_mod by (apply Z.pow_nonzero; lia).
Qed.

Lemma to_s_mod_eq : forall n a b, a mod 2 ^ n = b mod 2 ^ n -> to_s n a = to_s n b.
Proof. intros n a b H. unfold to_s. now rewrite H. Qed.

Lemma to_s_mod : forall n z, 0 < n -> to_s n z mod 2 ^ n = z mod 2 ^ n.
Proof.
  intros n z Hn. unfold to_s.
  assert (0 < 2 ^ n) by (apply Z.pow_pos_nonneg; lia).
  destruct (Z.ltb_spec (z mod 2 ^ n) (2 ^ (n - 1))).
  - apply Z.mod_mod; lia.
  - rewrite <- (Z_mod_plus_full (z mod 2 ^ n - 2 ^ n) 1).
    replace (z mod 2 ^ n - 2 ^ n + 1 * 2 ^ n) with (z mod 2 ^ n) by ring.
    apply Z.mod_mod; lia.
Qed.

(** ** Byte strings as bit lists *)

Lemma bytes_bits_length : forall l, length (bytes_bits l) = (8 * length l)%nat.
Proof.
  induction l as [|b l IH]; [reflexivity|].
  unfold bytes_bits in *. cbn [flat_map]. rewrite app_length, IH, bits_of_length. cbn [length]. lia.
Qed.

Lemma bytes_bits_app : forall a b, bytes_bits (a ++ b) = bytes_bits a ++ bytes_bits b.
Proof. intros. unfold bytes_bits. apply flat_map_app. Qed.
