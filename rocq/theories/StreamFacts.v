(** Basic laws of the specification predicates of [Spec.v]. *)

Require Import ZArith List Bool Lia ZifyBool ZifyNat.
From Verif Require Import Bits BitsFacts Stream.
From Verif Require Export Spec.
Import ListNotations.
Open Scope Z_scope.
Open Scope io_scope.

(** [injection] would also reduce the values; this does not. *)
Lemma ok_inj : forall {S A} (s1 s2 : S) (a b : A), (s1, Ok a) = (s2, Ok b) -> s1 = s2 /\ a = b.
Proof. intros S A s1 s2 a b H. injection H. auto. Qed.

Lemma encodes_ret : encodes (wret tt) [].
Proof. intros [b f] H; cbn in *. unfold wret. subst f. now rewrite app_nil_r. Qed.

Lemma encodes_bind : forall m1 (f : unit -> writer unit) b1 b2,
  encodes m1 b1 -> encodes (f tt) b2 -> encodes (wbind m1 f) (b1 ++ b2).
Proof.
  intros m1 f b1 b2 H1 H2 w Hw. unfold wbind. rewrite (H1 w Hw).
  rewrite H2 by reflexivity. cbn. now rewrite app_assoc.
Qed.

Lemma encodes_put : forall bs, encodes (put bs) bs.
Proof. intros bs [b f] H; cbn in *. subst f. reflexivity. Qed.

Lemma decodes_ret : forall {A} (a : A), decodes (rret a) [] a.
Proof. intros A a pos rest. cbn. unfold rret. now rewrite Nat.add_0_r. Qed.

Lemma decodes_bind : forall {A B} (m : reader A) (f : A -> reader B) b1 b2 a c,
  decodes m b1 a -> decodes (f a) b2 c -> decodes (rbind m f) (b1 ++ b2) c.
Proof.
  intros A B m f b1 b2 a c H1 H2 pos rest. unfold rbind.
  rewrite <- app_assoc, H1, H2. rewrite app_length, Nat.add_assoc. reflexivity.
Qed.

(** A pure step after the last read. *)
Lemma decodes_map : forall {A B} (m : reader A) (f : A -> reader B) bs a b,
  decodes m bs a -> f a = rret b -> decodes (rbind m f) bs b.
Proof.
  intros A B m f bs a b H1 H2. rewrite <- (app_nil_r bs).
  eapply decodes_bind; [exact H1|]. rewrite H2. apply decodes_ret.
Qed.

Lemma skipn_app_exact : forall {A} (l1 l2 : list A), skipn (length l1) (l1 ++ l2) = l2.
Proof. intros. rewrite skipn_app, skipn_all, Nat.sub_diag. reflexivity. Qed.

Lemma firstn_app_exact : forall {A} (l1 l2 : list A), firstn (length l1) (l1 ++ l2) = l1.
Proof. intros. rewrite firstn_app, firstn_all, Nat.sub_diag. cbn. apply app_nil_r. Qed.

Lemma decodes_read_bits : forall bs, (length bs <= 64)%nat ->
  decodes (read_bits (length bs)) bs (val_of bs).
Proof.
  intros bs Hlen pos rest. unfold read_bits. cbn [rrem rpos].
  rewrite app_length.
  replace (length bs <=? length bs + length rest)%nat with true
    by (symmetry; apply Nat.leb_le; lia).
  rewrite skipn_app_exact, firstn_app_exact. repeat f_equal.
  unfold u64. apply to_u_small. pose proof (val_of_range bs).
  assert (2 ^ Z.of_nat (length bs) <= 2 ^ 64) by (apply Z.pow_le_mono_r; lia). lia.
Qed.

Lemma decodes_read_bits_of : forall n z, (n <= 64)%nat -> 0 <= z < 2 ^ Z.of_nat n ->
  decodes (read_bits n) (bits_of n z) z.
Proof.
  intros n z Hn Hz.
  pose proof (decodes_read_bits (bits_of n z)) as H.
  rewrite bits_of_length, val_of_bits_of, Z.mod_small in H by lia. auto.
Qed.

Lemma decodes_read_byte : forall b, 0 <= b < 256 -> decodes read_byte (bits_of 8 b) b.
Proof. intros b Hb. apply decodes_read_bits_of; [lia|]. exact Hb. Qed.

Lemma decodes_read_bool : forall b, decodes read_bool [b] b.
Proof.
  intros b. unfold read_bool. eapply decodes_map.
  - apply (decodes_read_bits [b]). cbn; lia.
  - destruct b; reflexivity.
Qed.

Lemma take_bytes_app : forall l rest, Forall is_byte l ->
  take_bytes (length l) (bytes_bits l ++ rest) = l.
Proof.
  induction l as [|b l IH]; intros rest H; [reflexivity|].
  inversion H as [|? ? Hb Hl]; subst.
  cbn [length take_bytes]. unfold bytes_bits. cbn [flat_map].
  rewrite <- app_assoc.
  pose proof (firstn_app_exact (bits_of 8 b) (bytes_bits l ++ rest)) as E1.
  pose proof (skipn_app_exact (bits_of 8 b) (bytes_bits l ++ rest)) as E2.
  rewrite bits_of_length in E1, E2. unfold bytes_bits in E1, E2.
  rewrite E1, E2, val_of_bits_of.
  f_equal; [|now apply IH].
  unfold is_byte in Hb. apply Z.mod_small. exact Hb.
Qed.

Lemma decodes_read_full : forall l k, Forall is_byte l -> k = Z.of_nat (length l) ->
  decodes (read_full k) (bytes_bits l) l.
Proof.
  intros l k Hl Hk pos rest. subst k. unfold read_full. cbn [rrem rpos].
  rewrite app_length, bytes_bits_length, Nat2Z.id.
  replace (8 * Z.of_nat (length l) <=? Z.of_nat (8 * length l + length rest)) with true by lia.
  rewrite take_bytes_app by assumption.
  rewrite <- (bytes_bits_length l) at 2. rewrite skipn_app_exact. reflexivity.
Qed.

Lemma encodes_inj : forall m b1 b2, encodes m b1 -> encodes m b2 -> b1 = b2.
Proof.
  intros m b1 b2 H1 H2. specialize (H1 (mkW [] []) eq_refl). specialize (H2 (mkW [] []) eq_refl).
  rewrite H1 in H2. cbn in H2. now injection H2.
Qed.

(** Two decodings of streams starting with [b1] and [b2] can only coincide when
    neither encoding extends the other: prefix freeness follows from [decodes]. *)
Lemma decodes_prefix_free : forall {A} (m : reader A) b1 b2 a1 a2 t1 t2,
  decodes m b1 a1 -> decodes m b2 a2 -> b1 ++ t1 = b2 ++ t2 -> b1 = b2 /\ a1 = a2 /\ t1 = t2.
Proof.
  intros A m b1 b2 a1 a2 t1 t2 H1 H2 E.
  specialize (H1 0%nat t1). specialize (H2 0%nat t2). rewrite E in H1. rewrite H1 in H2.
  injection H2 as Hlen Ht Ha.
  assert (Hb : b1 = b2).
  { rewrite Ht in E. apply app_inv_tail in E. exact E. }
  auto.
Qed.
