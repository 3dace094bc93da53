(** Round trips of the named scalar codecs, sizes, shortest encodings. *)

Require Import ZArith List Bool Lia ZifyBool ZifyNat.
From Verif Require Import Bits BitsFacts Stream StreamFacts Scalars FixedFacts VarFacts PrefixFacts.
Import ListNotations.
Open Scope Z_scope.
Open Scope io_scope.

Ltac is_const r := match r with Z0 => idtac | Zpos ?p => is_constp p end
with is_constp p := match p with xH => idtac | xO ?q => is_constp q | xI ?q => is_constp q end.
Ltac evalpow :=
  repeat match goal with
  | |- context [2 ^ ?a] => let r := eval vm_compute in (2 ^ a) in is_const r; change (2 ^ a) with r
  | H : context [2 ^ ?a] |- _ =>
      let r := eval vm_compute in (2 ^ a) in is_const r; change (2 ^ a) with r in H
  end.

(** ** Unsigned varints *)

Lemma vu_tail_length : forall d v j, length (vu_tail d v j) = j.
Proof.
  intros d v j. induction j as [|j IH]; [reflexivity|]. destruct j; [reflexivity|].
  change (vu_tail d v (S (S j))) with
    ((128 + (v / 2 ^ (7 * Z.of_nat (S j) + d)) mod 128) :: vu_tail d v (S j)).
  cbn [length]. now rewrite IH.
Qed.

Lemma vs_bytes_length : forall n d v j, length (vs_bytes n d v j) = j.
Proof. intros n d v [|j]; [reflexivity|]. cbn [vs_bytes length]. now rewrite vu_tail_length. Qed.

(** The accumulator conversions are the identity below the type's maximum. *)
Lemma conv_u : forall n v x, 0 <= x <= v -> v < 2 ^ n -> to_u n x = x.
Proof. intros. apply to_u_small. lia. Qed.

Lemma conv_s : forall n v x, 0 < n -> - v <= x <= v -> v < 2 ^ (n - 1) -> to_s n x = x.
Proof. intros. apply to_s_small; lia. Qed.

Lemma varuint_roundtrip : forall conv v m, limit m -> 0 <= v < 2 ^ ucap m m ->
  (forall x, 0 <= x <= v -> conv x = x) ->
  exists k, ushortest v k m /\ UnsignedBitSize v m = Ok (8 * k) /\
    roundtrips (writeVarUint v m) (read_varuint conv (Z.to_nat (m - 2))) (uwire v k m) v.
Proof.
  intros conv v m Hm Hv Hc. destruct (writeVarUint_ok v m Hv Hm) as (k & Hk & Hs & Hlt & Hge & He).
  exists k. unfold ushortest, roundtrips. repeat split; auto; try lia.
  apply read_varuint_ok; auto; lia.
Qed.

Lemma varint_roundtrip : forall conv v m, limit m -> in_s 64 v -> v <> MinInt64 ->
  Z.abs v < 2 ^ scap m m ->
  (forall x, - Z.abs v <= x <= Z.abs v -> conv x = x) ->
  exists k, sshortest v k m /\ SignedBitSize v m = Ok (8 * k) /\
    roundtrips (writeVarInt v m) (b <-r read_byte; read_varint_from conv (Z.to_nat (m - 2)) b)
               (swire v k m) v.
Proof.
  intros conv v m Hm Hi Hne Hv Hc.
  destruct (writeVarInt_ok v m Hi Hne Hv Hm) as (k & Hk & Hs & Hlt & Hge & He).
  exists k. unfold sshortest, roundtrips. repeat split; auto; try lia.
  unfold swire. replace v with (if v <? 0 then - Z.abs v else Z.abs v) at 3
    by (destruct (Z.ltb_spec v 0); lia).
  apply read_varint_ok; auto; lia.
Qed.

Lemma limits_ok : limit 2 /\ limit 4 /\ limit 5 /\ limit 8 /\ limit 9.
Proof. unfold limit. repeat split; auto. Qed.

Lemma WriteVaruint16_rt : forall v, 0 <= v <= MaxVaruint16 ->
  exists k, ushortest v k 2 /\ UnsignedBitSize v 2 = Ok (8 * k) /\
    roundtrips (WriteVaruint16 v) ReadVaruint16 (uwire v k 2) v.
Proof.
  intros v Hv. unfold MaxVaruint16 in Hv. apply (varuint_roundtrip (to_u 16) v 2).
  - apply limits_ok.
  - change (2 ^ ucap 2 2) with (2 ^ 15). lia.
  - intros x Hx. apply (conv_u _ v); [lia|]. change (2 ^ 16) with (2 * 2 ^ 15). lia.
Qed.

Lemma WriteVaruint32_rt : forall v, 0 <= v <= MaxVaruint32 ->
  exists k, ushortest v k 4 /\ UnsignedBitSize v 4 = Ok (8 * k) /\
    roundtrips (WriteVaruint32 v) ReadVaruint32 (uwire v k 4) v.
Proof.
  intros v Hv. unfold MaxVaruint32 in Hv. apply (varuint_roundtrip (to_u 32) v 4).
  - apply limits_ok.
  - change (2 ^ ucap 4 4) with (2 ^ 29). lia.
  - intros x Hx. apply (conv_u _ v); [lia|]. change (2 ^ 32) with (8 * 2 ^ 29). lia.
Qed.

Lemma WriteVaruint64_rt : forall v, 0 <= v <= MaxVaruint64 ->
  exists k, ushortest v k 8 /\ UnsignedBitSize v 8 = Ok (8 * k) /\
    roundtrips (WriteVaruint64 v) ReadVaruint64 (uwire v k 8) v.
Proof.
  intros v Hv. unfold MaxVaruint64 in Hv. apply (varuint_roundtrip (to_u 64) v 8).
  - apply limits_ok.
  - change (2 ^ ucap 8 8) with (2 ^ 57). lia.
  - intros x Hx. apply (conv_u _ v); [lia|]. change (2 ^ 64) with (128 * 2 ^ 57). lia.
Qed.

Lemma WriteVaruint_rt : forall v, 0 <= v <= MaxUint64 ->
  exists k, ushortest v k 9 /\ UnsignedBitSize v 9 = Ok (8 * k) /\
    roundtrips (WriteVaruint v) ReadVaruint (uwire v k 9) v.
Proof.
  intros v Hv. unfold MaxUint64 in Hv. apply (varuint_roundtrip (to_u 64) v 9).
  - apply limits_ok.
  - change (2 ^ ucap 9 9) with (2 ^ 64). lia.
  - intros x Hx. apply (conv_u _ v); lia.
Qed.

Lemma WriteVaruint16_rejects : forall v, MaxVaruint16 < v -> rejects (WriteVaruint16 v) ErrOutOfBounds.
Proof.
  intros v Hv. unfold MaxVaruint16 in Hv. apply writeVarUint_rejects; [lia|apply limits_ok|].
  change (2 ^ ucap 2 2) with (2 ^ 15). lia.
Qed.
Lemma WriteVaruint32_rejects : forall v, MaxVaruint32 < v -> rejects (WriteVaruint32 v) ErrOutOfBounds.
Proof.
  intros v Hv. unfold MaxVaruint32 in Hv. apply writeVarUint_rejects; [lia|apply limits_ok|].
  change (2 ^ ucap 4 4) with (2 ^ 29). lia.
Qed.
Lemma WriteVaruint64_rejects : forall v, MaxVaruint64 < v -> rejects (WriteVaruint64 v) ErrOutOfBounds.
Proof.
  intros v Hv. unfold MaxVaruint64 in Hv. apply writeVarUint_rejects; [lia|apply limits_ok|].
  change (2 ^ ucap 8 8) with (2 ^ 57). lia.
Qed.

(** varsize *)
Lemma WriteVarsize_rt : forall v, 0 <= v <= MaxVarsize ->
  exists k, ushortest v k 5 /\ UnsignedBitSize v 5 = Ok (8 * k) /\
    roundtrips (WriteVarsize v) ReadVarsize (uwire v k 5) v.
Proof.
  intros v Hv. unfold MaxVarsize in Hv.
  destruct (varuint_roundtrip (to_u 64) v 5) as (k & Hk & Hs & He & Hd).
  - apply limits_ok.
  - change (2 ^ ucap 5 5) with (32 * 2 ^ 31). lia.
  - intros x Hx. apply (conv_u _ v); [lia|]. change (2 ^ 64) with (2 ^ 33 * 2 ^ 31). lia.
  - exists k. split; [exact Hk|]. split; [exact Hs|]. split.
    + unfold WriteVarsize. unfold MaxVarsize. replace (2 ^ 31 - 1 <? v) with false by lia. exact He.
    + unfold ReadVarsize. eapply decodes_map; [exact Hd|]. unfold MaxVarsize.
      replace (2 ^ 31 - 1 <? v) with false by lia. reflexivity.
Qed.

Lemma WriteVarsize_rejects : forall v, MaxVarsize < v -> rejects (WriteVarsize v) ErrOutOfBounds.
Proof.
  intros v Hv w. unfold WriteVarsize. replace (MaxVarsize <? v) with true by lia. reflexivity.
Qed.

(** A five byte encoding of a larger number is refused by the reader. *)
Lemma ReadVarsize_refuses : forall v k, MaxVarsize < v < 2 ^ 36 -> ushortest v k 5 ->
  forall pos rest, exists r, ReadVarsize (mkR pos (uwire v k 5 ++ rest)) = (r, Err ErrOutOfBounds).
Proof.
  intros v k Hv Hk pos rest. unfold MaxVarsize in Hv.
  assert (D : decodes (read_varuint (to_u 64) (Z.to_nat (5 - 2))) (uwire v k 5) v).
  { destruct Hk as (Hk & Hlt & _). apply read_varuint_ok; [apply limits_ok|lia|lia|].
    intros x Hx. apply (conv_u _ v); [lia|]. change (2 ^ 64) with (2 ^ 28 * 2 ^ 36). lia. }
  unfold ReadVarsize, rbind. change (Z.to_nat (5 - 2)) with 3%nat in D. rewrite D.
  unfold MaxVarsize. replace (2 ^ 31 - 1 <? v) with true by lia. unfold rerr. eauto.
Qed.

(** ** Signed varints *)

Lemma WriteVarint16_rt : forall v, - MaxVarint16 <= v <= MaxVarint16 ->
  exists k, sshortest v k 2 /\ SignedBitSize v 2 = Ok (8 * k) /\
    roundtrips (WriteVarint16 v) ReadVarint16 (swire v k 2) v.
Proof.
  intros v Hv. unfold MaxVarint16 in Hv. apply (varint_roundtrip (to_s 16) v 2).
  - apply limits_ok.
  - unfold in_s. evalpow. lia.
  - unfold MinInt64. evalpow. lia.
  - change (2 ^ scap 2 2) with (2 ^ 14). lia.
  - intros x Hx. apply (conv_s _ (Z.abs v)); [lia|lia|]. change (2 ^ (16 - 1)) with (2 * 2 ^ 14). lia.
Qed.

Lemma WriteVarint32_rt : forall v, - MaxVarint32 <= v <= MaxVarint32 ->
  exists k, sshortest v k 4 /\ SignedBitSize v 4 = Ok (8 * k) /\
    roundtrips (WriteVarint32 v) ReadVarint32 (swire v k 4) v.
Proof.
  intros v Hv. unfold MaxVarint32 in Hv. apply (varint_roundtrip (to_s 32) v 4).
  - apply limits_ok.
  - unfold in_s. evalpow. lia.
  - unfold MinInt64. evalpow. lia.
  - change (2 ^ scap 4 4) with (2 ^ 28). lia.
  - intros x Hx. apply (conv_s _ (Z.abs v)); [lia|lia|]. change (2 ^ (32 - 1)) with (8 * 2 ^ 28). lia.
Qed.

Lemma WriteVarint64_rt : forall v, - MaxVarint64 <= v <= MaxVarint64 ->
  exists k, sshortest v k 8 /\ SignedBitSize v 8 = Ok (8 * k) /\
    roundtrips (WriteVarint64 v) ReadVarint64 (swire v k 8) v.
Proof.
  intros v Hv. unfold MaxVarint64 in Hv. apply (varint_roundtrip (to_s 64) v 8).
  - apply limits_ok.
  - unfold in_s. evalpow. lia.
  - unfold MinInt64. evalpow. lia.
  - change (2 ^ scap 8 8) with (2 ^ 56). lia.
  - intros x Hx. apply (conv_s _ (Z.abs v)); [lia|lia|]. change (2 ^ (64 - 1)) with (128 * 2 ^ 56). lia.
Qed.

(** varint covers every int64; the minimum has the special encoding 0x80. *)
Lemma WriteVarint_rt : forall v, in_s 64 v -> v <> MinInt64 ->
  exists k, sshortest v k 9 /\ SignedBitSize v 9 = Ok (8 * k) /\
    roundtrips (WriteVarint v) ReadVarint (swire v k 9) v.
Proof.
  intros v Hv Hne. unfold in_s in Hv. change (64 - 1) with 63 in Hv.
  assert (Ha : Z.abs v < 2 ^ scap 9 9).
  { change (2 ^ scap 9 9) with (2 ^ 63). unfold MinInt64 in Hne. lia. }
  destruct (writeVarInt_ok v 9) as (k & Hk & Hs & Hlt & Hge & He); auto; try apply limits_ok.
  exists k. unfold sshortest, roundtrips. repeat split; auto; try lia.
  - unfold WriteVarint. replace (v =? MinInt64) with false by lia. exact He.
  - unfold swire. replace v with (if v <? 0 then - Z.abs v else Z.abs v) at 3
      by (destruct (Z.ltb_spec v 0); lia).
    apply ReadVarint_ok; try lia. 
Qed.

Lemma WriteVarint_min : roundtrips (WriteVarint MinInt64) ReadVarint (bits_of 8 128) MinInt64.
Proof.
  split.
  - apply (encodes_put (bits_of 8 128)).
  - unfold ReadVarint. eapply decodes_map; [apply decodes_read_byte; lia|]. reflexivity.
Qed.

Lemma WriteVarint16_rejects : forall v, in_s 16 v -> v < - MaxVarint16 \/ MaxVarint16 < v ->
  rejects (WriteVarint16 v) ErrOutOfBounds.
Proof.
  intros v Hi Hv. unfold MaxVarint16, in_s in *.
  apply writeVarInt_rejects; [unfold in_s; evalpow; lia|unfold MinInt64; evalpow; lia|apply limits_ok|].
  change (2 ^ scap 2 2) with (2 ^ 14). lia.
Qed.

Lemma WriteVarint32_rejects : forall v, in_s 32 v -> v < - MaxVarint32 \/ MaxVarint32 < v ->
  rejects (WriteVarint32 v) ErrOutOfBounds.
Proof.
  intros v Hi Hv. unfold MaxVarint32, in_s in *.
  apply writeVarInt_rejects; [unfold in_s; evalpow; lia|unfold MinInt64; evalpow; lia|apply limits_ok|].
  change (2 ^ scap 4 4) with (2 ^ 28). lia.
Qed.

Lemma WriteVarint64_rejects : forall v, in_s 64 v -> v <> MinInt64 ->
  v < - MaxVarint64 \/ MaxVarint64 < v -> rejects (WriteVarint64 v) ErrOutOfBounds.
Proof.
  intros v Hi Hne Hv. unfold MaxVarint64 in *.
  apply writeVarInt_rejects; [exact Hi|exact Hne|apply limits_ok|].
  change (2 ^ scap 8 8) with (2 ^ 56). lia.
Qed.

(** ** Values readers can return: k bytes carry at most [ucap k m] bits *)

Lemma read_byte_inv : forall r r' b, read_byte r = (r', Ok b) ->
  0 <= b < 256 /\ rpos r' = (rpos r + 8)%nat.
Proof.
  intros r r' b H. unfold read_byte, read_bits in H.
  destruct (Nat.leb_spec 8 (length (rrem r))); [|discriminate]. injection H as <- <-.
  split; [|reflexivity].
  pose proof (val_of_range (firstn 8 (rrem r))) as R. rewrite firstn_length_le in R by lia.
  unfold u64. rewrite to_u_small; [exact R|].
  change (2 ^ Z.of_nat 8) with 256 in R. split; [apply R|].
  eapply Z.lt_trans; [apply R|]. reflexivity.
Qed.

Lemma lor_group : forall (v s b : Z), 0 <= s -> 0 <= b < 2 ^ s -> Z.lor (Z.shiftl v s) b = v * 2 ^ s + b.
Proof. intros. now apply lor_shiftl_add. Qed.

Lemma read_middle_range : forall conv k (a : Z) v h r r' v' h',
  0 <= a -> 0 <= v < 2 ^ a ->
  (forall x, 0 <= x < 2 ^ (a + 7 * Z.of_nat k) -> conv x = x) ->
  read_middle conv k v h r = (r', Ok (v', h')) ->
  exists j : nat, (j <= k)%nat /\ rpos r' = (rpos r + 8 * j)%nat /\
    0 <= v' < 2 ^ (a + 7 * Z.of_nat j) /\ (h' = true -> j = k).
Proof.
  intros conv k. induction k as [|k IH]; intros a v h r r' v' h' Ha Hv Hc H; cbn [read_middle] in H.
  - unfold rret in H. injection H as <- <- <-. exists 0%nat. rewrite Z.add_0_r.
    repeat split; auto; try lia.
  - destruct h.
    + unfold rbind in H. destruct (read_byte r) as [r1 [b|e| |]] eqn:Eb; try discriminate.
      apply read_byte_inv in Eb. destruct Eb as [Hb Hp].
      rewrite land127 in H. assert (Hm : 0 <= b mod 128 < 128) by (apply Z.mod_pos_bound; lia).
      assert (Hpow : 2 ^ (a + 7) = 2 ^ a * 128) by (rewrite Z.pow_add_r by lia; reflexivity).
      assert (Hle : 2 ^ (a + 7) <= 2 ^ (a + 7 * Z.of_nat (S k))) by (apply pow2_le; lia).
      rewrite Hc in H.
      2:{ rewrite Z.shiftl_mul_pow2 by lia. change (2 ^ 7) with 128. lia. }
      rewrite lor_group in H by (change (2 ^ 7) with 128; lia). change (2 ^ 7) with 128 in H.
      apply (IH (a + 7)) in H; [|lia|lia|].
      2:{ intros x Hx. apply Hc. replace (a + 7 * Z.of_nat (S k)) with (a + 7 + 7 * Z.of_nat k) by lia. lia. }
      destruct H as (j & Hj & Hp' & Hr & Hh). exists (S j). repeat split; try lia.
      replace (a + 7 * Z.of_nat (S j)) with (a + 7 + 7 * Z.of_nat j) by lia. lia.
    + unfold rret in H. injection H as <- <- <-. exists 0%nat.
      change (7 * Z.of_nat 0) with 0. rewrite Z.add_0_r.
      repeat split; auto; try lia; discriminate.
Qed.

Lemma read_last_range : forall conv (a : Z) v h r r' v', 0 <= a -> 0 <= v < 2 ^ a ->
  (forall x, 0 <= x < 2 ^ (a + 8) -> conv x = x) ->
  read_last conv v h r = (r', Ok v') ->
  rpos r' = (rpos r + (if h then 8 else 0))%nat /\ 0 <= v' < 2 ^ (a + (if h then 8 else 0)).
Proof.
  intros conv a v h r r' v' Ha Hv Hc H. unfold read_last in H. destruct h.
  - unfold rbind in H. destruct (read_byte r) as [r1 [b|e| |]] eqn:Eb; try discriminate.
    apply read_byte_inv in Eb. destruct Eb as [Hb Hp].
    assert (Hpow : 2 ^ (a + 8) = 2 ^ a * 256) by (rewrite Z.pow_add_r by lia; reflexivity).
    rewrite Hpow in *.
    rewrite (Hc (Z.shiftl v 8)) in H by (rewrite Z.shiftl_mul_pow2 by lia; change (2 ^ 8) with 256; lia).
    rewrite lor_group in H by (change (2 ^ 8) with 256; lia). change (2 ^ 8) with 256 in H.
    apply ok_inj in H. destruct H as [<- <-]. lia.
  - unfold rret in H. injection H as <- <-. rewrite Z.add_0_r. lia.
Qed.

(** If an unsigned reader consumes [k] bytes, the value is below [2^(ucap k m)]. *)
Lemma read_varuint_range : forall conv m r r' v, 2 <= m ->
  (forall x, 0 <= x < 2 ^ (7 * m + 1) -> conv x = x) ->
  read_varuint conv (Z.to_nat (m - 2)) r = (r', Ok v) ->
  exists k, 1 <= k <= m /\ Z.of_nat (rpos r') = Z.of_nat (rpos r) + 8 * k /\ 0 <= v < 2 ^ ucap k m.
Proof.
  intros conv m r r' v Hm Hc H. unfold read_varuint, rbind in H.
  destruct (read_byte r) as [r1 [b|e| |]] eqn:Eb; try discriminate.
  apply read_byte_inv in Eb. destruct Eb as [Hb Hp1].
  destruct (read_middle conv _ _ _ r1) as [r2 [[v' h']|e| |]] eqn:Em; try discriminate.
  rewrite land127 in Em.
  apply (read_middle_range _ _ 7) in Em; [|lia|change (2 ^ 7) with 128; apply Z.mod_pos_bound; lia|].
  2:{ intros x Hx. apply Hc.
      assert (2 ^ (7 + 7 * Z.of_nat (Z.to_nat (m - 2))) <= 2 ^ (7 * m + 1)) by (apply pow2_le; lia). lia. }
  destruct Em as (j & Hj & Hp2 & Hv' & Hh).
  apply (read_last_range _ (7 + 7 * Z.of_nat j)) in H; [|lia|exact Hv'|].
  2:{ intros x Hx. apply Hc.
      assert (2 ^ (7 + 7 * Z.of_nat j + 8) <= 2 ^ (7 * m + 1)) by (apply pow2_le; lia). lia. }
  destruct H as [Hp3 Hv]. exists (Z.of_nat j + 1 + (if h' then 1 else 0)).
  cbn [fst snd] in *. split; [destruct h'; lia|]. split; [destruct h'; lia|].
  split; [lia|]. eapply Z.lt_le_trans; [apply Hv|]. apply pow2_le. unfold ucap, maxd.
  destruct h'; [specialize (Hh eq_refl)|]; destruct (Z.eqb_spec (Z.of_nat j + 1 + 1) m);
  destruct (Z.eqb_spec (Z.of_nat j + 1 + 0) m); lia.
Qed.

Lemma read_varint_range : forall conv m b r r' v, 2 <= m -> 0 <= b < 256 ->
  (forall x, - 2 ^ (7 * m) < x < 2 ^ (7 * m) -> conv x = x) ->
  read_varint_from conv (Z.to_nat (m - 2)) b r = (r', Ok v) ->
  exists k, 1 <= k <= m /\ Z.of_nat (rpos r') = Z.of_nat (rpos r) + 8 * (k - 1) /\ Z.abs v < 2 ^ scap k m.
Proof.
  intros conv m b r r' v Hm Hb Hc H. unfold read_varint_from, rbind in H.
  destruct (read_middle conv _ _ _ r) as [r2 [[v' h']|e| |]] eqn:Em; try discriminate.
  rewrite land63 in Em.
  apply (read_middle_range _ _ 6) in Em; [|lia|change (2 ^ 6) with 64; apply Z.mod_pos_bound; lia|].
  2:{ intros x Hx. apply Hc.
      assert (2 ^ (6 + 7 * Z.of_nat (Z.to_nat (m - 2))) <= 2 ^ (7 * m)) by (apply pow2_le; lia). lia. }
  destruct Em as (j & Hj & Hp2 & Hv' & Hh).
  destruct (read_last conv _ _ r2) as [r3 [v3|e| |]] eqn:El; try discriminate.
  apply (read_last_range _ (6 + 7 * Z.of_nat j)) in El; [|lia|exact Hv'|].
  2:{ intros x Hx. apply Hc.
      assert (2 ^ (6 + 7 * Z.of_nat j + 8) <= 2 ^ (7 * m)) by (apply pow2_le; lia). lia. }
  destruct El as [Hp3 Hv]. cbn [fst snd] in *. unfold rret in H. injection H as <- <-.
  exists (Z.of_nat j + 1 + (if h' then 1 else 0)).
  split; [destruct h'; lia|]. split; [destruct h'; lia|].
  assert (Hfin : v3 < 2 ^ scap (Z.of_nat j + 1 + (if h' then 1 else 0)) m).
  { eapply Z.lt_le_trans; [apply Hv|]. apply pow2_le. unfold scap, maxd.
    destruct h'; [specialize (Hh eq_refl)|]; destruct (Z.eqb_spec (Z.of_nat j + 1 + 1) m);
    destruct (Z.eqb_spec (Z.of_nat j + 1 + 0) m); lia. }
  assert (2 ^ (6 + 7 * Z.of_nat j + (if h' then 8 else 0)) <= 2 ^ (7 * m))
    by (apply pow2_le; destruct h'; lia).
  destruct (negb (Z.land b 128 =? 0)).
  - rewrite Hc by lia. rewrite Z.abs_opp, Z.abs_eq; lia.
  - rewrite Z.abs_eq; lia.
Qed.

(** ** Strings, bytes, externs, floats *)

Lemma WriteString_rt : forall s, Forall is_byte s -> Z.of_nat (length s) <= MaxVarsize ->
  exists bs, roundtrips (WriteString s) ReadString bs s /\ BitSizeOfString s = Ok (Z.of_nat (length bs)).
Proof.
  intros s Hs Hlen. destruct (WriteVarsize_rt (Z.of_nat (length s))) as (k & Hk & Hsz & He & Hd); [lia|].
  exists (uwire (Z.of_nat (length s)) k 5 ++ bytes_bits s). split; [split|].
  - apply encodes_bind; [exact He|apply encodes_put].
  - eapply decodes_bind; [exact Hd|]. now apply decodes_read_full.
  - unfold BitSizeOfString. rewrite Hsz. f_equal. rewrite app_length, bytes_bits_length.
    unfold uwire. rewrite bytes_bits_length, vu_tail_length. destruct Hk as (Hk & _). lia.
Qed.

Lemma WriteString_rejects : forall s, MaxVarsize < Z.of_nat (length s) ->
  rejects (WriteString s) ErrOutOfBounds.
Proof. intros s Hs w. unfold WriteString, wbind. now rewrite WriteVarsize_rejects. Qed.

Lemma WriteBytes_encodes : forall n buf, 0 <= n <= MaxVarsize -> exists k,
  encodes (WriteBytes n buf) (uwire n k 5 ++ bytes_bits buf) /\ decodes ReadVarsize (uwire n k 5) n.
Proof.
  intros n buf Hn. destruct (WriteVarsize_rt n Hn) as (k & Hk & Hsz & He & Hd).
  exists k. split; [|exact Hd]. apply encodes_bind; [exact He|apply encodes_put].
Qed.

Lemma WriteBytes_rt : forall buf, Forall is_byte buf -> Z.of_nat (length buf) <= MaxVarsize ->
  exists bs, roundtrips (WriteBytes (Z.of_nat (length buf)) buf) ReadBytes bs
               (Z.of_nat (length buf), buf).
Proof.
  intros buf Hb Hlen. destruct (WriteVarsize_rt (Z.of_nat (length buf))) as (k & _ & _ & He & Hd); [lia|].
  exists (uwire (Z.of_nat (length buf)) k 5 ++ bytes_bits buf). split.
  - apply encodes_bind; [exact He|apply encodes_put].
  - eapply decodes_bind; [exact Hd|]. eapply decodes_map; [now apply decodes_read_full|]. reflexivity.
Qed.

Lemma take_bytes_length : forall k l, length (take_bytes k l) = k.
Proof. induction k as [|k IH]; intros l; [reflexivity|]. cbn [take_bytes length]. now rewrite IH. Qed.

(** Whatever was written, ReadBytes only returns buffers of the declared size. *)
Lemma ReadBytes_size : forall r r' n buf, ReadBytes r = (r', Ok (n, buf)) -> Z.of_nat (length buf) = n.
Proof.
  intros r r' n buf H. unfold ReadBytes, rbind in H.
  destruct (ReadVarsize r) as [r1 [x|e| |]] eqn:E; try discriminate.
  apply ReadVarsize_range in E. unfold read_full in H.
  destruct (8 * x <=? Z.of_nat (length (rrem r1))); [|discriminate].
  unfold rret in H. injection H as _ <- <-. rewrite take_bytes_length. lia.
Qed.

(** Externs. *)
Lemma shift_div : forall x n, 0 <= n -> Z.shiftr x n = x / 2 ^ n.
Proof. intros. now apply Z.shiftr_div_pow2. Qed.

Lemma WriteExtern_rt : forall n buf, 0 <= n <= MaxVarsize -> Forall is_byte buf ->
  Z.of_nat (length buf) = (n + 7) / 8 ->
  (n mod 8 <> 0 -> (last buf 0) mod 2 ^ (8 - n mod 8) = 0) ->
  exists bs, roundtrips (WriteExtern n buf) ReadExtern bs (n, buf).
Proof.
  intros n buf Hn Hb Hlen Hpad.
  destruct (WriteVarsize_rt n Hn) as (k & _ & _ & He & Hd).
  pose proof (Z.div_mod n 8 ltac:(lia)) as DM. pose proof (Z.mod_pos_bound n 8 ltac:(lia)) as MB.
  destruct (Z.eq_dec (n mod 8) 0) as [E0|E0].
  - assert (L : Z.of_nat (length buf) = n / 8).
    { rewrite Hlen. rewrite DM at 1. rewrite E0, Z.add_0_r, Z.mul_comm, Z.add_comm, Z.div_add by lia.
      reflexivity. }
    exists (uwire n k 5 ++ bytes_bits buf). split.
    + apply encodes_bind; [exact He|]. cbv beta zeta. rewrite L, Z.ltb_irrefl, E0.
      rewrite <- (app_nil_r (bytes_bits buf)). cbv iota beta.
      change (0 =? 0) with true. cbv iota.
      apply encodes_bind; [|apply encodes_ret].
      rewrite <- L, Nat2Z.id, firstn_all. apply encodes_put.
    + eapply decodes_bind; [exact Hd|]. eapply decodes_map; [apply decodes_read_full; [exact Hb|lia]|].
      cbv beta. rewrite E0. reflexivity.
  - assert (L : Z.of_nat (length buf) = n / 8 + 1).
    { rewrite Hlen. rewrite DM at 1. rewrite Z.mul_comm, <- Z.add_assoc, Z.add_comm, Z.div_add by lia.
      replace (n mod 8 + 7) with ((n mod 8 - 1) + 1 * 8) by ring. rewrite Z.div_add by lia.
      rewrite Z.div_small by lia. lia. }
    destruct (exists_last (l := buf)) as (full & lb & ->); [intros ->; cbn in L; pose proof (Z.div_pos n 8); lia|].
    rewrite app_length in L. cbn [length] in L. rewrite last_last in Hpad. specialize (Hpad E0).
    apply Forall_app in Hb. destruct Hb as [Hf Hlb]. inversion Hlb as [|? ? Hlb' _]; subst. clear Hlb.
    set (q := n mod 8) in *. unfold is_byte in Hlb'.
    assert (P : 2 ^ (8 - q) * 2 ^ q = 256) by (rewrite <- Z.pow_add_r by lia; replace (8 - q + q) with 8 by lia; reflexivity).
    pose proof (pow2_pos (8 - q) ltac:(lia)) as P1. pose proof (pow2_pos q ltac:(lia)) as P2.
    assert (Hq : 0 <= lb / 2 ^ (8 - q) < 2 ^ q).
    { split; [apply Z.div_pos; lia|apply Z.div_lt_upper_bound; lia]. }
    exists (uwire n k 5 ++ bytes_bits full ++ bits_of (Z.to_nat q) (lb / 2 ^ (8 - q))). split.
    + apply encodes_bind; [exact He|]. cbv beta zeta. rewrite app_length. cbn [length].
      replace (Z.of_nat (length full + 1) <? n / 8) with false by lia.
      apply encodes_bind.
      * replace (Z.to_nat (n / 8)) with (length full) by lia. rewrite firstn_app_exact. apply encodes_put.
      * fold q. replace (q =? 0) with false by lia. rewrite rev_app_distr. cbn [rev app].
        rewrite shift_div by lia. apply encodes_put.
    + eapply decodes_bind; [exact Hd|]. eapply decodes_bind; [apply decodes_read_full; [exact Hf|lia]|].
      fold q. replace (q =? 0) with false by lia.
      eapply decodes_map.
      * apply decodes_read_bits_of; [lia|]. rewrite Z2Nat.id by lia. exact Hq.
      * rewrite Z.shiftl_mul_pow2 by lia.
        replace (lb / 2 ^ (8 - q) * 2 ^ (8 - q)) with lb.
        2:{ rewrite (Z.div_mod lb (2 ^ (8 - q))) at 1 by lia. rewrite Hpad. ring. }
        unfold u64. rewrite (to_u_small 64) by (assert (256 < 2 ^ 64) by reflexivity; lia).
        rewrite to_u_small by (change (2 ^ 8) with 256; lia). reflexivity.
Qed.

(** Too short a buffer. *)
Lemma WriteExtern_short : forall n buf w, 0 <= n <= MaxVarsize -> Z.of_nat (length buf) < n / 8 ->
  wfaults w = [] -> snd (WriteExtern n buf w) = Panic.
Proof.
  intros n buf w Hn Hlen Hw. destruct (WriteVarsize_rt n Hn) as (k & _ & _ & He & _).
  unfold WriteExtern, wbind at 1. rewrite (He w Hw).
  replace (Z.of_nat (length buf) <? n / 8) with true by lia. reflexivity.
Qed.

(** Floats. *)
Lemma be_bytes_bits : forall k v, bytes_bits (be_bytes k v) = bits_of (8 * k) v.
Proof.
  induction k as [|k IH]; intros v; [reflexivity|].
  cbn [be_bytes]. rewrite bytes_bits_cons, IH.
  replace (8 * S k)%nat with (8 + 8 * k)%nat by lia. rewrite bits_of_app. f_equal.
  change 256 with (2 ^ Z.of_nat 8). rewrite bits_of_mod by lia.
  rewrite Z.shiftr_div_pow2 by lia. f_equal. f_equal. f_equal. lia.
Qed.

Lemma be_bytes_is_byte : forall k v, Forall is_byte (be_bytes k v).
Proof.
  induction k as [|k IH]; intros v; constructor; auto. unfold is_byte. apply Z.mod_pos_bound. lia.
Qed.

Lemma be_bytes_length : forall k v, length (be_bytes k v) = k.
Proof. induction k as [|k IH]; intros v; [reflexivity|]. cbn. now rewrite IH. Qed.

Lemma be_value_acc : forall l a, fold_left (fun a b => 256 * a + b) l a
  = a * 256 ^ Z.of_nat (length l) + be_value l.
Proof.
  unfold be_value. induction l as [|b l IH]; intros a.
  - cbn. ring.
  - cbn [fold_left length]. rewrite IH, (IH (256 * 0 + b)).
    rewrite Nat2Z.inj_succ, Z.pow_succ_r by lia. ring.
Qed.

Lemma be_value_bytes : forall k v, be_value (be_bytes k v) = v mod 256 ^ Z.of_nat k.
Proof.
  induction k as [|k IH]; intros v.
  - cbn. now rewrite Z.mod_1_r.
  - unfold be_value. cbn [be_bytes fold_left]. rewrite be_value_acc, be_bytes_length, IH.
    rewrite Z.shiftr_div_pow2 by lia. replace (2 ^ (8 * Z.of_nat k)) with (256 ^ Z.of_nat k)
      by (rewrite Z.pow_mul_r by lia; reflexivity).
    rewrite Nat2Z.inj_succ, Z.pow_succ_r by lia.
    assert (0 < 256 ^ Z.of_nat k) by (apply Z.pow_pos_nonneg; lia).
    rewrite (Z.mul_comm 256 (256 ^ _)), Z.rem_mul_r by lia. ring.
Qed.

Lemma WriteFloat32_rt : forall p, 0 <= p < 2 ^ 32 ->
  roundtrips (WriteFloat32 p) ReadFloat32 (bits_of 32 p) p.
Proof.
  intros p Hp. change 32%nat with (8 * 4)%nat. rewrite <- be_bytes_bits. split; [apply encodes_put|].
  eapply decodes_map.
  - apply decodes_read_full; [apply be_bytes_is_byte|]. now rewrite be_bytes_length.
  - rewrite be_value_bytes. now rewrite Z.mod_small by exact Hp.
Qed.

Lemma WriteFloat64_rt : forall p, 0 <= p < 2 ^ 64 ->
  roundtrips (WriteFloat64 p) ReadFloat64 (bits_of 64 p) p.
Proof.
  intros p Hp. change 64%nat with (8 * 8)%nat. rewrite <- be_bytes_bits. split; [apply encodes_put|].
  eapply decodes_map.
  - apply decodes_read_full; [apply be_bytes_is_byte|]. now rewrite be_bytes_length.
  - rewrite be_value_bytes. now rewrite Z.mod_small by exact Hp.
Qed.
