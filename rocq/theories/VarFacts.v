(** Facts about the variable-length integer codecs. *)

Require Import ZArith List Bool Lia ZifyBool ZifyNat.
From Verif Require Import Bits BitsFacts Stream StreamFacts Scalars FixedFacts.
Import ListNotations.
Open Scope Z_scope.
Open Scope io_scope.

(** ** Arithmetic of 7-bit groups *)

Lemma land_ones_lit : forall x n, 0 <= n -> Z.land x (2 ^ n - 1) = x mod 2 ^ n.
Proof. intros x n Hn. rewrite <- Z.land_ones by lia. now rewrite Z.ones_equiv. Qed.

Lemma land127 : forall x, Z.land x 127 = x mod 128.
Proof. intros. apply (land_ones_lit x 7); lia. Qed.
Lemma land63 : forall x, Z.land x 63 = x mod 64.
Proof. intros. apply (land_ones_lit x 6); lia. Qed.
Lemma land255 : forall x, Z.land x 255 = x mod 256.
Proof. intros. apply (land_ones_lit x 8); lia. Qed.

Lemma lor_shiftl_add : forall x y n, 0 <= n -> 0 <= y < 2 ^ n ->
  Z.lor (Z.shiftl x n) y = x * 2 ^ n + y.
Proof.
  intros x y n Hn Hy. rewrite Z.shiftl_mul_pow2 by lia.
  rewrite <- Z.lxor_lor.
  - symmetry. apply Z.add_nocarry_lxor. apply Z.bits_inj'. intros i Hi.
    rewrite Z.land_spec, Z.bits_0.
    destruct (Z_lt_le_dec i n).
    + rewrite Z.mul_pow2_bits_low by lia. reflexivity.
    + rewrite <- (Z.mod_small y (2 ^ n)) by lia.
      rewrite Z.mod_pow2_bits_high by lia. apply andb_false_r.
  - apply Z.bits_inj'. intros i Hi. rewrite Z.land_spec, Z.bits_0.
    destruct (Z_lt_le_dec i n).
    + rewrite Z.mul_pow2_bits_low by lia. reflexivity.
    + rewrite <- (Z.mod_small y (2 ^ n)) by lia.
      rewrite Z.mod_pow2_bits_high by lia. apply andb_false_r.
Qed.

Lemma lor_128 : forall y, 0 <= y < 128 -> Z.lor 128 y = 128 + y.
Proof. intros y Hy. change 128 with (Z.shiftl 1 7) at 1. rewrite lor_shiftl_add by (change (2^7) with 128; lia). reflexivity. Qed.

Lemma lor_64 : forall y, 0 <= y < 64 -> Z.lor 64 y = 64 + y.
Proof. intros y Hy. change 64 with (Z.shiftl 1 6) at 1. rewrite lor_shiftl_add by (change (2^6) with 64; lia). reflexivity. Qed.

Lemma land_128 : forall b, 0 <= b < 256 -> negb (Z.land b 128 =? 0) = (128 <=? b).
Proof.
  intros b Hb. change 128 with (2 ^ 7) at 1. rewrite land_pow2_testbit by lia.
  rewrite testbit_top by (try lia; exact Hb). reflexivity.
Qed.

Lemma land_64 : forall b, 0 <= b < 256 -> negb (Z.land b 64 =? 0) = (64 <=? b mod 128).
Proof.
  intros b Hb. change 64 with (2 ^ 6) at 1. rewrite land_pow2_testbit by lia.
  rewrite <- (Z.mod_pow2_bits_low b 7 6) by lia.
  rewrite testbit_top; [reflexivity|lia|]. apply Z.mod_pos_bound. lia.
Qed.

(** ** The bytes after the first one *)

Lemma vu_tail_bytes : forall d v j, d = 0 \/ d = 1 -> Forall is_byte (vu_tail d v j).
Proof.
  intros d v j Hd. induction j as [|j IH]; [constructor|].
  destruct j as [|j].
  - cbn. constructor; [|constructor]. unfold is_byte.
    destruct Hd as [->| ->]; [pose proof (Z.mod_pos_bound v (2 ^ (7 + 0)))|pose proof (Z.mod_pos_bound v (2 ^ (7 + 1)))];
    cbn in *; lia.
  - cbn [vu_tail]. constructor; [|exact IH]. unfold is_byte.
    pose proof (Z.mod_pos_bound (v / 2 ^ (7 * Z.of_nat (S j) + d)) 128). lia.
Qed.

Lemma group_step : forall v s t, 0 <= s -> 0 <= t -> v / 2 ^ (s + t) * 2 ^ t + (v / 2 ^ s) mod 2 ^ t = v / 2 ^ s.
Proof.
  intros v s t Hs Ht. rewrite Z.pow_add_r by lia.
  rewrite <- Z.div_div by (pose proof (pow2_pos s); pose proof (pow2_pos t); lia).
  rewrite (Z.div_mod (v / 2 ^ s) (2 ^ t)) at 3 by (pose proof (pow2_pos t); lia). ring.
Qed.

(** Reading the tail, when the flag byte before it announced more. *)
Lemma read_tail : forall conv d v (j k : nat),
  (d = 0 /\ (1 <= j <= k)%nat) \/ (d = 1 /\ j = S k) ->
  0 <= v -> (forall x, 0 <= x <= v -> conv x = x) ->
  decodes (vh <-r read_middle conv k (v / 2 ^ (7 * Z.of_nat j + d)) true;
           read_last conv (fst vh) (snd vh))
          (bytes_bits (vu_tail d v j)) v.
Proof.
  intros conv d v j. induction j as [|j IH]; intros k Hd Hv Hc; [lia|].
  assert (Hvdiv : forall s, 0 <= s -> 0 <= v / 2 ^ s <= v).
  { intros s Hs. split; [apply Z.div_pos; [lia|apply pow2_pos; lia]|].
    apply Z.div_le_upper_bound; [apply pow2_pos; lia|].
    pose proof (pow2_pos s Hs). nia. }
  destruct j as [|j].
  - (* last byte *)
    destruct Hd as [[-> Hk]|[-> Hk]].
    + destruct k as [|k]; [lia|].
      cbn [vu_tail bytes_bits flat_map]. rewrite app_nil_r.
      rewrite Z.add_0_r. change (7 * Z.of_nat 1) with 7. change (7 + 0) with 7.
      cbn [read_middle].
      assert (Hr : 0 <= v mod 2 ^ 7 < 128) by (apply Z.mod_pos_bound; lia).
      rewrite <- (app_nil_r (bits_of 8 _)).
      eapply decodes_bind; [|apply decodes_ret || idtac].
      * rewrite <- (app_nil_r (bits_of 8 _)).
        eapply decodes_bind; [apply decodes_read_byte; lia|].
        rewrite land_128 by lia. replace (128 <=? v mod 2 ^ 7) with false by lia.
        destruct k; cbn [read_middle]; apply decodes_ret.
      * cbn [fst snd read_last]. change (2 ^ 7) with 128 in *.
        rewrite land127, (Z.mod_small (v mod 128)) by lia.
        rewrite Hc.
        2:{ rewrite Z.shiftl_mul_pow2 by lia. change (2 ^ 7) with 128.
            pose proof (Hvdiv 7 ltac:(lia)) as H7. change (2 ^ 7) with 128 in H7.
            pose proof (Z.mul_div_le v 128). lia. }
        rewrite lor_shiftl_add by (change (2 ^ 7) with 128; lia).
        change (2 ^ 7) with 128.
        replace (v / 128 * 128 + v mod 128) with v by (rewrite (Z.div_mod v 128) at 1 by lia; ring).
        apply decodes_ret.
    + assert (k = 0)%nat as -> by lia.
      cbn [vu_tail bytes_bits flat_map]. rewrite app_nil_r.
      change (7 * Z.of_nat 1 + 1) with 8. change (7 + 1) with 8. change (2 ^ 8) with 256.
      cbn [read_middle]. rewrite <- (app_nil_l (bits_of 8 _)).
      eapply decodes_bind; [apply decodes_ret|]. cbn [fst snd read_last].
      assert (Hr : 0 <= v mod 256 < 256) by (apply Z.mod_pos_bound; lia).
      eapply decodes_map; [apply decodes_read_byte; exact Hr|].
      rewrite Hc.
      2:{ rewrite Z.shiftl_mul_pow2 by lia. change (2 ^ 8) with 256.
          pose proof (Hvdiv 8 ltac:(lia)) as H7. change (2 ^ 8) with 256 in H7.
          pose proof (Z.mul_div_le v 256). lia. }
      rewrite lor_shiftl_add by (change (2 ^ 8) with 256; lia).
      change (2 ^ 8) with 256. f_equal. rewrite (Z.div_mod v 256) at 3 by lia. ring.
  - (* middle byte *)
    destruct k as [|k]; [lia|].
    change (vu_tail d v (S (S j))) with
      ((128 + (v / 2 ^ (7 * Z.of_nat (S j) + d)) mod 128) :: vu_tail d v (S j)).
    set (s := 7 * Z.of_nat (S j) + d). assert (Hs : 0 <= s) by (unfold s; lia).
    replace (7 * Z.of_nat (S (S j)) + d) with (s + 7) by (unfold s; lia).
    assert (Hm : 0 <= (v / 2 ^ s) mod 128 < 128) by (apply Z.mod_pos_bound; lia).
    intros pos rest. unfold bytes_bits. cbn [flat_map]. rewrite <- app_assoc.
    cbn [read_middle]. unfold rbind at 1 2.
    rewrite (decodes_read_byte (128 + (v / 2 ^ s) mod 128)) by lia.
    rewrite land_128 by lia. replace (128 <=? 128 + (v / 2 ^ s) mod 128) with true by lia.
    rewrite land127.
    replace ((128 + (v / 2 ^ s) mod 128) mod 128) with ((v / 2 ^ s) mod 128).
    2:{ replace (128 + (v / 2 ^ s) mod 128) with ((v / 2 ^ s) mod 128 + 1 * 128) by ring.
        rewrite Z_mod_plus_full. now rewrite Z.mod_mod by lia. }
    assert (Hg : v / 2 ^ (s + 7) * 2 ^ 7 + (v / 2 ^ s) mod 2 ^ 7 = v / 2 ^ s)
      by (apply group_step; lia).
    change (2 ^ 7) with 128 in Hg.
    rewrite Hc.
    2:{ rewrite Z.shiftl_mul_pow2 by lia. change (2 ^ 7) with 128.
        pose proof (Hvdiv s Hs). pose proof (Hvdiv (s + 7) ltac:(lia)). clear IH Hd Hc Hvdiv. lia. }
    rewrite lor_shiftl_add by (change (2 ^ 7) with 128; lia).
    change (2 ^ 7) with 128. rewrite Hg.
    assert (Hd' : (d = 0 /\ (1 <= S j <= k)%nat) \/ (d = 1 /\ S j = S k)) by (clear - Hd; lia).
    specialize (IH k Hd' Hv Hc (pos + length (bits_of 8 (128 + (v / 2 ^ s) mod 128)))%nat rest).
    unfold rbind in IH. fold s in IH. unfold bytes_bits in IH. rewrite IH.
    rewrite app_length. f_equal. f_equal. lia.
Qed.

(** ** The write loop *)

Fixpoint zseq (i : Z) (k : nat) : list Z :=
  match k with O => [] | S k' => i :: zseq (i + 1) k' end.

Lemma write_loop_ok : forall byte k i,
  encodes (write_loop byte k i (Ok tt)) (bytes_bits (map byte (zseq i k))).
Proof.
  induction k as [|k IH]; intros i w Hw.
  - cbn. destruct w as [b f]; cbn in *; subst f. now rewrite app_nil_r.
  - cbn [write_loop zseq map]. unfold write_byte, put. rewrite Hw.
    rewrite IH by reflexivity. cbn [wbits].
    unfold bytes_bits. cbn [flat_map]. now rewrite app_assoc.
Qed.

Lemma maxd_cases : forall k m, maxd k m = 0 \/ maxd k m = 1.
Proof. intros. unfold maxd. destruct (k =? m); auto. Qed.

Lemma varuint_byte_tail : forall v k m (j : nat), 0 <= v -> Z.of_nat j <= k ->
  map (varuint_byte v k m) (zseq (k - Z.of_nat j) j) = vu_tail (maxd k m) v j.
Proof.
  intros v k m j Hv. induction j as [|j IH]; intros Hj; [reflexivity|].
  cbn [zseq map]. replace (k - Z.of_nat (S j) + 1) with (k - Z.of_nat j) by lia.
  rewrite IH by lia. unfold varuint_byte.
  replace (k - (k - Z.of_nat (S j) + 1)) with (Z.of_nat j) by lia.
  destruct j as [|j].
  - replace (k - Z.of_nat 1 <? k - 1) with false by lia.
    rewrite andb_false_r. cbn [vu_tail]. rewrite Z.lor_0_l. unfold maxd.
    change (Z.of_nat 0 * 7 + 0) with 0. rewrite Z.shiftr_0_r.
    destruct (k =? m); cbn -[Z.land]; f_equal; [apply land255|apply land127].
  - replace (k - Z.of_nat (S (S j)) <? k - 1) with true by lia.
    rewrite andb_true_r. cbn [vu_tail]. f_equal.
    change (Z.shiftr 255 (8 - 7)) with 127. rewrite land127.
    rewrite Z.shiftr_div_pow2 by (destruct (k =? m); lia).
    rewrite lor_128 by (apply Z.mod_pos_bound; lia).
    unfold maxd. replace (Z.of_nat (S j) * 7) with (7 * Z.of_nat (S j)) by lia. reflexivity.
Qed.

Lemma varint_byte_tail : forall neg v k m (j : nat), 0 <= v -> Z.of_nat j < k ->
  map (varint_byte neg v k m) (zseq (k - Z.of_nat j) j) = vu_tail (maxd k m) v j.
Proof.
  intros neg v k m j Hv. induction j as [|j IH]; intros Hj; [reflexivity|].
  cbn [zseq map]. replace (k - Z.of_nat (S j) + 1) with (k - Z.of_nat j) by lia.
  rewrite IH by lia. unfold varint_byte.
  replace (k - (k - Z.of_nat (S j) + 1)) with (Z.of_nat j) by lia.
  replace (k - Z.of_nat (S j) =? 0) with false by lia. cbn [andb].
  destruct j as [|j].
  - replace (k - Z.of_nat 1 <? k - 1) with false by lia.
    rewrite andb_false_r. cbn [vu_tail]. rewrite Z.lor_0_l. unfold maxd.
    change (Z.of_nat 0 * 7 + 0) with 0. rewrite Z.shiftr_0_r.
    destruct (k =? m); cbn -[Z.land]; f_equal; [apply land255|apply land127].
  - replace (k - Z.of_nat (S (S j)) <? k - 1) with true by lia.
    rewrite andb_true_r. cbn [vu_tail]. f_equal.
    change (Z.shiftr 255 (8 - (8 - 1))) with 127. rewrite land127.
    change (Z.lor 0 (Z.shiftl 1 (8 - 1))) with 128.
    rewrite Z.shiftr_div_pow2 by (destruct (k =? m); lia).
    rewrite lor_128 by (apply Z.mod_pos_bound; lia).
    unfold maxd. replace (Z.of_nat (S j) * 7) with (7 * Z.of_nat (S j)) by lia. reflexivity.
Qed.

(** ** Sizes *)

Ltac eval_caps :=
  repeat match goal with
  | |- context [2 ^ ucap ?a ?b] =>
      let r := eval vm_compute in (2 ^ ucap a b) in change (2 ^ ucap a b) with r
  | |- context [2 ^ scap ?a ?b] =>
      let r := eval vm_compute in (2 ^ scap a b) in change (2 ^ scap a b) with r
  end.

Definition usize_spec (v m : Z) (r : outcome Z) : Prop :=
  match r with
  | Ok s => exists k, s = 8 * k /\ 1 <= k <= m /\ v < 2 ^ ucap k m /\
                      (k = 1 \/ 2 ^ ucap (k - 1) m <= v)
  | Err e => e = ErrOutOfBounds /\ 2 ^ ucap m m <= v
  | _ => False
  end.

Definition ssize_spec (v m : Z) (r : outcome Z) : Prop :=
  match r with
  | Ok s => exists k, s = 8 * k /\ 1 <= k <= m /\ v < 2 ^ scap k m /\
                      (k = 1 \/ 2 ^ scap (k - 1) m <= v)
  | Err e => e = ErrOutOfBounds /\ 2 ^ scap m m <= v
  | _ => False
  end.

Lemma UnsignedBitSize_spec : forall v m, 0 <= v -> limit m -> usize_spec v m (UnsignedBitSize v m).
Proof.
  intros v m Hv Hm. unfold UnsignedBitSize.
  destruct Hm as [-> | [-> | [-> | [-> | ->]]]];
  match goal with |- context [Z.to_nat ?a] =>
    let n := eval compute in (Z.to_nat a) in change (Z.to_nat a) with n end;
  repeat (cbn [unsignedBitSize_loop signedBitSize_loop];
          match goal with
          | |- context [if ?a <=? ?b then _ else _] =>
              let b' := eval vm_compute in b in change b with b'; destruct (Z.leb_spec a b')
          end);
  cbn [usize_spec ssize_spec];
  first [ split; [reflexivity | eval_caps; lia]
        | match goal with |- exists k, ?s = 8 * k /\ _ =>
            let k := eval vm_compute in (s / 8) in exists k end; eval_caps; lia ].
Qed.

Lemma signedBitSize_loop_spec : forall v m, limit m ->
  ssize_spec v m (signedBitSize_loop (Z.to_nat (m - 1)) v m 1 63).
Proof.
  intros v m Hm. 
  destruct Hm as [-> | [-> | [-> | [-> | ->]]]];
  match goal with |- context [Z.to_nat ?a] =>
    let n := eval compute in (Z.to_nat a) in change (Z.to_nat a) with n end;
  repeat (cbn [unsignedBitSize_loop signedBitSize_loop];
          match goal with
          | |- context [if ?a <=? ?b then _ else _] =>
              let b' := eval vm_compute in b in change b with b'; destruct (Z.leb_spec a b')
          end);
  cbn [usize_spec ssize_spec];
  first [ split; [reflexivity | eval_caps; lia]
        | match goal with |- exists k, ?s = 8 * k /\ _ =>
            let k := eval vm_compute in (s / 8) in exists k end; eval_caps; lia ].
Qed.

(** SignedBitSize looks at the absolute value, except at MinInt64. *)
Lemma SignedBitSize_abs : forall v m, in_s 64 v -> v <> MinInt64 ->
  SignedBitSize v m = signedBitSize_loop (Z.to_nat (m - 1)) (Z.abs v) m 1 63.
Proof.
  intros v m Hv Hne. unfold SignedBitSize, in_s, MinInt64 in *. cbn in Hv.
  destruct (Z.ltb_spec v 0).
  - unfold i64. rewrite to_s_small by (cbn; lia). now rewrite Z.abs_neq by lia.
  - now rewrite Z.abs_eq by lia.
Qed.

Lemma SignedBitSize_spec : forall v m, in_s 64 v -> v <> MinInt64 -> limit m ->
  ssize_spec (Z.abs v) m (SignedBitSize v m).
Proof. intros. rewrite SignedBitSize_abs by assumption. now apply signedBitSize_loop_spec. Qed.

Lemma SignedBitSize_min : forall m, 2 <= m -> SignedBitSize MinInt64 m = Ok 8.
Proof.
  intros m Hm. unfold SignedBitSize. change (MinInt64 <? 0) with true. cbv iota.
  change (i64 (- MinInt64)) with MinInt64.
  destruct (Z.to_nat (m - 1)); reflexivity.
Qed.

(** ** Encodings *)

Lemma usize_bits_ok : forall v m k, 0 <= v -> limit m -> UnsignedBitSize v m = Ok (8 * k) ->
  encodes (writeVarUint v m) (bytes_bits (vu_tail (maxd k m) v (Z.to_nat k))).
Proof.
  intros v m k Hv Hm Hs. pose proof (UnsignedBitSize_spec v m Hv Hm) as Sp.
  rewrite Hs in Sp. cbn [usize_spec] in Sp. destruct Sp as (k' & Ek & Hk & _).
  assert (k' = k) by lia. subst k'.
  unfold writeVarUint. rewrite Hs.
  replace (8 * k / 8) with k by (rewrite Z.mul_comm, Z.div_mul; lia).
  rewrite <- varuint_byte_tail by lia.
  rewrite Z2Nat.id by lia. rewrite Z.sub_diag. apply write_loop_ok.
Qed.

Lemma writeVarUint_rejects : forall v m, 0 <= v -> limit m -> 2 ^ ucap m m <= v ->
  rejects (writeVarUint v m) ErrOutOfBounds.
Proof.
  intros v m Hv Hm Hbig w. pose proof (UnsignedBitSize_spec v m Hv Hm) as Sp.
  unfold writeVarUint. destruct (UnsignedBitSize v m) as [s|e| |]; cbn [usize_spec] in Sp; try tauto.
  - destruct Sp as (k & _ & Hk & Hlt & _).
    assert (2 ^ ucap k m <= 2 ^ ucap m m).
    { apply pow2_le. unfold ucap, maxd. rewrite Z.eqb_refl.
      destruct (k =? m) eqn:E; lia. }
    lia.
  - destruct Sp as [-> _]. reflexivity.
Qed.

Lemma writeVarUint_ok : forall v m, 0 <= v < 2 ^ ucap m m -> limit m ->
  exists k, 1 <= k <= m /\ UnsignedBitSize v m = Ok (8 * k) /\ v < 2 ^ ucap k m /\
    (k = 1 \/ 2 ^ ucap (k - 1) m <= v) /\
    encodes (writeVarUint v m) (bytes_bits (vu_tail (maxd k m) v (Z.to_nat k))).
Proof.
  intros v m Hv Hm. pose proof (UnsignedBitSize_spec v m ltac:(lia) Hm) as Sp.
  destruct (UnsignedBitSize v m) as [s|e| |] eqn:Hs; cbn [usize_spec] in Sp; try tauto.
  - destruct Sp as (k & -> & Hk & Hlt & Hge). exists k. repeat split; auto; try lia.
    apply usize_bits_ok; auto; lia.
  - lia.
Qed.

(** Decoding the unsigned format. *)
Lemma read_varuint_ok : forall conv v k m, limit m -> 1 <= k <= m -> 0 <= v < 2 ^ ucap k m ->
  (forall x, 0 <= x <= v -> conv x = x) ->
  decodes (read_varuint conv (Z.to_nat (m - 2))) (bytes_bits (vu_tail (maxd k m) v (Z.to_nat k))) v.
Proof.
  intros conv v k m Hm Hk Hv Hc. unfold ucap in Hv.
  assert (Hm2 : 2 <= m) by (unfold limit in Hm; lia).
  destruct (Z.to_nat k) as [|j] eqn:Ej; [lia|].
  destruct j as [|j].
  - (* one byte *)
    assert (k = 1) as -> by lia. unfold maxd in *. replace (1 =? m) with false in * by lia.
    cbn [vu_tail bytes_bits flat_map]. rewrite app_nil_r.
    rewrite Z.mod_small by (cbn in *; lia). cbn in Hv.
    intros pos rest. unfold read_varuint, rbind.
    rewrite (decodes_read_byte v) by lia.
    rewrite land_128 by lia. replace (128 <=? v) with false by lia.
    rewrite land127, Z.mod_small by lia.
    destruct (Z.to_nat (m - 2)); reflexivity.
  - pose proof (maxd_cases k m) as Hd.
    change (vu_tail (maxd k m) v (S (S j))) with
      ((128 + (v / 2 ^ (7 * Z.of_nat (S j) + maxd k m)) mod 128) :: vu_tail (maxd k m) v (S j)).
    set (d := maxd k m) in *. set (s := 7 * Z.of_nat (S j) + d).
    assert (Hs : 0 <= s) by (unfold s; lia).
    assert (Hq : 0 <= v / 2 ^ s < 128).
    { split; [apply Z.div_pos; [lia|apply pow2_pos; lia]|].
      apply Z.div_lt_upper_bound; [apply pow2_pos; lia|].
      change 128 with (2 ^ 7). rewrite <- Z.pow_add_r by lia.
      replace (s + 7) with (7 * k + d) by (unfold s; lia). lia. }
    intros pos rest. unfold bytes_bits. cbn [flat_map]. rewrite <- app_assoc.
    unfold read_varuint, rbind at 1.
    rewrite (Z.mod_small (v / 2 ^ s)) by lia.
    rewrite (decodes_read_byte (128 + v / 2 ^ s)) by lia.
    rewrite land_128 by lia. replace (128 <=? 128 + v / 2 ^ s) with true by lia.
    rewrite land127. replace ((128 + v / 2 ^ s) mod 128) with (v / 2 ^ s).
    2:{ replace (128 + v / 2 ^ s) with (v / 2 ^ s + 1 * 128) by ring. rewrite Z_mod_plus_full.
        now rewrite Z.mod_small by lia. }
    pose proof (read_tail conv d v (S j) (Z.to_nat (m - 2))) as RT.
    fold s in RT. fold (bytes_bits (vu_tail d v (S j))). rewrite RT; try lia; auto.
    + rewrite app_length. f_equal. f_equal. lia.
    + destruct Hd as [Hd|Hd]; rewrite Hd.
      * left. split; [reflexivity|]. unfold d, maxd in Hd. destruct (Z.eqb_spec k m); lia.
      * right. split; [reflexivity|]. unfold d, maxd in Hd. destruct (Z.eqb_spec k m); lia.
Qed.

Lemma lor_128_64 : forall y, 0 <= y < 64 -> Z.lor (Z.lor 128 64) y = 192 + y.
Proof.
  intros y Hy. change (Z.lor 128 64) with (Z.shiftl 3 6). rewrite lor_shiftl_add by (change (2^6) with 64; lia). reflexivity.
Qed.

Lemma lor_128_64' : forall y, 0 <= y < 64 -> Z.lor 128 y = 128 + y.
Proof. intros. apply lor_128. lia. Qed.

Lemma varint_bytes : forall neg v k m, 0 <= v -> 1 <= k -> 2 <= m ->
  map (varint_byte neg v k m) (zseq 0 (Z.to_nat k)) = vs_bytes neg (maxd k m) v (Z.to_nat k).
Proof.
  intros neg v k m Hv Hk Hm.
  destruct (Z.to_nat k) as [|j] eqn:Ej; [lia|].
  cbn [zseq map vs_bytes]. change (0 + 1) with 1.
  f_equal.
  - unfold varint_byte, vs_first. change (0 =? 0) with true. cbn [andb].
    destruct j as [|j].
    + assert (k = 1) as -> by lia. change (0 <? 1 - 1) with false.
      replace (1 =? m) with false by lia. cbn [andb].
      change (0 =? 0)%nat with true. cbv iota.
      change ((1 - (0 + 1)) * 7 + 0) with 0. change (7 * Z.of_nat 0 + 0) with 0.
      rewrite Z.shiftr_0_r, Z.pow_0_r, Z.div_1_r.
      change (Z.shiftr 255 (8 - (7 - 1))) with 63. rewrite land63.
      pose proof (Z.mod_pos_bound v 64).
      destruct neg; [rewrite lor_128_64' by lia; lia|rewrite Z.lor_0_l; lia].
    + replace (0 <? k - 1) with true by lia.
      change (S j =? 0)%nat with false. cbv iota. rewrite andb_true_r.
      change (Z.shiftr 255 (8 - (7 - 1))) with 63. change (Z.shiftl 1 (7 - 1)) with 64.
      rewrite land63.
      replace ((k - (0 + 1)) * 7 + (if k =? m then 1 else 0))
        with (7 * Z.of_nat (S j) + maxd k m) by (unfold maxd; destruct (k =? m); lia).
      pose proof (maxd_cases k m).
      rewrite Z.shiftr_div_pow2 by lia.
      pose proof (Z.mod_pos_bound (v / 2 ^ (7 * Z.of_nat (S j) + maxd k m)) 64).
      destruct neg; [rewrite lor_128_64 by lia; lia|].
      rewrite Z.lor_0_l. rewrite lor_64 by lia. lia.
  - rewrite <- (varint_byte_tail neg) with (k := k) by lia.
    replace (k - Z.of_nat j) with 1 by lia. reflexivity.
Qed.

Lemma writeVarInt_bits : forall v m k, in_s 64 v -> v <> MinInt64 -> limit m ->
  SignedBitSize v m = Ok (8 * k) ->
  encodes (writeVarInt v m) (bytes_bits (vs_bytes (v <? 0) (maxd k m) (Z.abs v) (Z.to_nat k))).
Proof.
  intros v m k Hv Hne Hm Hs. pose proof (SignedBitSize_spec v m Hv Hne Hm) as Sp.
  rewrite Hs in Sp. cbn [ssize_spec] in Sp. destruct Sp as (k' & Ek & Hk & _).
  assert (k' = k) by lia. subst k'.
  unfold writeVarInt. rewrite Hs.
  replace (8 * k / 8) with k by (rewrite Z.mul_comm, Z.div_mul; lia).
  unfold in_s, MinInt64 in *. change (64 - 1) with 63 in Hv.
  assert (E : (if v <? 0 then u64 (i64 (- v)) else u64 v) = Z.abs v).
  { unfold i64, u64. destruct (Z.ltb_spec v 0).
    - rewrite to_s_small by (cbn; lia). rewrite to_u_small by (cbn; lia). lia.
    - rewrite to_u_small by (cbn in *; lia). lia. }
  rewrite E. rewrite <- varint_bytes by (unfold limit in Hm; lia).
  apply write_loop_ok.
Qed.

Lemma writeVarInt_ok : forall v m, in_s 64 v -> v <> MinInt64 -> Z.abs v < 2 ^ scap m m -> limit m ->
  exists k, 1 <= k <= m /\ SignedBitSize v m = Ok (8 * k) /\ Z.abs v < 2 ^ scap k m /\
    (k = 1 \/ 2 ^ scap (k - 1) m <= Z.abs v) /\
    encodes (writeVarInt v m) (bytes_bits (vs_bytes (v <? 0) (maxd k m) (Z.abs v) (Z.to_nat k))).
Proof.
  intros v m Hv Hne Hlt Hm. pose proof (SignedBitSize_spec v m Hv Hne Hm) as Sp.
  destruct (SignedBitSize v m) as [s|e| |] eqn:Hs; cbn [ssize_spec] in Sp; try tauto.
  - destruct Sp as (k & -> & Hk & Hl & Hge). exists k. repeat split; auto; try lia.
    now apply writeVarInt_bits.
  - lia.
Qed.

Lemma writeVarInt_rejects : forall v m, in_s 64 v -> v <> MinInt64 -> limit m ->
  2 ^ scap m m <= Z.abs v -> rejects (writeVarInt v m) ErrOutOfBounds.
Proof.
  intros v m Hv Hne Hm Hbig w. pose proof (SignedBitSize_spec v m Hv Hne Hm) as Sp.
  unfold writeVarInt. destruct (SignedBitSize v m) as [s|e| |]; cbn [ssize_spec] in Sp; try tauto.
  - destruct Sp as (k & _ & Hk & Hlt & _).
    assert (2 ^ scap k m <= 2 ^ scap m m).
    { apply pow2_le. unfold scap, maxd. rewrite Z.eqb_refl.
      destruct (k =? m) eqn:E; lia. }
    lia.
  - destruct Sp as [-> _]. reflexivity.
Qed.

Lemma read_varint_from_ok : forall conv neg a k m, limit m -> 1 <= k <= m -> 0 <= a < 2 ^ scap k m ->
  (forall x, - a <= x <= a -> conv x = x) ->
  forall pos rest,
  exists b t, vs_bytes neg (maxd k m) a (Z.to_nat k) = b :: t /\ 0 <= b < 256 /\
    (b = 128 -> neg = true /\ a = 0) /\
    read_varint_from conv (Z.to_nat (m - 2)) b (mkR pos (bytes_bits t ++ rest)) =
    (mkR (pos + length (bytes_bits t)) rest, Ok (if neg then - a else a)).
Proof.
  intros conv neg a k m Hm Hk Ha Hc pos rest. unfold scap in Ha.
  assert (Hm2 : 2 <= m) by (unfold limit in Hm; lia).
  destruct (Z.to_nat k) as [|j] eqn:Ej; [lia|].
  exists (vs_first neg (if (j =? 0)%nat then 0 else maxd k m) a j), (vu_tail (maxd k m) a j).
  split; [reflexivity|].
  pose proof (maxd_cases k m) as Hd.
  destruct j as [|j].
  - assert (k = 1) as -> by lia. unfold maxd in *. replace (1 =? m) with false in * by lia.
    unfold vs_first. change (0 =? 0)%nat with true. cbv iota.
    change (7 * Z.of_nat 0 + 0) with 0. rewrite Z.pow_0_r, Z.div_1_r. cbn in Ha.
    rewrite Z.mod_small by lia.
    split; [destruct neg; lia|]. split; [intros; destruct neg; [split; [reflexivity|]|]; lia|].
    cbn [vu_tail bytes_bits flat_map app length]. rewrite Nat.add_0_r.
    unfold read_varint_from, rbind.
    replace (negb (Z.land ((if neg then 128 else 0) + 0 + a) 64 =? 0)) with false.
    2:{ rewrite land_64 by (destruct neg; lia). destruct neg.
        - replace (128 + 0 + a) with (a + 1 * 128) by ring.
          rewrite Z_mod_plus_full, Z.mod_small by lia. lia.
        - replace (0 + 0 + a) with a by ring. rewrite Z.mod_small by lia. lia. }
    replace (Z.land ((if neg then 128 else 0) + 0 + a) 63) with a.
    2:{ rewrite land63. destruct neg.
        - replace (128 + 0 + a) with (a + 2 * 64) by ring.
          rewrite Z_mod_plus_full, Z.mod_small by lia. reflexivity.
        - replace (0 + 0 + a) with a by ring. now rewrite Z.mod_small by lia. }
    rewrite land_128 by (destruct neg; lia).
    assert (R : read_middle conv (Z.to_nat (m - 2)) a false = rret (a, false))
      by (destruct (Z.to_nat (m - 2)); reflexivity).
    rewrite R. cbn [rret fst snd read_last].
    destruct neg.
    + replace (128 <=? 128 + 0 + a) with true by lia. unfold rret. rewrite Hc by lia. reflexivity.
    + replace (128 <=? 0 + 0 + a) with false by lia. reflexivity.
  - set (d := maxd k m) in *. unfold vs_first. change (S j =? 0)%nat with false. cbv iota.
    set (s := 7 * Z.of_nat (S j) + d). assert (Hs : 0 <= s) by (unfold s; lia).
    assert (Hq : 0 <= a / 2 ^ s < 64).
    { split; [apply Z.div_pos; [lia|apply pow2_pos; lia]|].
      apply Z.div_lt_upper_bound; [apply pow2_pos; lia|].
      change 64 with (2 ^ 6). rewrite <- Z.pow_add_r by lia.
      replace (s + 6) with (7 * k - 1 + d) by (unfold s; lia). lia. }
    rewrite Z.mod_small by lia.
    split; [destruct neg; lia|]. split; [intros; destruct neg; lia|].
    unfold read_varint_from.
    replace (negb (Z.land ((if neg then 128 else 0) + 64 + a / 2 ^ s) 64 =? 0)) with true.
    2:{ rewrite land_64 by (destruct neg; lia). destruct neg.
        - replace (128 + 64 + a / 2 ^ s) with (64 + a / 2 ^ s + 1 * 128) by ring.
          rewrite Z_mod_plus_full, Z.mod_small by lia. lia.
        - replace (0 + 64 + a / 2 ^ s) with (64 + a / 2 ^ s) by ring.
          rewrite Z.mod_small by lia. lia. }
    replace (Z.land ((if neg then 128 else 0) + 64 + a / 2 ^ s) 63) with (a / 2 ^ s).
    2:{ rewrite land63. destruct neg.
        - replace (128 + 64 + a / 2 ^ s) with (a / 2 ^ s + 3 * 64) by ring.
          rewrite Z_mod_plus_full, Z.mod_small by lia. reflexivity.
        - replace (0 + 64 + a / 2 ^ s) with (a / 2 ^ s + 1 * 64) by ring.
          rewrite Z_mod_plus_full, Z.mod_small by lia. reflexivity. }
    rewrite land_128 by (destruct neg; lia).
    pose proof (read_tail conv d a (S j) (Z.to_nat (m - 2))) as RT. fold s in RT.
    assert (RT' : decodes
        (vh <-r read_middle conv (Z.to_nat (m - 2)) (a / 2 ^ s) true;
         read_last conv (fst vh) (snd vh)) (bytes_bits (vu_tail d a (S j))) a).
    { apply RT; [|lia|intros; apply Hc; lia].
      destruct Hd as [Hd|Hd]; rewrite Hd.
      * left. split; [reflexivity|]. unfold d, maxd in Hd. destruct (Z.eqb_spec k m); lia.
      * right. split; [reflexivity|]. unfold d, maxd in Hd. destruct (Z.eqb_spec k m); lia. }
    specialize (RT' pos rest). unfold rbind in RT' |- *.
    destruct (read_middle conv (Z.to_nat (m - 2)) (a / 2 ^ s) true
                (mkR pos (bytes_bits (vu_tail d a (S j)) ++ rest))) as [r' [[v' h']|e| |]]; try discriminate.
    rewrite RT'. unfold rret. repeat f_equal.
    destruct neg.
    + replace (128 <=? 128 + 64 + a / 2 ^ s) with true by lia. apply Hc. lia.
    + replace (128 <=? 0 + 64 + a / 2 ^ s) with false by lia. reflexivity.
Qed.

Lemma bytes_bits_cons : forall b t, bytes_bits (b :: t) = bits_of 8 b ++ bytes_bits t.
Proof. reflexivity. Qed.

Lemma read_varint_ok : forall conv neg a k m, limit m -> 1 <= k <= m -> 0 <= a < 2 ^ scap k m ->
  (forall x, - a <= x <= a -> conv x = x) ->
  decodes (b <-r read_byte; read_varint_from conv (Z.to_nat (m - 2)) b)
          (bytes_bits (vs_bytes neg (maxd k m) a (Z.to_nat k))) (if neg then - a else a).
Proof.
  intros conv neg a k m Hm Hk Ha Hc pos rest.
  destruct (read_varint_from_ok conv neg a k m Hm Hk Ha Hc (pos + 8)%nat rest)
    as (b & t & E & Hb & _ & R).
  rewrite E, bytes_bits_cons, <- app_assoc. unfold rbind.
  rewrite (decodes_read_byte b) by lia. rewrite bits_of_length, R.
  rewrite app_length, bits_of_length. f_equal. f_equal. lia.
Qed.

Lemma ReadVarint_ok : forall neg a k, 1 <= k <= 9 -> 0 <= a < 2 ^ scap k 9 -> (neg = true -> a <> 0) ->
  decodes ReadVarint (bytes_bits (vs_bytes neg (maxd k 9) a (Z.to_nat k))) (if neg then - a else a).
Proof.
  intros neg a k Hk Ha Hn pos rest.
  assert (Hm : limit 9) by (unfold limit; lia).
  assert (Hcap : 2 ^ scap k 9 <= 2 ^ 63).
  { apply pow2_le. unfold scap, maxd. destruct (Z.eqb_spec k 9); lia. }
  assert (Hc : forall x, - a <= x <= a -> to_s 64 x = x)
    by (intros x Hx; apply to_s_small; [lia|change (64 - 1) with 63; lia]).
  destruct (read_varint_from_ok (to_s 64) neg a k 9 Hm Hk Ha Hc (pos + 8)%nat rest)
    as (b & t & E & Hb & Hne & R).
  rewrite E, bytes_bits_cons, <- app_assoc. unfold ReadVarint, rbind.
  rewrite (decodes_read_byte b) by lia.
  destruct (Z.eqb_spec b 128) as [Eb|_].
  - destruct (Hne Eb) as [E1 E2]. exfalso. now apply Hn.
  - rewrite bits_of_length. change (Z.to_nat (9 - 2)) with 7%nat in R. rewrite R.
    rewrite app_length, bits_of_length. f_equal. f_equal. lia.
Qed.
