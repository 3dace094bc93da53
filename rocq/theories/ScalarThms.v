(** The proofs behind the scalar properties C01-C11. *)

Require Import ZArith List Bool Lia ZifyBool ZifyNat.
From Verif Require Import Bits BitsFacts Stream StreamFacts Scalars FixedFacts VarFacts
  PrefixFacts ScalarFacts ScalarTable.
Import ListNotations.
Open Scope Z_scope.
Open Scope io_scope.

Lemma scalar_roundtrip : forall A w r P, scalar_type A w r P ->
  forall a, P a -> exists bs, roundtrips (w a) r bs a.
Proof.
  intros A w r P H. destruct H; intros a Ha;
  try (exists (bits_of 8 a); split;
       [apply (WriteUnsignedBits_ok a 8); [lia|exact Ha]|apply (uint_reader_ok 8); [lia|exact Ha]]);
  try (exists (bits_of 16 a); split;
       [apply (WriteUnsignedBits_ok a 16); [lia|exact Ha]|apply (uint_reader_ok 16); [lia|exact Ha]]);
  try (exists (bits_of 32 a); split;
       [apply (WriteUnsignedBits_ok a 32); [lia|exact Ha]|apply (uint_reader_ok 32); [lia|exact Ha]]);
  try (exists (bits_of 64 a); split;
       [apply (WriteUnsignedBits_ok a 64); [lia|exact Ha]|apply (uint_reader_ok 64); [lia|exact Ha]]);
  try (exists (bits_of 8 a); split;
       [apply (WriteSignedBits_ok a 8); [lia|exact Ha]|apply (int_reader_ok 8); [lia|exact Ha]]);
  try (exists (bits_of 16 a); split;
       [apply (WriteSignedBits_ok a 16); [lia|exact Ha]|apply (int_reader_ok 16); [lia|exact Ha]]);
  try (exists (bits_of 32 a); split;
       [apply (WriteSignedBits_ok a 32); [lia|exact Ha]|apply (int_reader_ok 32); [lia|exact Ha]]);
  try (exists (bits_of 64 a); split;
       [apply (WriteSignedBits_ok a 64); [lia|exact Ha]|apply (int_reader_ok 64); [lia|exact Ha]]).
  - exists (bits_of (Z.to_nat n) a). split; [apply WriteUnsignedBits_ok|apply ReadUnsignedBits_ok]; lia.
  - exists (bits_of (Z.to_nat n) a). split; [apply WriteSignedBits_ok|apply ReadSignedBits_ok]; lia.
  - exists [a]. split; [apply encodes_put|apply decodes_read_bool].
  - destruct (WriteVaruint16_rt a Ha) as (k & _ & _ & H). eauto.
  - destruct (WriteVaruint32_rt a Ha) as (k & _ & _ & H). eauto.
  - destruct (WriteVaruint64_rt a Ha) as (k & _ & _ & H). eauto.
  - destruct (WriteVaruint_rt a Ha) as (k & _ & _ & H). eauto.
  - destruct (WriteVarsize_rt a Ha) as (k & _ & _ & H). eauto.
  - destruct (WriteVarint16_rt a Ha) as (k & _ & _ & H). eauto.
  - destruct (WriteVarint32_rt a Ha) as (k & _ & _ & H). eauto.
  - destruct (WriteVarint64_rt a Ha) as (k & _ & _ & H). eauto.
  - destruct (Z.eq_dec a MinInt64) as [->|Hne]; [eexists; apply WriteVarint_min|].
    destruct (WriteVarint_rt a Ha Hne) as (k & _ & _ & H). eauto.
  - exists (bits_of 32 a). now apply WriteFloat32_rt.
  - exists (bits_of 64 a). now apply WriteFloat64_rt.
  - destruct Ha as [H1 H2]. destruct (WriteString_rt a H1 H2) as (bs & H & _). eauto.
  - destruct a as [n buf]. destruct Ha as [[H1 H2] H3]. cbn in *. subst n.
    now apply WriteBytes_rt.
  - destruct a as [n buf]. destruct Ha as (H1 & H2 & H3 & H4). now apply WriteExtern_rt.
Qed.

Lemma scalar_prefix_determined : forall A w r P, scalar_type A w r P -> prefix_determined r.
Proof.
  intros A w r P H. destruct H;
  try (apply pd_bind; [apply pd_read_bits|intros; apply pd_ret]);
  try (apply pd_bind; [apply pd_ReadSignedBits|intros; apply pd_ret]);
  try apply pd_read_varuint;
  try (apply pd_bind; [apply pd_read_byte|intros; apply pd_read_varint_from]);
  try (apply pd_bind; [apply pd_read_full; lia|intros; apply pd_ret]).
  - apply pd_read_bits.
  - apply pd_ReadSignedBits.
  - apply pd_ReadVarsize.
  - apply pd_bind; [apply pd_read_byte|intros b]. apply pd_if; [apply pd_ret|apply pd_read_varint_from].
  - apply pd_ReadString.
  - apply pd_ReadBytes.
  - apply pd_ReadExtern.
Qed.

Lemma scalar_never_panics : forall A w r P, scalar_type A w r P -> never_panics r.
Proof.
  intros A w r P H. destruct H;
  try (apply np_bind; [apply np_read_bits|intros; apply np_ret]);
  try (apply np_bind; [apply np_ReadSignedBits; lia|intros; apply np_ret]);
  try apply np_read_varuint;
  try (apply np_bind; [apply np_read_byte|intros; apply np_read_varint_from]);
  try (apply np_bind; [apply np_read_full|intros; apply np_ret]).
  - apply np_read_bits.
  - apply np_ReadSignedBits; lia.
  - apply np_ReadVarsize.
  - apply np_bind; [apply np_read_byte|intros b]. apply np_if; [apply np_ret|apply np_read_varint_from].
  - apply np_ReadString.
  - apply np_ReadBytes.
  - apply np_ReadExtern.
Qed.

Lemma scalar_prefix_free : forall A w r P, scalar_type A w r P ->
  forall a1 a2 b1 b2, P a1 -> P a2 -> a1 <> a2 ->
  encodes (w a1) b1 -> encodes (w a2) b2 -> prefix_free b1 b2.
Proof.
  intros A w r P H a1 a2 b1 b2 H1 H2 Hne E1 E2 t1 t2 E.
  destruct (scalar_roundtrip _ _ _ _ H _ H1) as (c1 & Ew1 & D1).
  destruct (scalar_roundtrip _ _ _ _ H _ H2) as (c2 & Ew2 & D2).
  rewrite (encodes_inj _ _ _ E1 Ew1), (encodes_inj _ _ _ E2 Ew2) in E.
  destruct (decodes_prefix_free _ _ _ _ _ _ _ D1 D2 E) as (_ & Ha & _). contradiction.
Qed.

Lemma scalar_sequence_unique : forall A w r P, scalar_type A w r P ->
  forall l1 l2 b1 b2 t1 t2, Forall P l1 -> Forall P l2 -> length l1 = length l2 ->
  encodes (write_all w l1) b1 -> encodes (write_all w l2) b2 -> b1 ++ t1 = b2 ++ t2 -> l1 = l2.
Proof.
  intros A w r P H.
  assert (Hall : forall l, Forall P l -> exists bs, encodes (write_all w l) bs).
  { induction 1 as [|a l Ha Hl [bs IH]]; [exists []; apply encodes_ret|].
    destruct (scalar_roundtrip _ _ _ _ H _ Ha) as (c & Ew & _).
    exists (c ++ bs). cbn. now apply encodes_bind. }
  induction l1 as [|a1 l1 IH]; intros [|a2 l2] b1 b2 t1 t2 F1 F2 L E1 E2 E; try discriminate; [reflexivity|].
  inversion F1 as [|? ? P1 F1']; subst. inversion F2 as [|? ? P2 F2']; subst.
  destruct (scalar_roundtrip _ _ _ _ H _ P1) as (c1 & Ew1 & D1).
  destruct (scalar_roundtrip _ _ _ _ H _ P2) as (c2 & Ew2 & D2).
  destruct (Hall _ F1') as (d1 & Ed1). destruct (Hall _ F2') as (d2 & Ed2).
  rewrite (encodes_inj _ _ (c1 ++ d1) E1) in E by (cbn; now apply encodes_bind).
  rewrite (encodes_inj _ _ (c2 ++ d2) E2) in E by (cbn; now apply encodes_bind).
  rewrite <- !app_assoc in E.
  destruct (decodes_prefix_free _ _ _ _ _ _ _ D1 D2 E) as (_ & <- & E').
  f_equal. injection L as L. eapply IH; eauto.
Qed.

(** ** Sizes *)

Lemma ucap_mono : forall a b m, 1 <= a -> a <= b <= m -> ucap a m <= ucap b m.
Proof. intros a b m Ha H. unfold ucap, maxd. destruct (Z.eqb_spec a m), (Z.eqb_spec b m); lia. Qed.
Lemma scap_mono : forall a b m, 1 <= a -> a <= b <= m -> scap a m <= scap b m.
Proof. intros a b m Ha H. unfold scap, maxd. destruct (Z.eqb_spec a m), (Z.eqb_spec b m); lia. Qed.

Lemma unsigned_minimal : forall v m s k, 0 <= v -> limit m -> UnsignedBitSize v m = Ok s ->
  1 <= k <= m -> v < 2 ^ ucap k m -> s <= 8 * k.
Proof.
  intros v m s k Hv Hm Hs Hk Hlt. pose proof (UnsignedBitSize_spec v m Hv Hm) as Sp.
  rewrite Hs in Sp. destruct Sp as (k' & -> & Hk' & _ & [->|Hge]); [lia|].
  destruct (Z_le_gt_dec k' k); [lia|].
  pose proof (pow2_le (ucap k m) (ucap (k' - 1) m)) as M.
  pose proof (ucap_mono k (k' - 1) m). unfold ucap at 1 in M. unfold maxd at 1 in M.
  destruct (k =? m); lia.
Qed.

Lemma signed_minimal : forall v m s k, in_s 64 v -> limit m -> SignedBitSize v m = Ok s ->
  1 <= k <= m -> Z.abs v < 2 ^ scap k m -> s <= 8 * k.
Proof.
  intros v m s k Hv Hm Hs Hk Hlt.
  destruct (Z.eq_dec v MinInt64) as [->|Hne].
  - rewrite SignedBitSize_min in Hs by (unfold limit in Hm; lia). injection Hs as <-. lia.
  - pose proof (SignedBitSize_spec v m Hv Hne Hm) as Sp.
    rewrite Hs in Sp. destruct Sp as (k' & -> & Hk' & _ & [->|Hge]); [lia|].
    destruct (Z_le_gt_dec k' k); [lia|].
    pose proof (pow2_le (scap k m) (scap (k' - 1) m)) as M.
    pose proof (scap_mono k (k' - 1) m). unfold scap at 1 in M. unfold maxd at 1 in M.
    destruct (k =? m); lia.
Qed.

Lemma unsigned_size_exact : forall v m, 0 <= v < 2 ^ 64 -> limit m ->
  match UnsignedBitSize v m with
  | Ok s => exists bs, encodes (writeVarUint v m) bs /\ Z.of_nat (length bs) = s
  | Err e => rejects (writeVarUint v m) e
  | _ => False
  end.
Proof.
  intros v m Hv Hm. pose proof (UnsignedBitSize_spec v m ltac:(lia) Hm) as Sp.
  destruct (UnsignedBitSize v m) as [s|e| |] eqn:Hs; cbn [usize_spec] in Sp; auto.
  - destruct Sp as (k & -> & Hk & _). eexists. split; [apply usize_bits_ok; eauto; lia|].
    rewrite bytes_bits_length, vu_tail_length. lia.
  - destruct Sp as [-> Hbig]. apply writeVarUint_rejects; auto; lia.
Qed.

Lemma writeVarInt_min : forall m, limit m -> encodes (writeVarInt MinInt64 m) (bits_of 8 128).
Proof.
  intros m Hm w Hw. unfold writeVarInt. rewrite SignedBitSize_min by (unfold limit in Hm; lia).
  assert (E : varint_byte (MinInt64 <? 0)
      (if MinInt64 <? 0 then u64 (i64 (- MinInt64)) else u64 MinInt64) (8 / 8) m 0 = 128).
  { destruct Hm as [-> | [-> | [-> | [-> | ->]]]]; reflexivity. }
  change (Z.to_nat (8 / 8)) with 1%nat. cbn [write_loop]. rewrite E.
  unfold write_byte, put. rewrite Hw. reflexivity.
Qed.

Lemma signed_size_exact : forall v m, in_s 64 v -> limit m ->
  match SignedBitSize v m with
  | Ok s => exists bs, encodes (writeVarInt v m) bs /\ Z.of_nat (length bs) = s
  | Err e => rejects (writeVarInt v m) e
  | _ => False
  end.
Proof.
  intros v m Hv Hm. destruct (Z.eq_dec v MinInt64) as [->|Hne].
  - rewrite SignedBitSize_min by (unfold limit in Hm; lia).
    exists (bits_of 8 128). split; [now apply writeVarInt_min|reflexivity].
  - pose proof (SignedBitSize_spec v m Hv Hne Hm) as Sp.
    destruct (SignedBitSize v m) as [s|e| |] eqn:Hs; cbn [ssize_spec] in Sp; auto.
    + destruct Sp as (k & -> & Hk & _). eexists. split; [apply writeVarInt_bits; eauto; lia|].
      rewrite bytes_bits_length, vs_bytes_length. lia.
    + destruct Sp as [-> Hbig]. apply writeVarInt_rejects; auto; lia.
Qed.

Lemma conv_u_pow : forall n b x, 0 <= x < 2 ^ b -> 0 <= b <= n -> to_u n x = x.
Proof. intros n b x Hx Hb. apply to_u_small. pose proof (pow2_le b n Hb). lia. Qed.
Lemma conv_s_pow : forall n b x, 0 < n -> - 2 ^ b < x < 2 ^ b -> 0 <= b <= n - 1 -> to_s n x = x.
Proof. intros n b x Hn Hx Hb. apply to_s_small; [lia|]. pose proof (pow2_le b (n - 1) Hb). lia. Qed.

Lemma unsigned_shortest : forall conv m v s r r', limit m ->
  (forall x, 0 <= x < 2 ^ (7 * m + 1) -> conv x = x) ->
  UnsignedBitSize v m = Ok s -> read_varuint conv (Z.to_nat (m - 2)) r = (r', Ok v) ->
  s <= consumed r r'.
Proof.
  intros conv m v s r r' Hm Hc Hs H.
  destruct (read_varuint_range conv m r r' v) as (k & Hk & Hp & Hv); auto; [unfold limit in Hm; lia|].
  pose proof (unsigned_minimal v m s k). unfold consumed. lia.
Qed.

Lemma signed_shortest : forall conv m v s r r', limit m ->
  (forall x, - 2 ^ (7 * m) < x < 2 ^ (7 * m) -> conv x = x) -> in_s 64 v ->
  SignedBitSize v m = Ok s ->
  (b <-r read_byte; read_varint_from conv (Z.to_nat (m - 2)) b) r = (r', Ok v) ->
  s <= consumed r r'.
Proof.
  intros conv m v s r r' Hm Hc Hi Hs H. unfold rbind at 1 in H.
  destruct (read_byte r) as [r1 [b|e| |]] eqn:Eb; try discriminate.
  apply read_byte_inv in Eb. destruct Eb as [Hb Hp1].
  destruct (read_varint_range conv m b r1 r' v) as (k & Hk & Hp & Hv); auto; [unfold limit in Hm; lia|].
  pose proof (signed_minimal v m s k Hi Hm Hs Hk Hv). unfold consumed. lia.
Qed.

Lemma unsigned_readers_shortest : forall rd m, unsigned_var_reader rd m ->
  forall v s r r', UnsignedBitSize v m = Ok s -> rd r = (r', Ok v) -> s <= consumed r r'.
Proof.
  intros rd m H. destruct H; intros v s r r' Hs H.
  - apply (unsigned_shortest (to_u 16) 2 v); auto; [apply limits_ok|intros x Hx; apply (conv_u_pow 16 15); [exact Hx|lia]].
  - apply (unsigned_shortest (to_u 32) 4 v); auto; [apply limits_ok|intros x Hx; apply (conv_u_pow 32 29); [exact Hx|lia]].
  - unfold ReadVarsize, rbind in H.
    destruct (read_varuint (to_u 64) 3 r) as [r1 [x|e| |]] eqn:E; try discriminate.
    destruct (MaxVarsize <? x); [discriminate|]. unfold rret in H. apply ok_inj in H. destruct H as [<- <-].
    apply (unsigned_shortest (to_u 64) 5 x); auto; [apply limits_ok|intros y Hy; apply (conv_u_pow 64 36); [exact Hy|lia]].
  - apply (unsigned_shortest (to_u 64) 8 v); auto; [apply limits_ok|intros x Hx; apply (conv_u_pow 64 57); [exact Hx|lia]].
  - apply (unsigned_shortest (to_u 64) 9 v); auto; [apply limits_ok|intros x Hx; apply (conv_u_pow 64 64); [exact Hx|lia]].
Qed.

Lemma signed_readers_shortest : forall rd m, signed_var_reader rd m ->
  forall v s r r', in_s 64 v -> SignedBitSize v m = Ok s -> rd r = (r', Ok v) -> s <= consumed r r'.
Proof.
  intros rd m H. destruct H; intros v s r r' Hi Hs H.
  - apply (signed_shortest (to_s 16) 2 v); auto; [apply limits_ok|intros x Hx; apply (conv_s_pow 16 14); [lia|exact Hx|lia]].
  - apply (signed_shortest (to_s 32) 4 v); auto; [apply limits_ok|intros x Hx; apply (conv_s_pow 32 28); [lia|exact Hx|lia]].
  - apply (signed_shortest (to_s 64) 8 v); auto; [apply limits_ok|intros x Hx; apply (conv_s_pow 64 56); [lia|exact Hx|lia]].
  - unfold ReadVarint, rbind in H.
    destruct (read_byte r) as [r1 [b|e| |]] eqn:Eb; try discriminate.
    destruct (b =? 128).
    + apply read_byte_inv in Eb. unfold rret in H. apply ok_inj in H. destruct H as [<- <-].
      change (SignedBitSize MinInt64 9) with (@Ok Z 8) in Hs. injection Hs as <-.
      unfold consumed. lia.
    + apply (signed_shortest (to_s 64) 9 v); auto; [apply limits_ok|intros x Hx; apply (conv_s_pow 64 63); [lia|exact Hx|lia]|].
      unfold rbind at 1. now rewrite Eb.
Qed.

(** ** The varint64 minimum *)
Lemma varint64_min_writes : encodes (WriteVarint64 MinInt64) (bits_of 8 128).
Proof. apply writeVarInt_min. apply limits_ok. Qed.

Lemma varint64_min_reads : decodes ReadVarint64 (bits_of 8 128) 0.
Proof.
  unfold ReadVarint64. rewrite <- (app_nil_r (bits_of 8 128)).
  eapply decodes_bind; [apply decodes_read_byte; lia|].
  assert (E : read_varint_from (to_s 64) 6 128 = fun r => (r, Ok 0)) by reflexivity.
  rewrite E. apply (decodes_ret 0).
Qed.

(** ** Bytes and externs *)

Lemma WriteBytes_iff : forall n buf, 0 <= n <= MaxVarsize -> Forall is_byte buf ->
  (exists bs, roundtrips (WriteBytes n buf) ReadBytes bs (n, buf)) <-> n = Z.of_nat (length buf).
Proof.
  intros n buf Hn Hb. split.
  - intros (bs & _ & D). specialize (D 0%nat []). symmetry. eapply ReadBytes_size. exact D.
  - intros ->. now apply WriteBytes_rt.
Qed.

Lemma WriteBytes_always_ok : forall n buf, 0 <= n <= MaxVarsize -> exists bs, encodes (WriteBytes n buf) bs.
Proof. intros n buf Hn. destruct (WriteBytes_encodes n buf Hn) as (k & H & _). eauto. Qed.

Lemma WriteBytes_rejects : forall n buf, MaxVarsize < n -> rejects (WriteBytes n buf) ErrOutOfBounds.
Proof. intros n buf Hn w. unfold WriteBytes, wbind. now rewrite WriteVarsize_rejects. Qed.

(** Which bits WriteExtern emits, for every buffer with enough full bytes. *)
Lemma WriteExtern_encoding : forall n buf, 0 <= n <= MaxVarsize -> n / 8 <= Z.of_nat (length buf) ->
  n mod 8 <> 0 -> buf <> [] -> exists hdr, decodes ReadVarsize hdr n /\
  encodes (WriteExtern n buf)
    (hdr ++ bytes_bits (firstn (Z.to_nat (n / 8)) buf) ++
     bits_of (Z.to_nat (n mod 8)) (Z.shiftr (last buf 0) (8 - n mod 8))).
Proof.
  intros n buf Hn Hlen Hq Hne. destruct (WriteVarsize_rt n Hn) as (k & _ & _ & He & Hd).
  exists (uwire n k 5). split; [exact Hd|]. apply encodes_bind; [exact He|]. cbv beta zeta.
  replace (Z.of_nat (length buf) <? n / 8) with false by lia.
  apply encodes_bind; [apply encodes_put|]. replace (n mod 8 =? 0) with false by lia.
  destruct (exists_last Hne) as (full & lb & ->).
  rewrite rev_app_distr, last_last. cbn [rev app]. apply encodes_put.
Qed.

Lemma WriteExtern_empty : forall n w, 0 < n < 8 -> wfaults w = [] ->
  snd (WriteExtern n [] w) = Panic.
Proof.
  intros n w Hn Hw. destruct (WriteVarsize_rt n) as (k & _ & _ & He & _); [unfold MaxVarsize; lia|].
  unfold WriteExtern, wbind at 1. rewrite (He w Hw). rewrite Z.div_small by lia.
  rewrite Z.mod_small by lia. cbn [length]. change (Z.of_nat 0 <? 0) with false. cbv iota.
  unfold wbind, write_bytes, put. cbn [wfaults firstn Z.to_nat]. 
  replace (n =? 0) with false by lia. reflexivity.
Qed.

(** A 4-bit value in a two byte buffer: the nibble of the second byte is stored. *)
Lemma extern_long_buffer : exists bs,
  encodes (WriteExtern 4 [16; 160]) bs /\ decodes ReadExtern bs (4, [160]).
Proof.
  destruct (WriteExtern_encoding 4 [16; 160]) as (hdr & Hd & He);
    [unfold MaxVarsize; lia|vm_compute; discriminate|discriminate|discriminate|].
  eexists. split; [exact He|]. change (Z.to_nat (4 / 8)) with 0%nat. cbn [firstn bytes_bits flat_map app].
  eapply decodes_bind; [exact Hd|]. cbv beta zeta.
  change (bits_of (Z.to_nat (4 mod 8)) (Z.shiftr (last [16; 160] 0) (8 - 4 mod 8)))
    with ([] ++ bits_of 4 10).
  eapply decodes_bind; [apply (decodes_read_full []); [constructor|reflexivity]|].
  change (4 mod 8 =? 0) with false. cbv iota.
  eapply decodes_map; [apply decodes_read_bits_of; cbn; lia|]. reflexivity.
Qed.

(** ** Statements as the property file gives them *)

Lemma uint_types_rt : forall v,
  (in_u 8 v -> roundtrips (WriteUint8 v) ReadUint8 (bits_of 8 v) v) /\
  (in_u 16 v -> roundtrips (WriteUint16 v) ReadUint16 (bits_of 16 v) v) /\
  (in_u 32 v -> roundtrips (WriteUint32 v) ReadUint32 (bits_of 32 v) v) /\
  (in_u 64 v -> roundtrips (WriteUint64 v) ReadUint64 (bits_of 64 v) v).
Proof.
  intros v. repeat split.
  all: try (apply (WriteUnsignedBits_ok v 8); [lia|assumption]).
  all: try (apply (WriteUnsignedBits_ok v 16); [lia|assumption]).
  all: try (apply (WriteUnsignedBits_ok v 32); [lia|assumption]).
  all: try (apply (WriteUnsignedBits_ok v 64); [lia|assumption]).
  - apply (uint_reader_ok 8); [lia|assumption].
  - apply (uint_reader_ok 16); [lia|assumption].
  - apply (uint_reader_ok 32); [lia|assumption].
  - apply (uint_reader_ok 64); [lia|assumption].
Qed.

Lemma bits_of_modn : forall n v, 0 <= n -> bits_of (Z.to_nat n) (v mod 2 ^ n) = bits_of (Z.to_nat n) v.
Proof. intros n v Hn. rewrite <- (Z2Nat.id n) at 2 by lia. apply bits_of_mod. lia. Qed.

Lemma signed_roundtrip_mod : forall v n, 1 <= n <= 64 -> - 2 ^ (n - 1) <= v < 2 ^ (n - 1) ->
  roundtrips (WriteSignedBits v n) (ReadSignedBits n) (bits_of (Z.to_nat n) (v mod 2 ^ n)) v.
Proof.
  intros v n Hn Hv. rewrite bits_of_modn by lia.
  split; [now apply WriteSignedBits_ok|now apply ReadSignedBits_ok].
Qed.

Lemma int_rt : forall n v, 1 <= n <= 64 -> in_s n v ->
  roundtrips (WriteSignedBits v n) (int_reader n) (bits_of (Z.to_nat n) (v mod 2 ^ n)) v.
Proof.
  intros n v Hn Hv. rewrite bits_of_modn by lia.
  split; [now apply WriteSignedBits_ok|now apply int_reader_ok].
Qed.

Lemma int_types_rt : forall v,
  (in_s 8 v -> roundtrips (WriteInt8 v) ReadInt8 (bits_of 8 (v mod 2 ^ 8)) v) /\
  (in_s 16 v -> roundtrips (WriteInt16 v) ReadInt16 (bits_of 16 (v mod 2 ^ 16)) v) /\
  (in_s 32 v -> roundtrips (WriteInt32 v) ReadInt32 (bits_of 32 (v mod 2 ^ 32)) v) /\
  (in_s 64 v -> roundtrips (WriteInt64 v) ReadInt64 (bits_of 64 (v mod 2 ^ 64)) v).
Proof.
  intros v. split; [|split; [|split]]; intros H.
  - apply (int_rt 8); [lia|exact H].
  - apply (int_rt 16); [lia|exact H].
  - apply (int_rt 32); [lia|exact H].
  - apply (int_rt 64); [lia|exact H].
Qed.

Lemma varuint16_rt' : forall v, 0 <= v <= 2 ^ 15 - 1 -> exists k, ushortest v k 2 /\
  roundtrips (WriteVaruint16 v) ReadVaruint16 (uwire v k 2) v.
Proof. intros v Hv. destruct (WriteVaruint16_rt v Hv) as (k & H1 & _ & H2). eauto. Qed.
Lemma varuint32_rt' : forall v, 0 <= v <= 2 ^ 29 - 1 -> exists k, ushortest v k 4 /\
  roundtrips (WriteVaruint32 v) ReadVaruint32 (uwire v k 4) v.
Proof. intros v Hv. destruct (WriteVaruint32_rt v Hv) as (k & H1 & _ & H2). eauto. Qed.
Lemma varuint64_rt' : forall v, 0 <= v <= 2 ^ 57 - 1 -> exists k, ushortest v k 8 /\
  roundtrips (WriteVaruint64 v) ReadVaruint64 (uwire v k 8) v.
Proof. intros v Hv. destruct (WriteVaruint64_rt v Hv) as (k & H1 & _ & H2). eauto. Qed.
Lemma varuint_rt' : forall v, 0 <= v <= 2 ^ 64 - 1 -> exists k, ushortest v k 9 /\
  roundtrips (WriteVaruint v) ReadVaruint (uwire v k 9) v.
Proof. intros v Hv. destruct (WriteVaruint_rt v Hv) as (k & H1 & _ & H2). eauto. Qed.
Lemma varsize_rt' : forall v, 0 <= v <= 2 ^ 31 - 1 -> exists k, ushortest v k 5 /\
  roundtrips (WriteVarsize v) ReadVarsize (uwire v k 5) v.
Proof. intros v Hv. destruct (WriteVarsize_rt v Hv) as (k & H1 & _ & H2). eauto. Qed.

Lemma varuint_rejects' : forall v,
  (2 ^ 15 <= v < 2 ^ 16 -> rejects (WriteVaruint16 v) ErrOutOfBounds) /\
  (2 ^ 29 <= v < 2 ^ 32 -> rejects (WriteVaruint32 v) ErrOutOfBounds) /\
  (2 ^ 57 <= v < 2 ^ 64 -> rejects (WriteVaruint64 v) ErrOutOfBounds).
Proof.
  intros v. split; [|split]; intros H.
  - apply WriteVaruint16_rejects. unfold MaxVaruint16. lia.
  - apply WriteVaruint32_rejects. unfold MaxVaruint32. lia.
  - apply WriteVaruint64_rejects. unfold MaxVaruint64. lia.
Qed.

Lemma varsize_rejects' : forall v, 2 ^ 31 <= v < 2 ^ 64 -> rejects (WriteVarsize v) ErrOutOfBounds.
Proof. intros v H. apply WriteVarsize_rejects. unfold MaxVarsize. lia. Qed.

Lemma varsize_refuses' : forall v k, 2 ^ 31 <= v < 2 ^ 36 -> ushortest v k 5 ->
  forall pos rest, exists r, ReadVarsize (mkR pos (uwire v k 5 ++ rest)) = (r, Err ErrOutOfBounds).
Proof. intros v k H Hk. apply ReadVarsize_refuses; [unfold MaxVarsize; lia|exact Hk]. Qed.

Lemma varint16_rt' : forall v, - (2 ^ 14 - 1) <= v <= 2 ^ 14 - 1 -> exists k, sshortest v k 2 /\
  roundtrips (WriteVarint16 v) ReadVarint16 (swire v k 2) v.
Proof. intros v Hv. destruct (WriteVarint16_rt v Hv) as (k & H1 & _ & H2). eauto. Qed.
Lemma varint32_rt' : forall v, - (2 ^ 28 - 1) <= v <= 2 ^ 28 - 1 -> exists k, sshortest v k 4 /\
  roundtrips (WriteVarint32 v) ReadVarint32 (swire v k 4) v.
Proof. intros v Hv. destruct (WriteVarint32_rt v Hv) as (k & H1 & _ & H2). eauto. Qed.
Lemma varint64_rt' : forall v, - (2 ^ 56 - 1) <= v <= 2 ^ 56 - 1 -> exists k, sshortest v k 8 /\
  roundtrips (WriteVarint64 v) ReadVarint64 (swire v k 8) v.
Proof. intros v Hv. destruct (WriteVarint64_rt v Hv) as (k & H1 & _ & H2). eauto. Qed.

Lemma varint_rt' : forall v, in_s 64 v ->
  (v <> - 2 ^ 63 -> exists k, sshortest v k 9 /\
     roundtrips (WriteVarint v) ReadVarint (swire v k 9) v) /\
  (v = - 2 ^ 63 -> roundtrips (WriteVarint v) ReadVarint (bits_of 8 128) v).
Proof.
  intros v Hv. split.
  - intros Hne. destruct (WriteVarint_rt v Hv Hne) as (k & H1 & _ & H2). eauto.
  - intros ->. apply WriteVarint_min.
Qed.

Lemma varint_rejects' : forall v,
  (in_s 16 v -> 2 ^ 14 <= Z.abs v -> rejects (WriteVarint16 v) ErrOutOfBounds) /\
  (in_s 32 v -> 2 ^ 28 <= Z.abs v -> rejects (WriteVarint32 v) ErrOutOfBounds) /\
  (in_s 64 v -> 2 ^ 56 <= Z.abs v -> v <> - 2 ^ 63 -> rejects (WriteVarint64 v) ErrOutOfBounds).
Proof.
  intros v. split; [|split]; intros.
  - apply WriteVarint16_rejects; [assumption|unfold MaxVarint16; lia].
  - apply WriteVarint32_rejects; [assumption|unfold MaxVarint32; lia].
  - apply WriteVarint64_rejects; [assumption|assumption|unfold MaxVarint64; lia].
Qed.

Lemma varint64_min_exception : exists v bs, in_s 64 v /\ 2 ^ 56 <= Z.abs v /\
  encodes (WriteVarint64 v) bs /\ decodes ReadVarint64 bs 0 /\ v <> 0.
Proof.
  exists MinInt64, (bits_of 8 128). split; [unfold in_s; vm_compute; split; congruence|].
  split; [vm_compute; discriminate|]. split; [apply varint64_min_writes|].
  split; [apply varint64_min_reads|discriminate].
Qed.

Lemma string_rejects' : forall s, 2 ^ 31 <= Z.of_nat (length s) -> rejects (WriteString s) ErrOutOfBounds.
Proof. intros s H. apply WriteString_rejects. unfold MaxVarsize. lia. Qed.

Lemma bytes_rejects' : forall n buf, 2 ^ 31 <= n < 2 ^ 64 -> rejects (WriteBytes n buf) ErrOutOfBounds.
Proof. intros n buf H. apply WriteBytes_rejects. unfold MaxVarsize. lia. Qed.

Lemma extern_panics' : forall n buf w, 0 <= n <= 2 ^ 31 - 1 ->
  Z.of_nat (length buf) < n / 8 \/ (0 < n < 8 /\ buf = []) -> wfaults w = [] ->
  snd (WriteExtern n buf w) = Panic.
Proof.
  intros n buf w Hn [H|[H ->]] Hw; [now apply WriteExtern_short|now apply WriteExtern_empty].
Qed.

Lemma extern_long_buffer' : exists n buf bs buf',
  n / 8 < Z.of_nat (length buf) /\ encodes (WriteExtern n buf) bs /\
  decodes ReadExtern bs (n, buf') /\ nth (Z.to_nat (n / 8)) buf' 0 <> nth (Z.to_nat (n / 8)) buf 0.
Proof.
  destruct extern_long_buffer as (bs & E & D). exists 4, [16; 160], bs, [160].
  repeat split; auto. vm_compute. discriminate.
Qed.

Lemma scalar_truncated : forall A w r P, scalar_type A w r P ->
  forall a bs short pos, P a -> encodes (w a) bs -> cut_of short bs ->
  exists r' e, r (mkR pos short) = (r', Err e).
Proof.
  intros A w r P H a bs short pos Ha He Hc.
  destruct (scalar_roundtrip _ _ _ _ H _ Ha) as (c & Ew & D).
  rewrite (encodes_inj _ _ _ He Ew) in Hc.
  specialize (D pos []). apply (scalar_prefix_determined _ _ _ _ H) in D.
  destruct D as (c' & Hc' & _ & _ & Hcut). cbn [rrem] in Hc'. rewrite !app_nil_r in Hc'. subst c'.
  now apply Hcut.
Qed.
