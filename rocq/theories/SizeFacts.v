(** Predicted sizes of array elements. *)

Require Import ZArith List Bool Lia ZifyBool ZifyNat.
From Verif Require Import Bits BitsFacts Stream StreamFacts Scalars FixedFacts VarFacts PrefixFacts
  ScalarFacts ScalarTable ScalarThms Float16 Float16Facts Traits TraitSpec Delta DeltaSpec DeltaFacts TraitFacts.
Import ListNotations.
Open Scope Z_scope.

(** ** Closed forms of the size functions *)

Lemma usize2 : forall v, UnsignedBitSize v 2 =
  if v <=? 127 then Ok 8 else if v <=? 32767 then Ok 16 else Err ErrOutOfBounds.
Proof. reflexivity. Qed.
Lemma usize4 : forall v, UnsignedBitSize v 4 =
  if v <=? 127 then Ok 8 else if v <=? 16383 then Ok 16 else if v <=? 2097151 then Ok 24
  else if v <=? 536870911 then Ok 32 else Err ErrOutOfBounds.
Proof. reflexivity. Qed.
Lemma usize5 : forall v, UnsignedBitSize v 5 =
  if v <=? 127 then Ok 8 else if v <=? 16383 then Ok 16 else if v <=? 2097151 then Ok 24
  else if v <=? 268435455 then Ok 32 else if v <=? 68719476735 then Ok 40 else Err ErrOutOfBounds.
Proof. reflexivity. Qed.
Lemma usize8 : forall v, UnsignedBitSize v 8 =
  if v <=? 127 then Ok 8 else if v <=? 16383 then Ok 16 else if v <=? 2097151 then Ok 24
  else if v <=? 268435455 then Ok 32 else if v <=? 34359738367 then Ok 40
  else if v <=? 4398046511103 then Ok 48 else if v <=? 562949953421311 then Ok 56
  else if v <=? 144115188075855871 then Ok 64 else Err ErrOutOfBounds.
Proof. reflexivity. Qed.
Lemma usize9 : forall v, UnsignedBitSize v 9 =
  if v <=? 127 then Ok 8 else if v <=? 16383 then Ok 16 else if v <=? 2097151 then Ok 24
  else if v <=? 268435455 then Ok 32 else if v <=? 34359738367 then Ok 40
  else if v <=? 4398046511103 then Ok 48 else if v <=? 562949953421311 then Ok 56
  else if v <=? 72057594037927935 then Ok 64 else if v <=? 18446744073709551615 then Ok 72
  else Err ErrOutOfBounds.
Proof. reflexivity. Qed.

Definition ssize4 (a : Z) : outcome Z :=
  if a <=? 63 then Ok 8 else if a <=? 8191 then Ok 16 else if a <=? 1048575 then Ok 24
  else if a <=? 268435455 then Ok 32 else Err ErrOutOfBounds.
Definition ssize8 (a : Z) : outcome Z :=
  if a <=? 63 then Ok 8 else if a <=? 8191 then Ok 16 else if a <=? 1048575 then Ok 24
  else if a <=? 134217727 then Ok 32 else if a <=? 17179869183 then Ok 40
  else if a <=? 2199023255551 then Ok 48 else if a <=? 281474976710655 then Ok 56
  else if a <=? 72057594037927935 then Ok 64 else Err ErrOutOfBounds.
Definition ssize9 (a : Z) : outcome Z :=
  if a <=? 63 then Ok 8 else if a <=? 8191 then Ok 16 else if a <=? 1048575 then Ok 24
  else if a <=? 134217727 then Ok 32 else if a <=? 17179869183 then Ok 40
  else if a <=? 2199023255551 then Ok 48 else if a <=? 281474976710655 then Ok 56
  else if a <=? 36028797018963967 then Ok 64 else if a <=? 9223372036854775807 then Ok 72
  else Err ErrOutOfBounds.

Lemma ssize4_eq : forall v, in_s 64 v -> v <> MinInt64 -> SignedBitSize v 4 = ssize4 (Z.abs v).
Proof. intros v H1 H2. rewrite SignedBitSize_abs by assumption. reflexivity. Qed.
Lemma ssize8_eq : forall v, in_s 64 v -> v <> MinInt64 -> SignedBitSize v 8 = ssize8 (Z.abs v).
Proof. intros v H1 H2. rewrite SignedBitSize_abs by assumption. reflexivity. Qed.
Lemma ssize9_eq : forall v, in_s 64 v -> v <> MinInt64 -> SignedBitSize v 9 = ssize9 (Z.abs v).
Proof. intros v H1 H2. rewrite SignedBitSize_abs by assumption. reflexivity. Qed.

(** ** Lengths of encodings *)

Lemma ulen : forall v m s, 0 <= v < 2 ^ 64 -> limit m -> UnsignedBitSize v m = Ok s ->
  Z.of_nat (length (output (writeVarUint v m))) = s.
Proof.
  intros v m s Hv Hm Hs. pose proof (unsigned_size_exact v m Hv Hm) as H. rewrite Hs in H.
  destruct H as (bs & H1 & H2). now rewrite (output_eq _ bs H1).
Qed.

Lemma slen : forall v m s, in_s 64 v -> limit m -> SignedBitSize v m = Ok s ->
  Z.of_nat (length (output (writeVarInt v m))) = s.
Proof.
  intros v m s Hv Hm Hs. pose proof (signed_size_exact v m Hv Hm) as H. rewrite Hs in H.
  destruct H as (bs & H1 & H2). now rewrite (output_eq _ bs H1).
Qed.

Lemma output_bind : forall m1 (f : unit -> writer unit) b1 b2, encodes m1 b1 -> encodes (f tt) b2 ->
  output (wbind m1 f) = b1 ++ b2.
Proof. intros. apply output_eq. now apply encodes_bind. Qed.

Lemma varsize_len : forall v, 0 <= v <= MaxVarsize -> exists bs s, encodes (WriteVarsize v) bs /\
  UnsignedBitSize v 5 = Ok s /\ Z.of_nat (length bs) = s.
Proof.
  intros v Hv. unfold MaxVarsize in Hv. unfold WriteVarsize, MaxVarsize.
  replace (2 ^ 31 - 1 <? v) with false by lia.
  pose proof (unsigned_size_exact v 5 ltac:(lia) ltac:(unfold limit; lia)) as H.
  assert (exists s, UnsignedBitSize v 5 = Ok s) as [s Hs].
  { rewrite usize5. change (2 ^ 31 - 1) with 2147483647 in Hv.
    destruct (v <=? 127); [eauto|]. destruct (v <=? 16383); [eauto|]. destruct (v <=? 2097151); [eauto|].
    destruct (v <=? 268435455); [eauto|]. destruct (v <=? 68719476735) eqn:E; [eauto|lia]. }
  rewrite Hs in H. destruct H as (bs & H1 & H2). exists bs, s. auto.
Qed.

(** ** The size function of each element type against the bits it writes *)

Definition exact_size (b : builtin) (v : elt b) : Prop :=
  t_size (traits_of b) v = Ok (Z.of_nat (length (output (t_write (traits_of b) v)))).

(** Where the prediction is right. *)
Definition size_right (b : builtin) : elt b -> Prop :=
  match b as b return elt b -> Prop with
  | BVarint => fun v => Z.abs v < 2 ^ 55 \/ v = - 2 ^ 63
  | BVaruint => fun v => v < 2 ^ 56
  | BVaruint16 => fun v => v < 2 ^ 14
  | BString => fun s => let n := Z.of_nat (length s) in
      n < 2 ^ 6 \/ 2 ^ 7 <= n < 2 ^ 13 \/ 2 ^ 14 <= n < 2 ^ 20 \/ 2 ^ 21 <= n < 2 ^ 28
  | BBytes | BExtern => fun _ => False
  | _ => fun _ => True
  end.

Ltac split_ifs :=
  repeat match goal with
  | |- context [if ?a <=? ?b then _ else _] => let E := fresh "E" in destruct (a <=? b) eqn:E
  | H : context [if ?a <=? ?b then _ else _] |- _ => let E := fresh "E" in destruct (a <=? b) eqn:E
  end.

Lemma ok_eq : forall a b : Z, Ok a = Ok b <-> a = b.
Proof. intros a b. split; [intros H; now injection H|now intros ->]. Qed.

Lemma usize_exact_same : forall v m, 0 <= v < 2 ^ 64 -> limit m -> (exists s, UnsignedBitSize v m = Ok s) ->
  size_or_0 (UnsignedBitSize v m) = Ok (Z.of_nat (length (output (writeVarUint v m)))).
Proof. intros v m Hv Hm [s Hs]. rewrite (ulen v m s Hv Hm Hs), Hs. reflexivity. Qed.

Lemma ssize_exact_same : forall v m, in_s 64 v -> limit m -> (exists s, SignedBitSize v m = Ok s) ->
  size_or_0 (SignedBitSize v m) = Ok (Z.of_nat (length (output (writeVarInt v m)))).
Proof. intros v m Hv Hm [s Hs]. rewrite (slen v m s Hv Hm Hs), Hs. reflexivity. Qed.

Lemma unsigned_fits : forall v m, 0 <= v < 2 ^ ucap m m -> limit m -> exists s, UnsignedBitSize v m = Ok s.
Proof.
  intros v m Hv Hm. pose proof (UnsignedBitSize_spec v m ltac:(lia) Hm) as Sp.
  destruct (UnsignedBitSize v m) as [s|e| |]; cbn [usize_spec] in Sp; try contradiction; eauto.
  destruct Sp as [_ Hbig]. lia.
Qed.

Lemma signed_fits : forall v m, in_s 64 v -> v <> MinInt64 -> Z.abs v < 2 ^ scap m m -> limit m ->
  exists s, SignedBitSize v m = Ok s.
Proof.
  intros v m H1 H2 Hv Hm. pose proof (SignedBitSize_spec v m H1 H2 Hm) as Sp.
  destruct (SignedBitSize v m) as [s|e| |]; cbn [ssize_spec] in Sp; try contradiction; eauto.
  destruct Sp as [_ Hbig]. lia.
Qed.

Lemma float_len : forall k v, length (output (write_bytes (be_bytes k v))) = (8 * k)%nat.
Proof.
  intros k v. rewrite (output_eq _ (bytes_bits (be_bytes k v))) by apply encodes_put.
  now rewrite bytes_bits_length, be_bytes_length.
Qed.

Lemma varint_size_right : forall v, in_s 64 v -> (exact_size BVarint v <-> size_right BVarint v).
Proof.
  intros v Hv. unfold exact_size, size_right. cbn [elt traits_of t_size t_write VarIntArrayTraits].
  destruct (Z.eq_dec v MinInt64) as [->|Hne].
  - rewrite SignedBitSize_min by lia. unfold WriteVarint. change (MinInt64 =? MinInt64) with true. cbv iota.
    split; [now right|]. intros _. reflexivity.
  - unfold WriteVarint. replace (v =? MinInt64) with false by lia.
    assert (Hr : - 2 ^ 63 <= v < 2 ^ 63) by exact Hv. unfold MinInt64 in Hne.
    destruct (signed_fits v 9) as [s Hs]; [exact Hv|exact Hne|change (2 ^ scap 9 9) with (2 ^ 63); lia|unfold limit; lia|].
    rewrite (slen v 9 s Hv ltac:(unfold limit; lia) Hs). rewrite ssize9_eq in Hs by assumption.
    rewrite ssize8_eq by assumption. unfold ssize8, ssize9 in *.
    change (2 ^ 55) with 36028797018963968. change (2 ^ 63) with 9223372036854775808 in *.
    split_ifs; cbn [size_or_0]; rewrite ok_eq; try (injection Hs as Hs); lia.
Qed.

Lemma varuint_size_right : forall v, in_u 64 v -> (exact_size BVaruint v <-> size_right BVaruint v).
Proof.
  intros v Hv. unfold exact_size, size_right. cbn [elt traits_of t_size t_write VarUIntArrayTraits].
  unfold in_u in Hv. unfold WriteVaruint.
  destruct (unsigned_fits v 9) as [s Hs]; [exact Hv|unfold limit; lia|].
  rewrite (ulen v 9 s Hv ltac:(unfold limit; lia) Hs). rewrite usize9 in Hs. rewrite usize8.
  change (2 ^ 56) with 72057594037927936. change (2 ^ 64) with 18446744073709551616 in Hv.
  split_ifs; cbn [size_or_0]; rewrite ok_eq; try (injection Hs as Hs); lia.
Qed.

Lemma varuint16_size_right : forall v, 0 <= v <= MaxVaruint16 -> (exact_size BVaruint16 v <-> size_right BVaruint16 v).
Proof.
  intros v Hv. unfold exact_size, size_right. cbn [elt traits_of t_size t_write VarUInt16ArrayTraits].
  unfold MaxVaruint16 in Hv. unfold WriteVaruint16. change (2 ^ 15 - 1) with 32767 in Hv.
  destruct (unsigned_fits v 2) as [s Hs]; [change (2 ^ ucap 2 2) with 32768; lia|unfold limit; lia|].
  rewrite (ulen v 2 s ltac:(lia) ltac:(unfold limit; lia) Hs). rewrite usize2 in Hs. rewrite usize4.
  change (2 ^ 14) with 16384.
  split_ifs; cbn [size_or_0]; rewrite ok_eq; try (injection Hs as Hs); try discriminate; lia.
Qed.

Lemma string_size_right : forall s, byte_string s -> (exact_size BString s <-> size_right BString s).
Proof.
  intros s [Hb Hl]. unfold exact_size, size_right. cbn [elt traits_of t_size t_write StringArrayTraits].
  set (n := Z.of_nat (length s)) in *. assert (0 <= n) by lia.
  destruct (varsize_len n ltac:(lia)) as (hd & h & He & Hh & Hhl).
  unfold WriteString. fold n. rewrite (output_bind _ _ hd (bytes_bits s) He (encodes_put _)).
  rewrite app_length, bytes_bits_length. rewrite Nat2Z.inj_add, Hhl.
  replace (Z.of_nat (8 * length s)) with (n * 8) by (unfold n; lia).
  unfold MaxVarsize in Hl. change (2 ^ 31 - 1) with 2147483647 in Hl.
  rewrite ssize4_eq by (unfold in_s, MinInt64; change (2 ^ (64 - 1)) with (2 ^ 63); lia).
  rewrite Z.abs_eq by lia. rewrite usize5 in Hh. unfold ssize4.
  change (2 ^ 6) with 64. change (2 ^ 7) with 128. change (2 ^ 13) with 8192. change (2 ^ 14) with 16384.
  change (2 ^ 20) with 1048576. change (2 ^ 21) with 2097152. change (2 ^ 28) with 268435456.
  clearbody n. split_ifs; rewrite ok_eq; try (injection Hh as Hh); try discriminate; lia.
Qed.

Lemma extern_len : forall n buf, 0 <= n <= MaxVarsize -> Z.of_nat (length buf) = (n + 7) / 8 ->
  exists bs h, encodes (WriteExtern n buf) bs /\ 8 <= h /\ Z.of_nat (length bs) = h + n.
Proof.
  intros n buf Hn Hlen. destruct (varsize_len n Hn) as (hd & h & He & Hh & Hhl).
  assert (Hh8 : 8 <= h).
  { rewrite usize5 in Hh. split_ifs; try (injection Hh as Hh); try discriminate; lia. }
  pose proof (Z.div_mod n 8 ltac:(lia)) as Dm. pose proof (Z.mod_pos_bound n 8 ltac:(lia)) as Mb.
  assert (Hfull : n / 8 <= Z.of_nat (length buf)) by (rewrite Hlen; apply Z.div_le_mono; lia).
  assert (Hf : Z.of_nat (length (bytes_bits (firstn (Z.to_nat (n / 8)) buf))) = 8 * (n / 8)).
  { rewrite bytes_bits_length, firstn_length_le by lia. lia. }
  destruct (Z.eq_dec (n mod 8) 0) as [Z0|Z0].
  - exists (hd ++ bytes_bits (firstn (Z.to_nat (n / 8)) buf) ++ []), h. split; [|split; [exact Hh8|]].
    + unfold WriteExtern. apply encodes_bind; [exact He|]. cbv beta zeta.
      replace (Z.of_nat (length buf) <? n / 8) with false by lia.
      apply encodes_bind; [apply encodes_put|]. replace (n mod 8 =? 0) with true by lia. apply encodes_ret.
    + rewrite !app_length, !Nat2Z.inj_add, Hf. cbn [length]. lia.
  - assert (Hne : buf <> []).
    { intros ->. cbn [length] in Hlen. assert (1 <= (n + 7) / 8); [|lia].
      change 1 with (8 / 8). apply Z.div_le_mono; lia. }
    exists (hd ++ bytes_bits (firstn (Z.to_nat (n / 8)) buf) ++
      bits_of (Z.to_nat (n mod 8)) (Z.shiftr (last buf 0) (8 - n mod 8))), h. split; [|split; [exact Hh8|]].
    + unfold WriteExtern. apply encodes_bind; [exact He|]. cbv beta zeta.
      replace (Z.of_nat (length buf) <? n / 8) with false by lia.
      apply encodes_bind; [apply encodes_put|]. replace (n mod 8 =? 0) with false by lia.
      destruct (exists_last Hne) as (full & lb & ->).
      rewrite rev_app_distr, last_last. cbn [rev app]. apply encodes_put.
    + rewrite !app_length, !Nat2Z.inj_add, Hf, bits_of_length. lia.
Qed.

Lemma builtin_size_right : forall b v, wf_builtin b -> in_range b v -> (exact_size b v <-> size_right b v).
Proof.
  intros b v Hb Hv.
  destruct b as [| | | | | | | | | | | | | | | |g n|g n]; cbn [in_range elt wf_builtin] in *.
  - now apply varint_size_right.
  - unfold exact_size, size_right. cbn [elt traits_of t_size t_write VarInt16ArrayTraits]. split; [trivial|intros _].
    unfold MaxVarint16 in Hv. assert (in_s 64 v) by (unfold in_s; change (2 ^ (64 - 1)) with (2 ^ 63); lia).
    apply ssize_exact_same; [assumption|unfold limit; lia|].
    apply signed_fits; [assumption|unfold MinInt64; lia|change (2 ^ scap 2 2) with (2 ^ 14); lia|unfold limit; lia].
  - unfold exact_size, size_right. cbn [elt traits_of t_size t_write VarInt32ArrayTraits]. split; [trivial|intros _].
    unfold MaxVarint32 in Hv. assert (in_s 64 v) by (unfold in_s; change (2 ^ (64 - 1)) with (2 ^ 63); lia).
    apply ssize_exact_same; [assumption|unfold limit; lia|].
    apply signed_fits; [assumption|unfold MinInt64; lia|change (2 ^ scap 4 4) with (2 ^ 28); lia|unfold limit; lia].
  - unfold exact_size, size_right. cbn [elt traits_of t_size t_write VarInt64ArrayTraits]. split; [trivial|intros _].
    unfold MaxVarint64 in Hv. assert (in_s 64 v) by (unfold in_s; change (2 ^ (64 - 1)) with (2 ^ 63); lia).
    apply ssize_exact_same; [assumption|unfold limit; lia|].
    apply signed_fits; [assumption|unfold MinInt64; lia|change (2 ^ scap 8 8) with (2 ^ 56); lia|unfold limit; lia].
  - now apply varuint_size_right.
  - now apply varuint16_size_right.
  - unfold exact_size, size_right. cbn [elt traits_of t_size t_write VarUInt32ArrayTraits]. split; [trivial|intros _].
    unfold MaxVaruint32 in Hv. apply usize_exact_same; [lia|unfold limit; lia|].
    apply unsigned_fits; [change (2 ^ ucap 4 4) with (2 ^ 29); lia|unfold limit; lia].
  - unfold exact_size, size_right. cbn [elt traits_of t_size t_write VarUInt64ArrayTraits]. split; [trivial|intros _].
    unfold MaxVaruint64 in Hv. apply usize_exact_same; [lia|unfold limit; lia|].
    apply unsigned_fits; [change (2 ^ ucap 8 8) with (2 ^ 57); lia|unfold limit; lia].
  - unfold exact_size, size_right. cbn [elt traits_of t_size t_write VarSizeArrayTraits]. split; [trivial|intros _].
    destruct (varsize_len v Hv) as (bs & s & H1 & H2 & H3). rewrite (output_eq _ bs H1), H2, H3. reflexivity.
  - split; [exact (fun _ => I)|intros _]. unfold exact_size. cbn [traits_of t_size t_write BooleanArrayTraits].
    rewrite (output_eq _ [v]) by apply encodes_put. reflexivity.
  - now apply string_size_right.
  - split; [exact (fun _ => I)|intros _]. unfold exact_size. cbn [traits_of t_size t_write Float16ArrayTraits].
    unfold WriteFloat16. now rewrite float_len.
  - split; [exact (fun _ => I)|intros _]. unfold exact_size. cbn [traits_of t_size t_write Float32ArrayTraits].
    unfold WriteFloat32. now rewrite float_len.
  - split; [exact (fun _ => I)|intros _]. unfold exact_size. cbn [traits_of t_size t_write Float64ArrayTraits].
    unfold WriteFloat64. now rewrite float_len.
  - destruct Hv as ([n buf] & -> & [Hbs Hlen] & Hn). cbn [fst snd] in *.
    split; [|contradiction]. unfold exact_size. cbn [traits_of t_size t_write BytesArrayTraits].
    destruct (varsize_len n ltac:(lia)) as (hd & h & He & Hh & Hhl).
    unfold WriteBytes. rewrite (output_bind _ _ hd (bytes_bits buf) He (encodes_put _)).
    rewrite app_length, bytes_bits_length, ok_eq. rewrite usize5 in Hh. cbn [size_right].
    assert (8 <= h); [|lia]. split_ifs; try (injection Hh as Hh); try discriminate; lia.
  - destruct Hv as ([n buf] & -> & Hx). split; [|contradiction]. unfold exact_size.
    destruct Hx as (Hn & Hbytes & Hlen & Hpad). cbn [fst snd] in *.
    destruct (extern_len n buf Hn Hlen) as (bs & h & He & Hh & Hl).
    cbn [traits_of t_size t_write BitBufferArrayTraits]. rewrite (output_eq _ _ He), ok_eq, Hl. lia.
  - destruct g as [w|w]; [|contradiction]. destruct Hb as [Hw Hn].
    assert (n <= 64) by (unfold go_width in Hw; lia). split; [exact (fun _ => I)|intros _].
    unfold exact_size. cbn [traits_of t_size t_write BitFieldArrayTraits]. unfold write_bits.
    rewrite (output_eq _ _ (encodes_put _)), bits_of_length. f_equal. lia.
  - destruct g as [w|w]; [contradiction|]. destruct Hb as [Hw Hn].
    assert (n <= 64) by (unfold go_width in Hw; lia). split; [exact (fun _ => I)|intros _].
    unfold exact_size. cbn [traits_of t_size t_write SignedBitFieldArrayTraits]. unfold write_bits.
    rewrite (output_eq _ _ (encodes_put _)), bits_of_length. f_equal. lia.
Qed.

(** ** Predicted size of a delta-packed sequence *)

Lemma bitsize_started : forall {A} (T : traits A) es c, Forall (sized T) es -> d_started c = true ->
  0 <= d_max c ->
  d_bitsize_all T es c = (c, Ok (if d_packed c then Z.of_nat (length es) * delta_cost (d_max c)
                                 else sum (map (size_of T) es))).
Proof.
  intros A T. induction es as [|e es IH]; intros c Hs Hst Hm.
  - cbn. destruct (d_packed c); reflexivity.
  - apply Forall_cons_iff in Hs as [He Hs]. cbn [d_bitsize_all]. unfold d_bitsize. rewrite Hst. cbn [negb].
    unfold delta_cost in *. destruct (d_packed c) eqn:Ep; cbn [negb].
    + destruct (0 <? d_max c) eqn:E; rewrite (IH c Hs Hst Hm), Ep; f_equal; f_equal; cbn [length];
        [replace (d_max c =? 0) with false by lia|replace (d_max c =? 0) with true by lia]; lia.
    + rewrite (size_of_eq T e He), (IH c Hs Hst Hm), Ep. reflexivity.
Qed.

Lemma delta_bitsize_eq : forall {A} (T : traits A) e es,
  Forall (sized T) (e :: es) -> Forall (numbered T) (e :: es) ->
  let sizes := map (size_of T) (e :: es) in let m := width (t_as T e) (map (t_as T) es) in
  delta_bitsize T (e :: es) = Ok (1 + if packs sizes m then packed_size sizes m else plain_size sizes).
Proof.
  intros A T e es Hs Hn sizes m. unfold delta_bitsize.
  pose proof (init_all T e es Hs Hn) as Hi. cbv zeta in Hi. rewrite Hi. set (c := mkD _ _ _ _ _ _ _) in *.
  destruct (finish_packed T e es c Hs Hn Hi) as (P1 & P2 & P3). fold sizes m in P1, P2. rewrite <- P1.
  apply Forall_cons_iff in Hs as [He Hs].
  cbn [d_bitsize_all]. unfold d_bitsize. rewrite P3. cbn [negb].
  rewrite finishInit_started, finishInit_started, finishInit_idem.
  rewrite (size_of_eq T e He).
  destruct (finishInit_fields c) as (F1 & F2 & F3).
  assert (Hm0 : 0 <= d_max (set_started (finishInit c))).
  { cbn [set_started d_max]. rewrite F2. subst c. cbn [d_max]. pose proof (mx_ge (map (t_as T) es) 0 (t_as T e)). lia. }
  rewrite bitsize_started by (assumption || reflexivity).
  cbn [snd]. f_equal. cbn [set_started d_packed d_max] in *. rewrite F2.
  destruct (d_packed (finishInit c)) eqn:Ep; cbv iota.
  - destruct (P2 eq_refl) as [-> _]. unfold packed_size, maxBitNumberBits. fold m. subst sizes.
    cbn [map hd length]. rewrite map_length. lia.
  - unfold plain_size. subst sizes. change (sum (map (size_of T) (e :: es))) with (size_of T e + sum (map (size_of T) es)). lia.
Qed.

Lemma concat_length_sum : forall {X} (enc : X -> list bool) (l : list X),
  Z.of_nat (length (concat (map enc l))) = sum (map (fun x => Z.of_nat (length (enc x))) l).
Proof.
  intros X enc. induction l as [|x l IH]; [reflexivity|]. cbn [map concat].
  rewrite app_length, Nat2Z.inj_add, IH. reflexivity.
Qed.

Lemma sum_const : forall {X} (f : X -> Z) k l, (forall x, f x = k) -> sum (map f l) = Z.of_nat (length l) * k.
Proof.
  intros X f k l H. induction l as [|x l IH]; [reflexivity|]. cbn [map length].
  change (sum (f x :: map f l)) with (f x + sum (map f l)). rewrite IH, H. lia.
Qed.

Lemma delta_cost_nonneg : forall m, 0 <= m -> 0 <= delta_cost m.
Proof. intros m H. unfold delta_cost. destruct (m =? 0); lia. Qed.

Lemma delta_wire_length : forall {A} (T : traits A) (enc : A -> list bool) e es m, 0 <= m ->
  Forall (fun e => size_of T e = Z.of_nat (length (enc e))) (e :: es) ->
  let sizes := map (size_of T) (e :: es) in
  Z.of_nat (length (delta_wire (map enc (e :: es)) sizes (map (t_as T) (e :: es)) m)) =
    1 + if packs sizes m then packed_size sizes m else plain_size sizes.
Proof.
  intros A T enc e es m Hm Hx sizes. unfold delta_wire. destruct (packs sizes m).
  - unfold packed_wire, packed_size. cbn [length]. rewrite !app_length, bits_of_length.
    cbn [map hd]. unfold neighbours. cbn [tl].
    apply Forall_cons_iff in Hx as [Hx _]. subst sizes. cbn [map hd length]. rewrite Hx.
    rewrite Nat2Z.inj_succ, !Nat2Z.inj_add, concat_length_sum.
    rewrite (sum_const _ (delta_cost m)).
    + rewrite combine_length. cbn [length]. rewrite !map_length.
      replace (Nat.min (S (length es)) (length es)) with (length es) by lia. lia.
    + intros x. rewrite bits_of_length, Z2Nat.id; [reflexivity|now apply delta_cost_nonneg].
  - unfold plain_wire, plain_size. cbn [length]. rewrite Nat2Z.inj_succ, concat_length_sum.
    subst sizes. replace (map (fun x => Z.of_nat (length (enc x))) (e :: es)) with (map (size_of T) (e :: es)); [lia|].
    apply map_ext_in. intros a Ha. rewrite Forall_forall in Hx. now apply Hx.
Qed.

(** Exact element sizes make the prediction exact. *)
Theorem delta_size_exact : forall {A} (T : traits A) (enc : A -> list bool) es,
  es <> [] ->
  Forall (fun e => element_ok T (enc e) e) es -> Forall (number_ok T) es ->
  Forall (fun e => t_size T e = Ok (Z.of_nat (length (enc e)))) es ->
  delta_bitsize T es = Ok (Z.of_nat (length (output (delta_marshal T es)))) /\
  Z.of_nat (length (output (delta_marshal T es))) <= 1 + sum (map (fun e => Z.of_nat (length (enc e))) es).
Proof.
  intros A T enc [|e es] Hne He Hn Hx; [congruence|].
  assert (Hs : Forall (sized T) (e :: es)).
  { eapply Forall_impl; [|exact Hx]. intros a Ha. eexists. exact Ha. }
  assert (Hz : Forall (fun e => size_of T e = Z.of_nat (length (enc e))) (e :: es)).
  { eapply Forall_impl; [|exact Hx]. intros a Ha. unfold size_of. now rewrite Ha. }
  rewrite (delta_bitsize_eq T e es Hs (number_ok_numbered _ _ Hn)). cbv zeta.
  rewrite (output_eq _ _ (proj1 (delta_roundtrip T enc e es He Hn Hs))).
  rewrite delta_wire_length by (assumption || apply width_nonneg). split; [reflexivity|].
  replace (map (fun x => Z.of_nat (length (enc x))) (e :: es)) with (map (size_of T) (e :: es)).
  - unfold packs. destruct (_ && _) eqn:E; unfold plain_size in *; lia.
  - apply map_ext_in. intros a Ha. rewrite Forall_forall in Hz. now apply Hz.
Qed.

(** ** The same for the builtin element types *)

Definition wire (b : builtin) (v : elt b) : list bool := output (t_write (traits_of b) v).

Lemma builtin_element : forall b v, wf_builtin b -> in_range b v -> element_ok (traits_of b) (wire b v) v.
Proof.
  exact builtin_roundtrip.
Qed.
