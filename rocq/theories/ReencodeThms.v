(** Encoding decoded objects again: whole byte strings. *)

Require Import ZArith List Bool Lia ZifyBool ZifyNat.
From Verif Require Import Bits BitsFacts Stream StreamFacts Spec PosSpec ScalarTable ScalarThms DecodeRange Marshal StreamSpec StreamThms Schema SchemaSpec
  DecodeSpec DecodeThms ReencodeSpec ReencodeScalars ReencodeFacts ReencodeFollow ReencodeExact.
Import ListNotations.
Open Scope Z_scope.

Lemma reencode_bits : forall S I fuel id ps r r' v w, causal S -> regular S I -> no_packed_arrays S -> I id ps ->
  UnmarshalZserio S fuel id ps r = (r', Ok v) -> wfaults w = [] -> (length (wbits w) <= rpos r)%nat ->
  exists w', MarshalZserio S fuel id ps v w = (w', Ok tt) /\ (length (wbits w') <= rpos r')%nat.
Proof.
  intros S I fuel id ps r r' v w Hc Hr Hp Hi H Hw L.
  assert (U : uses_only (fun _ => True) True (fun _ => True) S) by (repeat split; auto).
  destruct (decode_follows _ _ _ _ S I keeps_behind U Hc Hr Hp fuel id ps Hi _ _ _ H w (conj Hw L)) as (w' & H1 & _ & H2). eauto.
Qed.

Lemma reencode_bytes : forall S I fuel id ps input v, causal S -> regular S I -> no_packed_arrays S -> I id ps ->
  Unmarshal (UnmarshalZserio S fuel id ps) input = Ok v ->
  exists output, Marshal (MarshalZserio S fuel id ps v) = Ok output /\
    Unmarshal (UnmarshalZserio S fuel id ps) output = Ok v /\
    forall input', Unmarshal (UnmarshalZserio S fuel id ps) input' = Ok v -> (length output <= length input')%nat.
Proof.
  intros S I fuel id ps input v Hc Hr Hp Hi H. unfold Unmarshal in *.
  destruct (UnmarshalZserio S fuel id ps (mkR 0 (bytes_bits input))) as [r' o] eqn:E. cbn in H. subst o.
  destruct (decoded_roundtrip S I fuel id ps _ _ v Hc Hr Hp Hi E) as (_ & enc & HE).
  destruct (HE fuel ltac:(lia)) as [He Hd]. specialize (He (mkW [] []) eq_refl) as Hm. cbn in Hm.
  exists (pack (enc 0%nat)). split; [unfold Marshal; now rewrite Hm|]. split.
  - destruct (pack_padded (enc 0%nat)) as (_ & k & Hk & Hb). rewrite Hb, (Hd 0%nat). reflexivity.
  - intros input' H'. destruct (UnmarshalZserio S fuel id ps (mkR 0 (bytes_bits input'))) as [r2 o] eqn:E2. cbn in H'. subst o.
    destruct (reencode_bits S I fuel id ps _ _ v (mkW [] []) Hc Hr Hp Hi E2 eq_refl ltac:(cbn; lia)) as (w' & H1 & H2).
    rewrite Hm in H1. injection H1 as <-. cbn [wbits] in H2.
    destruct (plain_prefix S fuel id ps Hp _ _ _ _ E2) as (c & Hc1 & Hc2 & _).
    rewrite pack_length. assert (length (bytes_bits input') = 8 * length input')%nat by apply bytes_bits_length.
    rewrite Hc1, app_length in H.
    assert (length (enc 0%nat) <= 8 * length input')%nat by lia.
    pose proof (Nat.div_le_mono (length (enc 0%nat) + 7) (8 * length input' + 7) 8 ltac:(lia) ltac:(lia)) as Q.
    replace (8 * length input' + 7)%nat with (7 + length input' * 8)%nat in Q by lia.
    rewrite Nat.div_add in Q by lia. change (7 / 8)%nat with 0%nat in Q. lia.
Qed.

Lemma reencode_exact : forall S I fuel id ps r r' v w, causal S -> regular S I -> no_packed_arrays S -> rigid S -> I id ps ->
  UnmarshalZserio S fuel id ps r = (r', Ok v) -> wfaults w = [] ->
  exists bits, rrem r = bits ++ rrem r' /\ MarshalZserio S fuel id ps v w = (mkW (wbits w ++ bits) [], Ok tt).
Proof.
  intros S I fuel id ps r r' v w Hc Hr Hp (R1 & R2 & R3) Hi H Hw.
  assert (U : uses_only one_encoding False (fun n => n = 0%nat) S).
  { split; [exact R1|]. split; [exact R2|]. intros id' d f Hd Hf. destruct (R3 id' d f Hd Hf) as (A1 & A2 & A3). repeat split; auto. }
  destruct (decode_follows _ _ _ _ S I (keeps_split (rrem r)) U Hc Hr Hp fuel id ps Hi _ _ _ H (mkW [] []) (conj eq_refl eq_refl)) as (w' & H1 & F & Hs).
  destruct (decoded_roundtrip S I fuel id ps _ _ v Hc Hr Hp Hi H) as (_ & enc & HE). destruct (HE fuel ltac:(lia)) as [He _].
  pose proof (decode_follows _ _ _ _ S I (keeps_split (wbits w ++ rrem r)) U Hc Hr Hp fuel id ps Hi _ _ _ H w (conj Hw eq_refl)) as (w2 & H2 & F2 & Hs2).
  exists (wbits w'). split; [now symmetry|]. rewrite H2. destruct w2 as [b2 f2]. cbn in F2, Hs2. subst f2. do 2 f_equal.
  rewrite <- Hs, app_assoc in Hs2. apply app_inv_tail in Hs2. exact Hs2.
Qed.

Lemma scalar_shortest : forall A write read (range : A -> Prop) r r' a, scalar_type A write read range -> read r = (r', Ok a) ->
  exists bits, encodes (write a) bits /\ Z.of_nat (length bits) <= consumed r r'.
Proof.
  intros A write read range r r' a T H. destruct (scalar_roundtrip _ _ _ _ T a (scalar_in_range _ _ _ _ T _ _ _ H)) as (bs & He & _).
  exists bs. split; [exact He|]. pose proof (scalar_no_longer _ _ _ _ T _ _ _ _ H He). unfold consumed. lia.
Qed.
