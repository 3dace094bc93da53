(** Facts about the fields of generated types. *)

Require Import ZArith List Bool Lia ZifyBool ZifyNat.
From Verif Require Import Bits BitsFacts Stream Spec PosSpec StreamFacts StreamThms Scalars FixedFacts ScalarFacts ScalarThms
  Traits TraitSpec TraitFacts Delta DeltaSpec DeltaFacts PosFacts Array ArraySpec ArrayFacts Schema SchemaSpec.
Import ListNotations.
Open Scope Z_scope.

(** ** Builtin fields *)

Lemma proj_inj : forall b e, proj b (inj b e) = Some e.
Proof. intros b e. destruct b; reflexivity. Qed.

Lemma go_width_pos : forall w, go_width w -> 8 <= w <= 64.
Proof. intros w H. unfold go_width in H. lia. Qed.

Lemma unsigned_field : forall w n z, go_width w -> 1 <= n <= w -> 0 <= z < 2 ^ n -> 
  u64 z = z /\ to_u w z = z.
Proof.
  intros w n z Hw Hn Hz. apply go_width_pos in Hw. pose proof (pow2_le n w ltac:(lia)). pose proof (pow2_le w 64 ltac:(lia)).
  unfold u64. rewrite !to_u_small; lia.
Qed.
Lemma signed_field : forall w n z, go_width w -> 1 <= n <= w -> - 2 ^ (n - 1) <= z < 2 ^ (n - 1) ->
  i64 z = z /\ to_s w z = z.
Proof.
  intros w n z Hw Hn Hz. apply go_width_pos in Hw. pose proof (pow2_le (n - 1) (w - 1) ltac:(lia)).
  pose proof (pow2_le (w - 1) (64 - 1) ltac:(lia)).
  unfold i64. rewrite !to_s_small; lia.
Qed.

Lemma std_roundtrip : forall b e, wf_builtin b -> in_range b e ->
  exists bs, roundtrips (std_write b e) (std_read b) bs e.
Proof.
  intros b e Hb He. destruct b as [| | | | | | | | | | | | | | | |g n|g n];
    try (eexists; apply (builtin_roundtrip _ e Hb He)).
  - destruct g as [w|w]; [|contradiction]. destruct Hb as [Hw Hn]. cbn [in_range elt] in *.
    destruct (unsigned_field w n e Hw Hn He) as [_ E]. pose proof (go_width_pos w Hw).
    exists (bits_of (Z.to_nat n) e). split.
    + apply (WriteUnsignedBits_ok e n); lia.
    + eapply decodes_map; [apply (ReadUnsignedBits_ok e n); lia|]. cbn [gconv]. now rewrite E.
  - destruct g as [w|w]; [contradiction|]. destruct Hb as [Hw Hn]. cbn [in_range elt] in *.
    destruct (signed_field w n e Hw Hn He) as [_ E]. pose proof (go_width_pos w Hw).
    destruct (signed_roundtrip_mod e n ltac:(lia) He) as [H1 H2].
    eexists. split; [exact H1|]. eapply decodes_map; [exact H2|]. cbn [gconv]. now rewrite E.
Qed.

Lemma basic_roundtrip : forall E E' t v, basic_value E t v -> same_type E E' (TBasic t) ->
  exists bs, roundtrips (write_basic E t v) (read_basic E' t) bs v.
Proof.
  intros E E' t v (b & e & Hb & Hwf & He & ->) Hs. destruct t as [b'|signed g w]; cbn in Hb.
  - injection Hb as <-. destruct (std_roundtrip b' e Hwf He) as (bs & H1 & H2). exists bs. cbn [write_basic read_basic].
    rewrite proj_inj. split; [exact H1|]. eapply decodes_map; [exact H2|reflexivity].
  - cbn in Hs. unfold write_basic, read_basic. rewrite <- Hs. destruct (w E) as [n0|]; [|discriminate].
    set (n := to_u 8 n0) in *. destruct signed; injection Hb as <-; cbn [inj wf_builtin in_range elt] in *.
    + destruct g as [gw|gw]; [contradiction|]. destruct Hwf as [Hw Hn].
      destruct (signed_field gw n e Hw Hn He) as [E1 E2]. rewrite E1. pose proof (go_width_pos gw Hw).
      destruct (signed_roundtrip_mod e n ltac:(lia) He) as [H1 H2].
      eexists. split; [exact H1|]. eapply decodes_map; [exact H2|]. cbn [gconv]. now rewrite E2.
    + destruct g as [gw|gw]; [|contradiction]. destruct Hwf as [Hw Hn].
      destruct (unsigned_field gw n e Hw Hn He) as [E1 E2]. rewrite E1. pose proof (go_width_pos gw Hw).
      exists (bits_of (Z.to_nat n) e). split; [apply (WriteUnsignedBits_ok e n); lia|].
      eapply decodes_map; [apply (ReadUnsignedBits_ok e n); lia|]. cbn [gconv]. now rewrite E2.
Qed.

(** ** Element codecs *)

Lemma codec_ok : forall E t b, has_codec E t -> builtin_of E t = Some b -> codec_of E t = Ok (vtraits b).
Proof.
  intros E t b Hc Hb. destruct t as [b'|signed g w]; cbn in *.
  - now injection Hb as <-.
  - destruct (w E) as [n|]; [|discriminate]. specialize (Hc n eq_refl).
    replace (64 <=? to_u 8 n) with false by lia. destruct signed; injection Hb as <-; reflexivity.
Qed.

Lemma builtin_of_same : forall E E' t, same_type E E' (TBasic t) -> builtin_of E' t = builtin_of E t.
Proof. intros E E' [b|signed g w] H; cbn in *; [reflexivity|]. now rewrite H. Qed.
Lemma codec_of_same : forall E E' t, same_type E E' (TBasic t) -> codec_of E' t = codec_of E t.
Proof. intros E E' [b|signed g w] H; cbn in *; [reflexivity|]. now rewrite H. Qed.

Lemma basic_element : forall E t b v, basic_value E t v -> builtin_of E t = Some b ->
  exists e, v = inj b e /\ wf_builtin b /\ in_range b e.
Proof.
  intros E t b v (b' & e & Hb & Hwf & He & ->) H. rewrite Hb in H. injection H as <-. exists e. auto.
Qed.

(** The bits of an element of an array. *)
Definition enc_of (b : builtin) (v : value) : list bool := output (t_write (vtraits b) v).

Lemma vtraits_ok : forall b e, wf_builtin b -> in_range b e -> element_ok (vtraits b) (enc_of b (inj b e)) (inj b e).
Proof.
  intros b e Hwf He. destruct (builtin_roundtrip b e Hwf He) as [H1 H2].
  unfold enc_of. unfold element_ok, vtraits. cbn [t_write t_read]. rewrite proj_inj. split; [exact H1|].
  eapply decodes_map; [exact H2|reflexivity].
Qed.
Lemma vtraits_number : forall b e, wf_builtin b -> integer_like b -> in_range b e -> number_ok (vtraits b) (inj b e).
Proof.
  intros b e Hwf Hi He. destruct (builtin_number b e Hwf Hi He) as [H1 H2].
  unfold number_ok, vtraits. cbn [t_as t_from]. rewrite proj_inj. split; [exact H1|]. now rewrite H2.
Qed.
Lemma vtraits_sized : forall b e, in_range b e -> sized (vtraits b) (inj b e).
Proof.
  intros b e He. destruct (builtin_sized b e He) as [s H]. exists s. unfold vtraits. cbn [t_size]. now rewrite proj_inj.
Qed.

Lemma packable_integral : forall E t b, packable t = true -> builtin_of E t = Some b -> integer_like b.
Proof.
  intros E [b'|signed g w] b Hp Hb; cbn in *.
  - injection Hb as <-. destruct b'; try discriminate; exact I.
  - destruct (w E); [|discriminate]. destruct signed; injection Hb as <-; exact I.
Qed.

(** ** Arrays of builtin types *)

Lemma config_ok : forall E E' f len packed pk n, agree f E E' -> f_array f = Some (len, packed) ->
  array_length E len n ->
  exists cfg, array_config E len pk = Some cfg /\ array_config E' len pk = Some cfg /\
    a_packed cfg = pk /\ a_check cfg = false /\ holds cfg n /\
    (negb (a_auto cfg) && negb (a_fixed cfg =? Z.of_nat n) = false).
Proof.
  intros E E' f len packed pk n (_ & _ & Ha) Hf Hl. rewrite Hf in Ha. unfold array_config, array_length, holds in *.
  destruct len as [l|].
  - rewrite <- Ha. destruct Hl as (m & -> & Hm). eexists. split; [reflexivity|]. split; [reflexivity|].
    cbn [a_packed a_auto a_fixed a_check negb andb]. repeat split; try assumption; lia.
  - eexists. split; [reflexivity|]. split; [reflexivity|]. repeat split. exact Hl.
Qed.

Lemma basic_array_roundtrip : forall M M' E E' f t len packed pk es, agree f E E' ->
  f_array f = Some (len, packed) -> f_type f = TBasic t -> array_length E len (length es) ->
  has_codec E t -> builtin_of E t <> None -> Forall (basic_value E t) es -> (pk = true -> integral E t) ->
  exists cfg encs, array_config E len pk = Some cfg /\
  roundtrips_at (write_field_array M E f len pk es) (read_field_array M' E' f len pk) (array_bits cfg (map pfix encs)) es.
Proof.
  intros M M' E E' f t len packed pk es Ha Hf Ht Hl Hc Hb Hes Hpk.
  destruct (config_ok E E' f len packed pk _ Ha Hf Hl) as (cfg & C1 & C2 & Cp & _ & Ch & Cl).
  exists cfg. unfold write_field_array, read_field_array. rewrite C1, C2, Ht, Cl.
  pose proof (proj1 (proj2 Ha)) as Hs. rewrite Ht in Hs. rewrite (codec_of_same E E' t Hs).
  destruct (builtin_of E t) as [b|] eqn:Eb; [|congruence]. rewrite (codec_ok E t b Hc Eb).
  assert (Hel : Forall (fun v => element_ok (vtraits b) (enc_of b v) v) es).
  { eapply Forall_impl; [|exact Hes]. intros v Hv. destruct (basic_element E t b v Hv Eb) as (e & -> & H1 & H2).
    now apply vtraits_ok. }
  destruct pk.
  - assert (Hnum : Forall (number_ok (vtraits b)) es).
    { eapply Forall_impl; [|exact Hes]. intros v Hv. destruct (basic_element E t b v Hv Eb) as (e & -> & H1 & H2).
      apply vtraits_number; auto. now apply Hpk. }
    assert (Hsz : Forall (sized (vtraits b)) es).
    { eapply Forall_impl; [|exact Hes]. intros v Hv. destruct (basic_element E t b v Hv Eb) as (e & -> & H1 & H2).
      now apply vtraits_sized. }
    destruct es as [|v0 es0].
    { exists []. split; [reflexivity|]. now apply array_empty. }
    destruct (packed_trait_array (vtraits b) (enc_of b) cfg (v0 :: es0) _ Cp Ch
      (width_delta_width _ _) Hel (number_ok_numbered _ _ Hnum) Hsz) as (encs & _ & Hrt & _).
    exists encs. split; [reflexivity|].
    assert (Ear : forall m, arrives (vtraits b) (v0 :: es0) m = v0 :: es0).
    { intros m. cbn [arrives]. destruct (packs _ m); [|reflexivity]. f_equal. apply Forall_cons_iff in Hnum as [_ Hn].
      clear - Hn. induction Hn as [|x l [_ Hx] _ IH]; [reflexivity|]. cbn [map]. now rewrite Hx, IH. }
    rewrite Ear in Hrt. exact Hrt.
  - exists (map (enc_of b) es). split; [reflexivity|]. apply plain_array_roundtrip; [assumption|assumption|].
    generalize 0%nat. clear - Hel. induction Hel as [|v l Hv _ IH]; intros i; [exact I|].
    cbn [map elements_ok]. split; [|apply IH]. cbn [trait_ops k_write k_read]. now apply roundtrips_pfix.
Qed.

(** ** Alignment and markers *)

Lemma align_opt_at : forall n, roundtrips_at (walign_opt n) (ralign_opt n) (align_bits n) tt.
Proof.
  intros n. unfold walign_opt, ralign_opt, align_bits. destruct (n =? 0)%nat eqn:En.
  - split; [apply encodes_at_ret|apply decodes_at_ret].
  - split; [apply walign_encodes; lia|apply ralign_decodes; lia].
Qed.

Lemma bool_at : forall b, roundtrips_at (WriteBool b) ReadBool (pfix [b]) b.
Proof. intros b. apply roundtrips_pfix. split; [apply encodes_put|apply decodes_read_bool]. Qed.
