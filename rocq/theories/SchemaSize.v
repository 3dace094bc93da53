(** Predicted sizes of generated types. *)

Require Import ZArith List Bool Lia ZifyBool ZifyNat.
From Verif Require Import Bits BitsFacts Stream StreamFacts Spec PosSpec Scalars FixedFacts VarFacts ScalarFacts ScalarThms Float16 Marshal StreamSpec StreamThms Traits TraitSpec Delta DeltaSpec DeltaFacts SizeFacts PosFacts
  Array ArraySpec ArrayFacts ArrayThms Schema SchemaSpec SchemaFacts SchemaPlain SchemaPacked SchemaObjects SchemaThms.
Import ListNotations.
Open Scope Z_scope.

(** ** Where the prediction is right *)

(** Builtin fields other than extern and bytes, bit fields of less than 256 bits. *)
Definition measurable_basic (E : env) (t : basic) : Prop :=
  match t with
  | Std BExtern | Std BBytes => False
  | Std _ => True
  | Bits _ _ w => forall n, w E = Some n -> 0 <= n < 256
  end.

(** No arrays but unpacked arrays of objects, with a length whose size is right. *)
Definition measurable_content (ok : nat -> list value -> value -> Prop) (E : env) (f : field) (v : value) : Prop :=
  match f_array f with
  | None =>
      match f_type f with
      | TBasic t => measurable_basic E t
      | TRef id args => forall ps, args E 0%nat = Some ps -> ok id ps v
      end
  | Some (len, packed) =>
      match f_type f with
      | TBasic _ => False
      | TRef id args => packed = false /\ forall es, v = VArr es ->
          (len = None -> length_size_right (mkA true false 0 false false) (length es)) /\
          forall i e ps, nth_error es i = Some e -> args E i = Some ps -> ok id ps e
      end
  end.

Fixpoint measurable (S : schema) (n : nat) (id : nat) (ps : list value) (v : value) : Prop :=
  match n with
  | O => False
  | Datatypes.S n' =>
      match nth_error S id, v with
      | Some (DScalar t), _ => measurable_basic (mkE [] []) t
      | Some d, VRec _ slots =>
          forall i f x, nth_error (fields_of d) i = Some f -> nth_slot i slots = Some x ->
            measurable_content (measurable S n') (mkE ps slots) f x
      | _, _ => False
      end
  end.

(** ** Proofs *)

Lemma encodes_unique : forall m e1 e2, encodes_at m e1 -> encodes_at m e2 -> forall p, e1 p = e2 p.
Proof.
  intros m e1 e2 H1 H2 p. specialize (H1 (mkW (repeat false p) []) eq_refl). specialize (H2 (mkW (repeat false p) []) eq_refl).
  rewrite H1 in H2. injection H2 as H2. cbn [wbits] in H2. rewrite repeat_length in H2. now apply app_inv_head in H2.
Qed.

Lemma encodes_length : forall m bs, encodes m bs -> length (output m) = length bs.
Proof. intros m bs H. now rewrite (encodes_output m bs H). Qed.

Lemma std_size_right : forall b e bs, measurable_basic (mkE [] []) (Std b) -> wf_builtin b -> in_range b e ->
  encodes (std_write b e) bs -> std_size b e = Ok (Z.of_nat (length bs)).
Proof.
  intros b e bs Hm Hb He Hw. rewrite <- (encodes_length _ _ Hw). clear bs Hw.
  destruct b as [| | | | | | | | | | | | | | | |g n|g n]; cbn [in_range elt wf_builtin measurable_basic] in *; try contradiction;
    cbn [std_size std_write traits_of t_write].
  - destruct (Z.eq_dec e MinInt64) as [->|Hne].
    + unfold VarIntArrayTraits. cbn [t_write]. rewrite SignedBitSize_min by lia. reflexivity.
    + cbn [VarIntArrayTraits t_write]. unfold WriteVarint. replace (e =? MinInt64) with false by lia.
      destruct (signed_fits e 9) as [s Hs]; [exact He|exact Hne| |unfold limit; lia|].
      { change (2 ^ scap 9 9) with (2 ^ 63). unfold in_s in He. unfold MinInt64 in Hne. change (2 ^ (64 - 1)) with (2 ^ 63) in He. lia. }
      now rewrite (slen e 9 s He ltac:(unfold limit; lia) Hs), Hs.
  - unfold MaxVarint16 in He. assert (H64 : in_s 64 e) by (unfold in_s; change (2 ^ (64 - 1)) with (2 ^ 63); lia).
    destruct (signed_fits e 2) as [s Hs]; [exact H64|unfold MinInt64; lia|change (2 ^ scap 2 2) with (2 ^ 14); lia|unfold limit; lia|].
    cbn [VarInt16ArrayTraits t_write]. unfold WriteVarint16. now rewrite (slen e 2 s H64 ltac:(unfold limit; lia) Hs), Hs.
  - unfold MaxVarint32 in He. assert (H64 : in_s 64 e) by (unfold in_s; change (2 ^ (64 - 1)) with (2 ^ 63); lia).
    destruct (signed_fits e 4) as [s Hs]; [exact H64|unfold MinInt64; lia|change (2 ^ scap 4 4) with (2 ^ 28); lia|unfold limit; lia|].
    cbn [VarInt32ArrayTraits t_write]. unfold WriteVarint32. now rewrite (slen e 4 s H64 ltac:(unfold limit; lia) Hs), Hs.
  - unfold MaxVarint64 in He. assert (H64 : in_s 64 e) by (unfold in_s; change (2 ^ (64 - 1)) with (2 ^ 63); lia).
    destruct (signed_fits e 8) as [s Hs]; [exact H64|unfold MinInt64; lia|change (2 ^ scap 8 8) with (2 ^ 56); lia|unfold limit; lia|].
    cbn [VarInt64ArrayTraits t_write]. unfold WriteVarint64. now rewrite (slen e 8 s H64 ltac:(unfold limit; lia) Hs), Hs.
  - unfold in_u in He. destruct (unsigned_fits e 9) as [s Hs]; [change (2 ^ ucap 9 9) with (2 ^ 64); lia|unfold limit; lia|].
    cbn [VarUIntArrayTraits t_write]. unfold WriteVaruint. now rewrite (ulen e 9 s He ltac:(unfold limit; lia) Hs), Hs.
  - unfold MaxVaruint16 in He. destruct (unsigned_fits e 2) as [s Hs]; [change (2 ^ ucap 2 2) with (2 ^ 15); lia|unfold limit; lia|].
    cbn [VarUInt16ArrayTraits t_write]. unfold WriteVaruint16. now rewrite (ulen e 2 s ltac:(lia) ltac:(unfold limit; lia) Hs), Hs.
  - unfold MaxVaruint32 in He. destruct (unsigned_fits e 4) as [s Hs]; [change (2 ^ ucap 4 4) with (2 ^ 29); lia|unfold limit; lia|].
    cbn [VarUInt32ArrayTraits t_write]. unfold WriteVaruint32. now rewrite (ulen e 4 s ltac:(lia) ltac:(unfold limit; lia) Hs), Hs.
  - unfold MaxVaruint64 in He. destruct (unsigned_fits e 8) as [s Hs]; [change (2 ^ ucap 8 8) with (2 ^ 57); lia|unfold limit; lia|].
    cbn [VarUInt64ArrayTraits t_write]. unfold WriteVaruint64. now rewrite (ulen e 8 s ltac:(lia) ltac:(unfold limit; lia) Hs), Hs.
  - destruct (varsize_len e He) as (bs & s & H1 & H2 & H3). cbn [VarSizeArrayTraits t_write].
    now rewrite (encodes_output _ bs H1), H2, H3.
  - cbn [BooleanArrayTraits t_write]. rewrite (encodes_output _ [e]) by apply encodes_put. reflexivity.
  - destruct He as [Hbs Hl]. destruct (varsize_len (Z.of_nat (length e)) ltac:(lia)) as (hd & h & H1 & H2 & H3).
    cbn [StringArrayTraits t_write]. unfold BitSizeOfString, WriteString. rewrite H2.
    rewrite (output_bind _ _ hd (bytes_bits e) H1 (encodes_put _)). rewrite app_length, bytes_bits_length. f_equal. lia.
  - cbn [Float16ArrayTraits t_write]. unfold WriteFloat16. now rewrite float_len.
  - cbn [Float32ArrayTraits t_write]. unfold WriteFloat32. now rewrite float_len.
  - cbn [Float64ArrayTraits t_write]. unfold WriteFloat64. now rewrite float_len.
  - destruct g as [w|w]; [|contradiction]. destruct Hb as [Hw Hn]. pose proof (go_width_pos w Hw).
    cbn [std_write]. rewrite (encodes_output _ _ (WriteUnsignedBits_ok e n ltac:(lia) He)), bits_of_length. f_equal. lia.
  - destruct g as [w|w]; [contradiction|]. destruct Hb as [Hw Hn]. pose proof (go_width_pos w Hw).
    cbn [std_write]. rewrite (encodes_output _ _ (WriteSignedBits_ok e n ltac:(lia) He)), bits_of_length. f_equal. lia.
Qed.

Lemma size_basic_right : forall E t v c, basic_value E t v -> measurable_basic E t ->
  encodes_at (write_basic E t v) c -> forall pos, size_basic E t v = Ok (Z.of_nat (length (c pos))).
Proof.
  intros E t v c (b & e & Hb & Hwf & He & ->) Hm Hc pos. destruct t as [b'|signed g w]; cbn [builtin_of] in Hb.
  - injection Hb as <-. cbn [size_basic write_basic] in *. rewrite proj_inj in *.
    destruct (std_roundtrip b' e Hwf He) as (bs & H1 & _).
    rewrite (encodes_unique _ _ _ Hc (encodes_pfix _ _ H1)). now apply std_size_right.
  - cbn [size_basic write_basic] in *. destruct (w E) as [n|] eqn:En; [|discriminate]. specialize (Hm n En).
    assert (Eu : to_u 8 n = n) by (apply to_u_small; change (2 ^ 8) with 256; lia). rewrite Eu in *.
    assert (Ei : i64 n = n) by (unfold i64; apply to_s_small; [lia|change (2 ^ (64 - 1)) with (2 ^ 63); lia]). rewrite Ei. f_equal.
    destruct signed; injection Hb as <-; cbn [inj wf_builtin in_range elt] in *.
    + destruct g as [gw|gw]; [contradiction|]. destruct Hwf as [Hw Hn].
      destruct (signed_field gw n e Hw Hn He) as [E1 _]. rewrite E1 in Hc. pose proof (go_width_pos gw Hw).
      rewrite (encodes_unique _ _ _ Hc (encodes_pfix _ _ (WriteSignedBits_ok e n ltac:(lia) He))). unfold pfix. rewrite bits_of_length. lia.
    + destruct g as [gw|gw]; [|contradiction]. destruct Hwf as [Hw Hn].
      destruct (unsigned_field gw n e Hw Hn He) as [E1 _]. rewrite E1 in Hc. pose proof (go_width_pos gw Hw).
      rewrite (encodes_unique _ _ _ Hc (encodes_pfix _ _ (WriteUnsignedBits_ok e n ltac:(lia) He))). unfold pfix. rewrite bits_of_length. lia.
Qed.

Lemma elements_ok_length : forall {A N} (K : elemops A N) es i encs, elements_ok K i es encs -> length encs = length es.
Proof.
  intros A N K. induction es as [|e es IH]; intros i [|c encs] H; try contradiction; [reflexivity|].
  cbn in H |- *. f_equal. now apply (IH (S i)).
Qed.

Lemma agree_refl : forall f E, agree f E E.
Proof.
  intros f E. unfold agree. split; [reflexivity|]. split.
  - unfold same_type. destruct (f_type f) as [[b|s g w]|id args]; [exact I|reflexivity|intros i; reflexivity].
  - destruct (f_array f) as [[[l|] p]|]; exact I || reflexivity.
Qed.

(** The elements of an array. *)
Definition sizes_ok (S : schema) (n : nat) : Prop :=
  forall id ps v, valid S n false id ps v -> measurable S n id ps v -> forall fuel, (n <= fuel)%nat ->
  forall enc, encodes_at (m_marshal (run S fuel) id ps v) enc ->
  forall pos, m_size (run S fuel) id ps v (Z.of_nat pos) = Ok (Z.of_nat (length (enc pos))).

Lemma elements_sizes : forall S n fuel E id args cfg, causal S -> sizes_ok S n -> (n <= fuel)%nat -> a_set cfg = false -> a_check cfg = false ->
  forall es i,
  (forall j e, nth_error es j = Some e -> exists ps, args E (i + j)%nat = Some ps /\ valid S n false id ps e) ->
  (forall j e ps, nth_error es j = Some e -> args E (i + j)%nat = Some ps -> measurable S n id ps e) ->
  exists encs, elements_ok (object_ops (run S fuel) E id args) i es encs /\
  forall pos, sum_sizes (fun i e p => size_or_0 match args E i with Some ps => m_size (run S fuel) id ps e p | None => Panic end)
    cfg i es (Z.of_nat pos) = Ok (Z.of_nat (pos + length (pconcat (map (aligned cfg) encs) pos))).
Proof.
  intros S n fuel E id args cfg HC HS Hf Hset Hchk. induction es as [|e es IH]; intros i Hv Hm.
  - exists []. split; [exact I|]. intros pos. cbn. now rewrite Nat.add_0_r.
  - destruct (Hv 0%nat e eq_refl) as (ps & Ha & Hok). rewrite Nat.add_0_r in Ha.
    assert (Hme : measurable S n id ps e) by (apply (Hm 0%nat e ps eq_refl); now rewrite Nat.add_0_r).
    destruct (schema_roundtrip S n id ps e HC Hok) as (enc & He). specialize (He fuel Hf).
    destruct (IH (Datatypes.S i)) as (encs & Hes & Hsum).
    { intros j e' Hj. destruct (Hv (Datatypes.S j) e' Hj) as (ps' & Ha' & Hok'). exists ps'. split; [|exact Hok'].
      now replace (Datatypes.S i + j)%nat with (i + Datatypes.S j)%nat by lia. }
    { intros j e' ps' Hj Ha'. apply (Hm (Datatypes.S j) e' ps' Hj).
      now replace (i + Datatypes.S j)%nat with (Datatypes.S i + j)%nat by lia. }
    exists (enc :: encs). split.
    + cbn [elements_ok object_ops k_write k_read]. rewrite Ha. split; [exact He|exact Hes].
    + intros pos. cbn [sum_sizes]. rewrite Hset, Ha. rewrite (HS id ps e Hok Hme fuel Hf enc (proj1 He) pos).
      cbn [size_or_0]. replace (Z.of_nat pos + Z.of_nat (length (enc pos))) with (Z.of_nat (pos + length (enc pos))) by lia.
      rewrite Hsum. cbn [map pconcat]. unfold papp at 1. rewrite app_length. replace (aligned cfg enc) with enc by (unfold aligned; now rewrite Hchk). f_equal. lia.
Qed.

Lemma size_content_right : forall S n fuel E f v c, causal S -> sizes_ok S n -> (n <= fuel)%nat -> 
  valid_content (valid S n) (finite S n) false E f v -> measurable_content (measurable S n) E f v ->
  encodes_at (write_content (run S fuel) E f v) c ->
  forall pos, size_content (run S fuel) E f v (Z.of_nat pos) = Ok (Z.of_nat (length (c pos))).
Proof.
  intros S n fuel E f v c HC HS Hfu Hv Hm Hc pos. unfold valid_content, measurable_content, write_content, size_content in *.
  destruct (f_array f) as [[len packed]|] eqn:Ef.
  - destruct Hv as (es & -> & Hl & Hv). destruct (f_type f) as [t|id args] eqn:Et; [contradiction|].
    destruct Hm as [-> Hm]. specialize (Hm es eq_refl). destruct Hm as [Hr Hm]. destruct Hv as [Hv _]. cbn [orb] in Hv.
    unfold write_field_array, size_field_array in *. rewrite Et in *.
    assert (Ha : arguments_ok E args (length es) = true).
    { apply arguments_ok_true. intros i e Hi. destruct (Hv i e Hi) as (ps & H & _). now exists ps. }
    rewrite Ha in *.
    destruct (config_ok E E f len false false _ (agree_refl f E) Ef Hl)
      as (cfg & C1 & _ & Cp & Cc & Ch & Cl).
    assert (Hset : a_set cfg = false).
    { unfold array_config in C1. destruct len as [l|]; [destruct (l E); [|discriminate]|]; injection C1 as <-; reflexivity. }
    assert (Hright : length_size_right cfg (length es)).
    { unfold array_config in C1. destruct len as [l|].
      - destruct (l E); [|discriminate]. injection C1 as <-. intros H. discriminate.
      - injection C1 as <-. intros _. exact (Hr eq_refl eq_refl). }
    rewrite C1 in *. rewrite Cl in Hc.
    destruct (elements_sizes S n fuel E id args cfg HC HS Hfu Hset Cc es 0 Hv Hm) as (encs & He & Hsum).
    pose proof (plain_array_roundtrip _ cfg es encs Cp Ch He) as [Hw _].
    rewrite (encodes_unique _ _ _ Hc Hw). unfold object_array_bitsize.
    assert (Hn : a_auto cfg = true -> Z.of_nat (length es) <= MaxVarsize).
    { intros Hauto. unfold holds in Ch. rewrite Hauto in Ch. exact Ch. }
    pose proof (length_size_spec cfg (length es) Hn) as Hs. cbn zeta in Hs.
    destruct (length_size cfg (length es)) as [d| | |]; try contradiction.
    destruct Hs as (_ & Hd & _). apply Hd in Hright. rewrite Hright.
    rewrite <- Nat2Z.inj_add, Hsum. f_equal. unfold array_bits, papp, pfix. rewrite app_length.
    rewrite (elements_ok_length _ _ _ _ He). lia.
  - destruct (f_type f) as [t|id args].
    + destruct Hv as [Hv _]. now apply (size_basic_right E t v c).
    + destruct Hv as (ps & Ha & Hv). specialize (Hm ps Ha). rewrite Ha in *. now apply (HS id ps v Hv Hm fuel Hfu).
Qed.

Lemma align_size_right : forall pos n, align_size (Z.of_nat pos) n = Ok (Z.of_nat (pos + length (align_bits n pos))).
Proof.
  intros pos n. unfold align_size, align_bits. destruct (n =? 0)%nat eqn:E; [cbn; now rewrite Nat.add_0_r|].
  destruct (CountAlignBits_spec (Z.of_nat pos) (Z.of_nat n) ltac:(lia) ltac:(lia)) as (d & -> & Hd).
  unfold padding. rewrite repeat_length. f_equal.
  rewrite (least_padding_unique _ _ _ _ Hd (discard_least pos n ltac:(lia))). lia.
Qed.

Lemma size_field_right : forall S n fuel E f slot c, causal S -> sizes_ok S n -> (n <= fuel)%nat ->
  valid_field (valid S n) (finite S n) false E f slot ->
  (forall v, slot = Some v -> measurable_content (measurable S n) E f v) ->
  (forall v, slot = Some v -> encodes_at (write_content (run S fuel) E f v) c) ->
  forall pos, size_field (run S fuel) E f slot (Z.of_nat pos) = Ok (Z.of_nat (pos + length (field_layout E f slot c pos))).
Proof.
  intros S n fuel E f slot c HC HS Hfu (Hal & stored & Hi & Hv) Hm Hc pos. unfold size_field, field_layout. rewrite Hi.
  destruct stored; [|cbn; now rewrite Nat.add_0_r].
  rewrite align_size_right. cbn [obind]. unfold papp at 1. rewrite app_length, Nat.add_assoc.
  set (p := (pos + length (align_bits (f_align f) pos))%nat).
  destruct slot as [v|].
  - pose proof (size_content_right S n fuel E f v c HC HS Hfu Hv (Hm v eq_refl) (Hc v eq_refl)) as H.
    destruct (f_optional f).
    + replace (Z.of_nat p + 1) with (Z.of_nat (p + 1)) by lia. rewrite H. cbn [obind]. unfold papp, pfix. rewrite app_length.
      cbn [length]. f_equal. lia.
    + rewrite H. cbn [obind]. f_equal. lia.
  - rewrite Hv. unfold pfix. cbn [length]. f_equal. lia.
Qed.

Lemma size_fields_right : forall S n fuel E, causal S -> sizes_ok S n -> (n <= fuel)%nat -> forall fs contents i,
  length contents = length fs ->
  (forall j f, nth_error fs j = Some f -> valid_field (valid S n) (finite S n) false E f (nth_slot (i + j) (e_slots E))) ->
  (forall j f v, nth_error fs j = Some f -> nth_slot (i + j) (e_slots E) = Some v -> measurable_content (measurable S n) E f v) ->
  (forall j f v c, nth_error fs j = Some f -> nth_slot (i + j) (e_slots E) = Some v -> nth_error contents j = Some c ->
     encodes_at (write_content (run S fuel) E f v) c) ->
  forall pos, size_fields (run S fuel) E i fs (Z.of_nat pos) = Ok (Z.of_nat (pos + length (struct_layout E i fs contents pos))).
Proof.
  intros S n fuel E HC HS Hfu. induction fs as [|f fs IH]; intros contents i Hl Hv Hm Hc pos.
  - cbn. destruct contents; cbn; now rewrite Nat.add_0_r.
  - destruct contents as [|c contents]; [discriminate|]. cbn [size_fields struct_layout].
    pose proof (Hv 0%nat f eq_refl) as Hv0. rewrite Nat.add_0_r in Hv0.
    rewrite (size_field_right S n fuel E f _ c HC HS Hfu Hv0).
    + cbn [obind]. rewrite (IH contents (Datatypes.S i)).
      * unfold papp. rewrite app_length. f_equal. lia.
      * cbn in Hl. lia.
      * intros j g Hj. replace (Datatypes.S i + j)%nat with (i + Datatypes.S j)%nat by lia. now apply Hv.
      * intros j g v Hj Hs. apply (Hm (Datatypes.S j) g v Hj). now replace (i + Datatypes.S j)%nat with (Datatypes.S i + j)%nat by lia.
      * intros j g v d Hj Hs Hd. apply (Hc (Datatypes.S j) g v d Hj); [|exact Hd]. now replace (i + Datatypes.S j)%nat with (Datatypes.S i + j)%nat by lia.
    + intros v Hs. apply (Hm 0%nat f v eq_refl). now rewrite Nat.add_0_r.
    + intros v Hs. apply (Hc 0%nat f v c eq_refl); [now rewrite Nat.add_0_r|reflexivity].
Qed.

Lemma all_sizes_ok : forall S, causal S -> forall n, sizes_ok S n.
Proof.
  intros S HC. induction n as [|n IH]; intros id ps v Hv Hm fuel Hfu enc Henc pos; [contradiction|].
  destruct fuel as [|fuel]; [lia|]. pose proof Hv as Hvalid. cbn [valid] in Hv. destruct Hv as (d & Hd & Hv). cbn [measurable] in Hm. rewrite Hd in Hm.
  cbn [run m_size m_marshal] in *. unfold of_def in *. rewrite Hd in *. destruct d as [t|fs|selector cases default|fs].
  - destruct Hv as [Hv _]. cbn [marshal_def size_def] in *. now apply (size_basic_right _ t v enc).
  - destruct Hv as (slots & -> & Hl & Hf). cbn [marshal_def size_def] in *.
    destruct (struct_bits S n id fs ps slots HC Hd Hvalid) as (contents & Hcl & Hcs & Hrt).
    destruct (Hrt (Datatypes.S fuel) ltac:(lia)) as [Hw _].
    unfold MarshalZserio in Hw. cbn [run m_marshal] in Hw. unfold of_def in Hw. rewrite Hd in Hw. cbn [marshal_def] in Hw.
    rewrite (encodes_unique _ _ _ Henc Hw).
    rewrite (size_fields_right S n fuel (mkE ps slots) HC IH ltac:(lia) fs contents 0 Hcl).
    + cbn [obind]. f_equal. lia.
    + intros j f Hj. now apply Hf.
    + intros j f v Hj Hs. now apply (Hm j f v).
    + intros j f v c Hj Hs Hc. now apply (Hcs j f v c Hj Hs Hc fuel ltac:(lia)).
  - destruct Hv as (slots & sel & -> & Hl & Hsel & _ & Hf). cbn [marshal_def size_def] in *. rewrite Hsel in *.
    destruct (select sel 0 cases default) as [[k f]|] eqn:Es.
    + destruct Hf as [Ho Hf]. pose proof (select_nth _ _ _ _ _ Es) as Hn.
      destruct (choice_bits S n id selector cases default ps slots sel k f HC Hd Hsel (proj2 (branch_select _ _ _ _ _) Es) Hvalid) as (c & Hc & Hrt).
      destruct (Hrt (Datatypes.S fuel) ltac:(lia)) as [Hw _].
      unfold MarshalZserio in Hw. cbn [run m_marshal] in Hw. unfold of_def in Hw. rewrite Hd in Hw. cbn [marshal_def] in Hw.
      rewrite Hsel, Es in Hw. rewrite (encodes_unique _ _ _ Henc Hw).
      rewrite (size_field_right S n fuel (mkE ps slots) f (nth_slot k slots) c HC IH ltac:(lia) Hf).
      * cbn [obind]. f_equal. lia.
      * intros v Hs. now apply (Hm k f v).
      * intros v Hs. now apply (Hc v Hs fuel ltac:(lia)).
    + now rewrite (encodes_unique _ _ _ Henc encodes_at_ret).
  - destruct Hv as (_ & tag & slots & -> & Hl & Ht & Hf). cbn [marshal_def size_def] in *.
    destruct (varsize_len tag ltac:(lia)) as (hd & h & H1 & H2 & H3). rewrite H2. cbn [obind].
    destruct (if tag <? 1 then None else nth_error fs (Z.to_nat (tag - 1))) as [f|] eqn:Es.
    + assert (Ht1 : 1 <= tag) by (destruct (tag <? 1) eqn:El; [discriminate|lia]). 
      assert (Hn : nth_error fs (Z.to_nat (tag - 1)) = Some f) by (destruct (tag <? 1); [discriminate|exact Es]).
      destruct Hf as [Ho Hf].
      destruct (union_bits S n id fs ps tag slots f HC Hd ltac:(lia) Hn Hvalid) as (c & Hc & Hrt).
      destruct (Hrt (Datatypes.S fuel) ltac:(lia)) as [Hw _].
      unfold MarshalZserio in Hw. cbn [run m_marshal] in Hw. unfold of_def in Hw. rewrite Hd in Hw. cbn [marshal_def] in Hw.
      rewrite Es in Hw. rewrite (encodes_unique _ _ _ Henc Hw).
      rewrite (encodes_output _ hd H1) in *. unfold papp, pfix. rewrite app_length.
      replace (Z.of_nat pos + h) with (Z.of_nat (pos + length hd)) by lia.
      rewrite (size_field_right S n fuel (mkE ps slots) f (nth_slot (Z.to_nat (tag - 1)) slots) c HC IH ltac:(lia) Hf).
      * cbn [obind]. f_equal. lia.
      * intros v Hs. now apply (Hm _ f v Hn).
      * intros v Hs. now apply (Hc v Hs fuel ltac:(lia)).
    + assert (Hw : encodes_at (wbind (WriteVarsize tag) (fun _ => wret tt)) (pfix hd)).
      { intros w Hw. unfold wbind. rewrite (H1 w Hw). reflexivity. }
      rewrite (encodes_unique _ _ _ Henc Hw). unfold pfix. now rewrite H3.
Qed.

Theorem size_exact : forall S n id ps v, causal S -> valid S n false id ps v -> measurable S n id ps v ->
  forall fuel w, (n <= fuel)%nat -> wfaults w = [] ->
  exists bits, MarshalZserio S fuel id ps v w = (mkW (wbits w ++ bits) [], Ok tt) /\
    ZserioBitSize S fuel id ps v (Z.of_nat (length (wbits w))) = Ok (Z.of_nat (length bits)).
Proof.
  intros S n id ps v HC Hv Hm fuel w Hfu Hw. destruct (schema_roundtrip S n id ps v HC Hv) as (enc & He).
  destruct (He fuel Hfu) as [H1 _]. exists (enc (length (wbits w))). split; [now apply H1|].
  now apply (all_sizes_ok S HC n id ps v Hv Hm fuel Hfu enc H1).
Qed.

(** ** Where it is not *)

(** An array of builtin elements counts as an empty one. *)
Theorem size_array_ignored : forall M E f v t len es pos T cfg, f_array f = Some (len, false) -> f_type f = TBasic t -> f_cast f = false ->
  codec_of E t = Ok T -> array_config E len false = Some cfg -> v = VArr es ->
  size_content M E f v pos = Ok (if a_auto cfg then 8 else 0).
Proof.
  intros M E f v t len es pos T cfg Ha Ht Hc HT Hcfg ->. unfold size_content, size_field_array. rewrite Ha, Hcfg, Ht, HT, Hc.
  cbn [obind]. unfold array_bitsize. cbn [length Z.of_nat]. replace (t_const T && (0 <? 0)) with false by (destruct (t_const T); reflexivity).
  unfold length_size. destruct (a_auto cfg).
  - change (SignedBitSize (Z.of_nat 0) 4) with (@Ok Z 8). cbn [sum_sizes]. f_equal. lia.
  - cbn [sum_sizes]. f_equal. lia.
Qed.

(** The length prefix of an extern or bytes field is never counted. *)
Theorem size_blob_wrong : forall b e, b = BExtern \/ b = BBytes -> in_range b e ->
  std_size b e <> Ok (Z.of_nat (length (output (std_write b e)))).
Proof.
  intros b e Hb He H. destruct Hb; subst b.
  - exact (proj1 (builtin_size_right BExtern e I He) H).
  - destruct He as ([n buf] & -> & [Hs Hl] & Hn). cbn [fst snd] in *.
    destruct (varsize_len n ltac:(lia)) as (hd & h & H1 & H2 & H3).
    cbn [std_size std_write traits_of BytesArrayTraits t_write] in H. unfold WriteBytes in H.
    assert (H' : 8 * n = Z.of_nat (length (output (wbind (WriteVarsize n) (fun _ => write_bytes buf))))) by congruence. clear H.
    rewrite (output_bind _ _ hd (bytes_bits buf) H1 (encodes_put _)), app_length, bytes_bits_length in H'.
    rewrite usize5 in H2. destruct (n <=? _) in H2; [injection H2 as <-; lia|].
    repeat (destruct (n <=? _) in H2; [injection H2 as <-; lia|]). discriminate.
Qed.
