(** Lemmas for the properties of decoders: [PropDecode.v]. *)

Require Import ZArith List Bool Lia ZifyBool ZifyNat.
From Verif Require Import Bits BitsFacts Stream StreamFacts Spec PosSpec Scalars FixedFacts VarFacts ScalarFacts ScalarThms PrefixFacts Traits TraitSpec Delta
  Array Schema SchemaSpec SchemaObjects SchemaThms SchemaExample DecodeSpec DecodeFacts DecodeRange DecodeTotal DecodeFuel DecodeValid.
Import ListNotations.
Open Scope Z_scope.

(** ** Termination *)

Theorem decode_returns : forall S I P rank top id d ps pos bits, safe S I P rank top ->
  nth_error S id = Some d -> I id ps ->
  exists n r' o, ((exists v, o = Ok v /\ typed S n id v) \/ exists e, o = Err e) /\
  forall fuel, (length bits * top + rank id < fuel)%nat -> UnmarshalZserio S fuel id ps (mkR pos bits) = (r', o).
Proof.
  intros S I P rank top id d ps pos bits Hs Hd Hi. set (n := Datatypes.S (length bits * top + rank id)%nat).
  destruct (decode_total S I P rank top Hs n id d Hd) as (T & _).
  specialize (T ps (length bits) Hi ltac:(lia) (mkR pos bits) (Nat.le_refl _)).
  destruct (UnmarshalZserio S n id ps (mkR pos bits)) as [r' o] eqn:E.
  exists n, r', o. split.
  - destruct o as [v|e| |]; try contradiction; [left|right]; eauto. destruct T. eauto.
  - intros fuel Hf. rewrite <- E. apply decode_fuel; [lia|]. rewrite E. cbn. destruct o; try discriminate; contradiction.
Qed.

Theorem auto_length : forall {A N} (K : elemops A N) cfg r r' es, a_auto cfg = true ->
  read_array K cfg r = (r', Ok es) -> Z.of_nat (length es) <= 2 ^ 31 - 1.
Proof.
  intros A N K cfg r r' es Ha H. change (2 ^ 31 - 1) with MaxVarsize.
  unfold read_array, with_ctx in H. destruct (array_unmarshal K cfg (None, r)) as [[c r1] o] eqn:E. injection H as _ ->.
  unfold array_unmarshal in E. rewrite Ha in E. unfold sbind at 1 in E.
  destruct (on_stream (rbind ReadVarsize (fun v => rret (i64 v))) (None, r)) as [[c2 r2] [v|x| |]] eqn:Ev; try discriminate.
  assert (Hv : 0 <= v <= MaxVarsize).
  { unfold on_stream, rbind, rret in Ev. destruct (ReadVarsize r) as [r3 [u|x| |]] eqn:Er; try discriminate.
    apply ReadVarsize_range in Er. assert (v = i64 u) by congruence. subst v. unfold i64. rewrite to_s_small; [exact Er|lia|].
    unfold MaxVarsize in Er. change (2 ^ (64 - 1)) with 9223372036854775808. lia. }
  destruct (v <? 0); [discriminate|]. destruct (v =? 0) eqn:E0.
  - unfold sret in E. assert (es = []) by congruence. subst es. cbn. lia.
  - unfold sbind in E. match type of E with (match ?m with _ => _ end) = _ => destruct m as [s1 [u|x| |]] end; try discriminate.
    apply read_elems_length in E. rewrite E, Z2Nat.id; lia.
Qed.

(** ** Amplification *)

Definition packed_auto : acfg := mkA true true 0 false false.

(** With a delta width of 0 no element after the first is stored. *)
Lemma read_rest : forall {A} (T : traits A) c p k i r, d_started c = true -> d_packed c = true -> d_max c = 0 -> d_prev c = Some p ->
  read_elems (trait_ops T) packed_auto i k (Some c, r) = ((Some c, r), Ok (repeat (t_from T p) k)).
Proof.
  intros A T c p k i r H1 H2 H3 H4. revert i. induction k as [|k IH]; intros i; cbn [read_elems repeat]; [reflexivity|].
  unfold sbind at 1.
  assert (R : read_elem (trait_ops T) packed_auto i (Some c, r) = ((Some c, r), Ok (t_from T p))).
  { unfold read_elem, packed_auto. cbn [a_check a_packed trait_ops k_pread]. unfold sbind, sret, on_packed, d_read, get_ctx, sbind.
    cbn [fst]. rewrite H1, H2, H3, H4. reflexivity. }
  rewrite R. unfold sbind. rewrite IH. reflexivity.
Qed.

(** A packed array whose descriptor has been stored with the width 0. *)
Lemma read_flat : forall {A} (T : traits A) n len pos rest r1 r2 e o, 1 <= Z.of_nat n <= 2 ^ 31 - 1 ->
  decodes ReadVarsize len (Z.of_nat n) ->
  ReadDescriptor (set_started d_empty, mkR (pos + length len) rest) =
    ((set_max 0 (set_packed true (set_started d_empty)), r1), o) -> (o = Ok tt \/ exists x, o = Err x) ->
  t_read T r1 = (r2, Ok e) -> t_from T (t_as T e) = e ->
  read_array (trait_ops T) packed_auto (mkR pos (len ++ rest)) = (r2, Ok (repeat e n)).
Proof.
  intros A T n len pos rest r1 r2 e o Hn Hl Hd Ho He Hf. unfold read_array, with_ctx, array_unmarshal, packed_auto.
  cbn [a_auto a_packed]. unfold sbind at 1. unfold on_stream at 1. unfold rbind at 1. rewrite Hl.
  unfold rret. replace (i64 (Z.of_nat n)) with (Z.of_nat n).
  2:{ symmetry. unfold i64. apply to_s_small; [lia|]. change (2 ^ 31 - 1) with 2147483647 in Hn. change (2 ^ (64 - 1)) with 9223372036854775808. lia. }
  replace (Z.of_nat n <? 0) with false by lia. replace (Z.of_nat n =? 0) with false by lia.
  rewrite Nat2Z.id. destruct n as [|n]; [lia|]. unfold sbind at 1. unfold new_context. cbn [k_create trait_ops snd].
  fold packed_auto. cbn [read_elems repeat]. unfold sbind at 1.
  assert (R : read_elem (trait_ops T) packed_auto 0 (Some d_empty, mkR (pos + length len) rest) =
    ((Some (set_prev (t_as T e) (set_max 0 (set_packed true (set_started d_empty)))), r2), Ok e)).
  { unfold read_elem, packed_auto. cbn [a_check a_packed trait_ops k_pread]. unfold sbind at 1, sret at 1, on_packed.
    unfold d_read. unfold sbind at 1, get_ctx. cbn [d_started d_empty negb fst].
    unfold sbind at 1, on_ctx at 1. unfold sbind at 1, signore. rewrite Hd.
    assert (X : forall s : dctx * rst, match o with Ok _ => (s, Ok tt) | Err _ => (s, Ok tt) | Panic => (s, Panic) | NoFuel => (s, NoFuel) end = (s, Ok tt)).
    { intros s. destruct Ho as [ -> | [x ->] ]; reflexivity. }
    rewrite X. unfold readUnpacked, sbind, on_stream. rewrite He. reflexivity. }
  rewrite R. unfold sbind. rewrite (read_rest T _ (t_as T e)) by reflexivity. unfold sret. rewrite Hf. reflexivity.
Qed.

Lemma varsize_short : forall n, 0 <= n <= 2 ^ 31 - 1 -> exists len, (length len <= 40)%nat /\
  roundtrips (WriteVarsize n) ReadVarsize len n.
Proof.
  intros n Hn. destruct (varsize_rt' n Hn) as (k & Hk & Hr). exists (uwire n k 5). split; [|exact Hr].
  unfold uwire. rewrite bytes_bits_length, vu_tail_length. destruct Hk as (Hk & _). lia.
Qed.

Theorem amplification : forall n b, 1 <= Z.of_nat n <= 2 ^ 31 - 1 -> 0 <= b < 256 ->
  exists bits, (length bits <= 55)%nat /\
  decodes (read_array (trait_ops (traits_of BUint8)) packed_auto) bits (repeat b n).
Proof.
  intros n b Hn Hb. destruct (varsize_short (Z.of_nat n) ltac:(lia)) as (len & Hl & _ & Hr).
  exists (len ++ true :: bits_of 6 0 ++ bits_of 8 b). split.
  - rewrite app_length. cbn [length]. rewrite app_length, !bits_of_length. lia.
  - intros pos rest. rewrite <- app_assoc. 
    replace (pos + length (len ++ true :: bits_of 6 0 ++ bits_of 8 b))%nat with (pos + length len + 15)%nat
      by (rewrite app_length; cbn [length]; rewrite app_length, !bits_of_length; lia).
    change ((true :: bits_of 6 0 ++ bits_of 8 b) ++ rest) with (true :: bits_of 6 0 ++ bits_of 8 b ++ rest).
    apply (read_flat _ n len pos _ (mkR (pos + length len + 7) (bits_of 8 b ++ rest)) _ b (Ok tt)); auto.
    + unfold ReadDescriptor. pose proof (decodes_read_bool true (pos + length len)%nat (bits_of 6 0 ++ bits_of 8 b ++ rest)) as H1.
      cbn [app length] in H1. rewrite H1. change (Z.to_nat maxBitNumberBits) with 6%nat.
      rewrite (decodes_read_bits_of 6 0 ltac:(lia) ltac:(lia)). rewrite bits_of_length. do 3 f_equal. lia.
    + cbn [traits_of BUint8 t_read BitFieldArrayTraits gconv]. change (Z.to_nat 8) with 8%nat. unfold rbind.
      rewrite (decodes_read_bits_of 8 b ltac:(lia)) by (change (2 ^ Z.of_nat 8) with 256; lia).
      rewrite bits_of_length. unfold rret. rewrite to_u_small by (change (2 ^ 8) with 256; lia). do 2 f_equal. lia.
    + cbn [traits_of BUint8 t_as t_from BitFieldArrayTraits gconv]. unfold u64. rewrite (to_u_small 64) by (change (2 ^ 64) with 18446744073709551616; lia).
      apply to_u_small. change (2 ^ 8) with 256. lia.
Qed.

(** ** Truncated descriptors *)

Lemma val_of_zeros : forall n, val_of (repeat false n) = 0.
Proof. induction n as [|n IH]; [reflexivity|]. cbn [repeat]. rewrite val_of_cons, IH. cbn. lia. Qed.

Theorem narrow_truncated : forall w k n len extra pos, go_width w -> 1 <= k <= 5 -> 1 <= Z.of_nat n <= 2 ^ 31 - 1 ->
  encodes (WriteVarsize (Z.of_nat n)) len -> k <= Z.of_nat (length extra) <= 5 ->
  exists r, read_array (trait_ops (traits_of (BBits (GU w) k))) packed_auto (mkR pos (len ++ true :: extra)) = (r, Ok (repeat 0 n)).
Proof.
  intros w k n len extra pos Hw Hk Hn Hlen Hx.
  destruct (varsize_rt' (Z.of_nat n) ltac:(lia)) as (j & Hj & He & Hr).
  assert (L : len = uwire (Z.of_nat n) j 5).
  { specialize (Hlen (mkW [] []) eq_refl). specialize (He (mkW [] []) eq_refl). cbn [wbits app] in *. congruence. }
  subst len. eexists. refine (read_flat _ n _ pos _ (mkR (pos + length (uwire (Z.of_nat n) j 5) + 1) (repeat false (length extra))) _ 0 (Err EOF) Hn Hr _ _ _ _).
  - unfold ReadDescriptor. pose proof (decodes_read_bool true (pos + length (uwire (Z.of_nat n) j 5))%nat extra) as H1.
    cbn [app length] in H1. rewrite H1. change (Z.to_nat maxBitNumberBits) with 6%nat.
    unfold read_bits. cbn [rrem rpos]. replace (6 <=? length extra)%nat with false by lia.
    unfold failed_rest. rewrite (Nat.mod_small (length extra) 8), (Nat.div_small (length extra) 8) by lia.
    rewrite (Nat.div_small (6 - length extra) 8) by lia. reflexivity.
  - eauto.
  - cbn [traits_of t_read BitFieldArrayTraits gconv]. unfold rbind, read_bits. cbn [rrem rpos].
    rewrite repeat_length. replace (Z.to_nat k <=? length extra)%nat with true by lia.
    assert (Z0 : val_of (firstn (Z.to_nat k) (repeat false (length extra))) = 0).
    { replace (length extra) with (Z.to_nat k + (length extra - Z.to_nat k))%nat by lia. rewrite repeat_app.
      rewrite firstn_app, firstn_all2, repeat_length, Nat.sub_diag, firstn_O, app_nil_r by (rewrite repeat_length; lia). apply val_of_zeros. }
    rewrite Z0. unfold rret. unfold u64, to_u at 1. rewrite !Z.mod_0_l by (unfold go_width in Hw; lia || (apply Z.pow_nonzero; unfold go_width in Hw; lia)).
    reflexivity.
  - cbn [traits_of t_as t_from BitFieldArrayTraits gconv]. unfold u64, to_u. rewrite !Z.mod_0_l; (reflexivity || (apply Z.pow_nonzero; unfold go_width in Hw; lia)).
Qed.

Theorem wide_prefix : forall S P fuel id ps, wide_packed S P -> prefix_determined (UnmarshalZserio S fuel id ps).
Proof. intros S P fuel id ps H. apply (decode_prefix_determined S P H fuel id). Qed.

Theorem plain_prefix : forall S fuel id ps, no_packed_arrays S -> prefix_determined (UnmarshalZserio S fuel id ps).
Proof. intros S fuel id ps H. exact (wide_prefix S _ fuel id ps (no_packed_wide S H)). Qed.

(** ** Decoders that do not return *)

(** struct A { A a[1]; } *)
Definition self_array : schema :=
  [DStruct [mkF (TRef 0 no_args) (Some (Some (fun _ => Some 1), false)) false None 0 false]].

Theorem self_array_endless : forall fuel r, snd (UnmarshalZserio self_array fuel 0 [] r) = NoFuel.
Proof.
  induction fuel as [|fuel IH]; intros r; [reflexivity|].
  specialize (IH r). unfold UnmarshalZserio in *. cbn [run m_unmarshal]. revert IH. generalize (run self_array fuel) as M.
  intros M IH. vm_compute. destruct M as [? mu ? ? ? ? ?]. cbn in IH. destruct (mu 0%nat [] r) as [r' o]. cbn in IH. subst o. reflexivity.
Qed.

(** struct N { int8 n; uint8 a[n]; } *)
Definition negative_length : schema :=
  [DStruct [plain_field int8_t; mkF uint8_t (Some (Some (slot_int 0), false)) false None 0 false]].
(** struct W { uint8 n; bit<n> a[]; } *)
Definition wide_array : schema :=
  [DStruct [plain_field uint8_t; mkF (TBasic (Bits false (GU 64) (slot_int 0))) (Some (None, false)) false None 0 false]].
(** struct I { uint8 n; int<n> x; } *)
Definition wide_int : schema :=
  [DStruct [plain_field uint8_t; plain_field (TBasic (Bits true (GS 64) (slot_int 0)))]].

Theorem hostile_panics : forall fuel, (0 < fuel)%nat ->
  snd (UnmarshalZserio negative_length fuel 0 [] (mkR 0 (bits_of 8 255))) = Panic /\
  snd (UnmarshalZserio wide_array fuel 0 [] (mkR 0 (bits_of 8 64 ++ bits_of 8 1))) = Panic /\
  snd (UnmarshalZserio wide_int fuel 0 [] (mkR 0 (bits_of 8 65))) = Panic.
Proof.
  intros [|fuel] H; [lia|]. clear H. unfold UnmarshalZserio. cbn [run m_unmarshal].
  refine (conj _ (conj _ _)); generalize (run negative_length fuel), (run wide_array fuel), (run wide_int fuel); intros M1 M2 M3; vm_compute; reflexivity.
Qed.

(** ** Re-encoding *)

Theorem decoded_roundtrip : forall S I fuel id ps r r' v, causal S -> regular S I -> no_packed_arrays S -> I id ps ->
  UnmarshalZserio S fuel id ps r = (r', Ok v) ->
  valid S fuel false id ps v /\
  exists enc, forall fuel', (fuel <= fuel')%nat ->
  roundtrips_at (MarshalZserio S fuel' id ps v) (UnmarshalZserio S fuel' id ps) enc v.
Proof.
  intros S I fuel id ps r r' v Hc Hr Hp Hi H. pose proof (decode_valid S I Hc Hr Hp fuel id ps Hi _ _ _ H) as V.
  split; [exact V|]. exact (schema_roundtrip S fuel id ps v Hc V).
Qed.
