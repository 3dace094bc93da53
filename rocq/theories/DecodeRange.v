(** Decoded values are values of their types. *)

Require Import ZArith List Bool Lia ZifyBool ZifyNat.
From Verif Require Import Bits BitsFacts Stream StreamFacts Scalars FixedFacts VarFacts Spec PrefixFacts ScalarFacts Float16 Float16Facts ScalarTable
  Traits TraitSpec TraitFacts Delta Array Schema SchemaSpec SchemaObjects SchemaThms DecodeSpec.
Import ListNotations.
Open Scope Z_scope.
Open Scope io_scope.

(** Whatever [m] returns satisfies [Q]. *)
Definition yields {S A} (m : prog S A) (Q : A -> Prop) : Prop := forall s s' a, m s = (s', Ok a) -> Q a.

Lemma yields_ret : forall {A} (a : A) (Q : A -> Prop), Q a -> yields (rret a) Q.
Proof. intros A a Q H s s' a' E. unfold rret in E. injection E as _ <-. exact H. Qed.

Lemma yields_bind : forall {A B} (m : reader A) (f : A -> reader B) (P : A -> Prop) (Q : B -> Prop),
  yields m P -> (forall a, P a -> yields (f a) Q) -> yields (rbind m f) Q.
Proof.
  intros A B m f P Q Hm Hf s s' b E. unfold rbind in E. destruct (m s) as [s1 [a|e| |]] eqn:E1; try discriminate.
  exact (Hf a (Hm _ _ _ E1) _ _ _ E).
Qed.

Lemma yields_if : forall {A} (b : bool) (m1 m2 : reader A) (Q : A -> Prop), yields m1 Q -> yields m2 Q ->
  yields (if b then m1 else m2) Q.
Proof. intros A [|]; auto. Qed.

Lemma yields_weaken : forall {S A} (m : prog S A) (P Q : A -> Prop), yields m P -> (forall a, P a -> Q a) -> yields m Q.
Proof. intros S A m P Q H HPQ s s' a E. eauto. Qed.

Lemma bits_range : forall n r r' m, read_bits n r = (r', Ok m) -> 0 <= m < 2 ^ Z.of_nat n.
Proof.
  intros n r r' m H. unfold read_bits in H. destruct (Nat.leb_spec n (length (rrem r))) as [L|L]; [|discriminate].
  injection H as _ <-. pose proof (val_of_range (firstn n (rrem r))) as V. rewrite firstn_length_le in V by lia.
  unfold u64, to_u. set (v := val_of _) in *. pose proof (Z.mod_pos_bound v (2 ^ 64) ltac:(reflexivity)).
  pose proof (Z.mod_le v (2 ^ 64) ltac:(lia) ltac:(reflexivity)). lia.
Qed.

Lemma yields_bits : forall n, yields (read_bits n) (fun v => 0 <= v < 2 ^ Z.of_nat n).
Proof. intros n s s' a E. eapply bits_range; eauto. Qed.

Lemma yields_byte : yields read_byte is_byte.
Proof. intros s s' a E. exact (bits_range 8 _ _ _ E). Qed.

(** ** Variable-length numbers *)

Lemma land_127 : forall b, is_byte b -> 0 <= Z.land b 127 < 2 ^ 7.
Proof. intros b _. change 127 with (Z.ones 7). rewrite Z.land_ones by lia. apply Z.mod_pos_bound. reflexivity. Qed.

Lemma land_63 : forall b, is_byte b -> 0 <= Z.land b 63 < 2 ^ 6.
Proof. intros b _. change 63 with (Z.ones 6). rewrite Z.land_ones by lia. apply Z.mod_pos_bound. reflexivity. Qed.

(** [conv] does nothing to numbers below 2^m. *)
Lemma yields_middle : forall conv m k v h n, (forall z, 0 <= z < 2 ^ m -> conv z = z) -> 0 <= n -> 0 <= v < 2 ^ n ->
  n + 7 * Z.of_nat k <= m ->
  yields (read_middle conv k v h) (fun vh => 0 <= fst vh < 2 ^ (n + 7 * Z.of_nat k)).
Proof.
  intros conv m k v h n Hc. revert v h n. induction k as [|k IH]; intros v h n Hn Hv Hm; cbn [read_middle].
  - apply yields_ret. cbn [fst]. replace (n + 7 * Z.of_nat 0) with n by lia. exact Hv.
  - assert (L : 2 ^ n <= 2 ^ (n + 7 * Z.of_nat (S k))) by (apply Z.pow_le_mono_r; lia).
    apply yields_if; [|apply yields_ret; cbn [fst]; lia].
    eapply yields_bind; [apply yields_byte|intros b Hb]. apply land_127 in Hb.
    replace (n + 7 * Z.of_nat (S k)) with (n + 7 + 7 * Z.of_nat k) in * by lia.
    apply IH; [lia| |lia].
    assert (P7 : 2 ^ (n + 7) = 2 ^ n * 2 ^ 7) by (apply Z.pow_add_r; lia).
    assert (L7 : 2 ^ (n + 7) <= 2 ^ m) by (apply Z.pow_le_mono_r; lia). change (2 ^ 7) with 128 in *.
    rewrite Hc by (rewrite Z.shiftl_mul_pow2 by lia; change (2 ^ 7) with 128; nia).
    rewrite lor_shiftl_add by (change (2 ^ 7) with 128; lia). change (2 ^ 7) with 128. nia.
Qed.

Lemma yields_last : forall conv m v h n, (forall z, 0 <= z < 2 ^ m -> conv z = z) -> 0 <= n -> 0 <= v < 2 ^ n ->
  n + 8 <= m -> yields (read_last conv v h) (fun v => 0 <= v < 2 ^ (n + 8)).
Proof.
  intros conv m v h n Hc Hn Hv Hm. unfold read_last.
  assert (L : 2 ^ n <= 2 ^ (n + 8)) by (apply Z.pow_le_mono_r; lia).
  apply yields_if; [|apply yields_ret; lia].
  eapply yields_bind; [apply yields_byte|intros b Hb]. apply yields_ret. unfold is_byte in Hb.
  assert (P8 : 2 ^ (n + 8) = 2 ^ n * 2 ^ 8) by (apply Z.pow_add_r; lia).
  assert (L8 : 2 ^ (n + 8) <= 2 ^ m) by (apply Z.pow_le_mono_r; lia). change (2 ^ 8) with 256 in *.
  rewrite Hc by (rewrite Z.shiftl_mul_pow2 by lia; change (2 ^ 8) with 256; nia).
  rewrite lor_shiftl_add by (change (2 ^ 8) with 256; lia). change (2 ^ 8) with 256. nia.
Qed.

Lemma yields_varuint : forall n k, 7 + 7 * Z.of_nat k + 8 <= n ->
  yields (read_varuint (to_u n) k) (fun v => 0 <= v < 2 ^ (7 + 7 * Z.of_nat k + 8)).
Proof.
  intros n k H. assert (C : forall z, 0 <= z < 2 ^ n -> to_u n z = z) by (intros; now apply to_u_small).
  eapply yields_bind; [apply yields_byte|intros b Hb].
  eapply yields_bind; [apply (yields_middle _ n _ _ _ 7 C); [lia|now apply land_127|lia]|].
  intros [v h] Hv. apply (yields_last _ n _ _ (7 + 7 * Z.of_nat k)); [exact C|lia|exact Hv|lia].
Qed.

Lemma yields_varint_from : forall n k b, 0 < n -> 6 + 7 * Z.of_nat k + 8 <= n - 1 -> is_byte b ->
  yields (read_varint_from (to_s n) k b) (fun v => Z.abs v < 2 ^ (6 + 7 * Z.of_nat k + 8)).
Proof.
  intros n k b Hn H Hb.
  assert (L : 2 ^ (6 + 7 * Z.of_nat k + 8) <= 2 ^ (n - 1)) by (apply Z.pow_le_mono_r; lia).
  assert (C : forall z, 0 <= z < 2 ^ (n - 1) -> to_s n z = z) by (intros; apply to_s_small; lia).
  eapply yields_bind; [apply (yields_middle _ (n - 1) _ _ _ 6 C); [lia|now apply land_63|lia]|].
  intros [v h] Hv. cbn [fst] in Hv.
  eapply yields_bind; [apply (yields_last _ (n - 1) _ _ (6 + 7 * Z.of_nat k)); [exact C|lia|exact Hv|lia]|].
  intros z Hz. cbn beta in Hz. apply yields_ret. destruct (negb _); [|lia]. rewrite to_s_small; lia.
Qed.

(** ** Buffers *)

Lemma take_bytes_ok : forall k l, (8 * k <= length l)%nat -> Forall is_byte (take_bytes k l) /\ length (take_bytes k l) = k.
Proof.
  induction k as [|k IH]; intros l H; cbn [take_bytes]; [split; [constructor|reflexivity]|].
  destruct (IH (skipn 8 l)) as [I1 I2]; [rewrite skipn_length; lia|]. split; [|cbn [length]; lia].
  constructor; [|exact I1]. pose proof (val_of_range (firstn 8 l)) as V. rewrite firstn_length_le in V by lia.
  exact V.
Qed.

Lemma yields_full : forall k, 0 <= k -> yields (read_full k) (fun l => Forall is_byte l /\ Z.of_nat (length l) = k).
Proof.
  intros k Hk s s' l E. unfold read_full in E. destruct (Z.leb_spec (8 * k) (Z.of_nat (length (rrem s)))); [|discriminate].
  assert (T : take_bytes (Z.to_nat k) (rrem s) = l) by congruence.
  destruct (take_bytes_ok (Z.to_nat k) (rrem s)) as [I1 I2]; [lia|]. rewrite T in *. split; [exact I1|lia].
Qed.

Lemma yields_string : yields ReadString byte_string.
Proof.
  eapply yields_bind; [intros s s' a E; exact (ReadVarsize_range _ _ _ E)|]. intros v Hv. cbn beta in Hv.
  eapply yields_weaken; [apply yields_full; lia|]. intros l [H1 H2]. split; [exact H1|rewrite H2; apply Hv].
Qed.

Lemma yields_bytes : yields ReadBytes bytes_value.
Proof.
  eapply yields_bind; [intros s s' a E; exact (ReadVarsize_range _ _ _ E)|]. intros v Hv. cbn beta in Hv.
  eapply yields_bind; [apply yields_full; lia|]. intros l [H1 H2]. apply yields_ret. cbn beta in *.
  refine (conj (conj H1 _) _); cbn [fst snd]; rewrite H2; [apply Hv|reflexivity].
Qed.

Lemma last_app1 : forall {A} (l : list A) x d, last (l ++ [x]) d = x.
Proof. intros A l x d. induction l as [|y l IH]; [reflexivity|]. cbn. destruct (l ++ [x]) eqn:E; [destruct l; discriminate|exact IH]. Qed.

Lemma yields_extern : yields ReadExtern extern_value.
Proof.
  eapply yields_bind; [intros s s' a E; exact (ReadVarsize_range _ _ _ E)|]. intros v Hv. cbn beta in Hv.
  pose proof (Z.mod_pos_bound v 8 ltac:(lia)) as M. pose proof (Z.div_mod v 8 ltac:(lia)) as D.
  eapply yields_bind; [apply yields_full; apply Z.div_pos; lia|]. intros l [H1 H2].
  destruct (Z.eqb_spec (v mod 8) 0) as [E0|E0].
  - apply yields_ret. unfold extern_value. refine (conj Hv (conj H1 (conj _ _))); [|contradiction].
    rewrite H2. replace (v + 7) with (7 + (v / 8) * 8) by lia. rewrite Z.div_add by lia. reflexivity.
  - eapply yields_bind; [apply yields_bits|]. intros b Hb. apply yields_ret. unfold extern_value.
    rewrite Z2Nat.id in Hb by lia. set (r := v mod 8) in *.
    assert (Pr : 2 ^ r * 2 ^ (8 - r) = 256) by (rewrite <- Z.pow_add_r by lia; replace (r + (8 - r)) with 8 by lia; reflexivity).
    assert (P1 : 0 < 2 ^ (8 - r)) by (apply Z.pow_pos_nonneg; lia).
    assert (X : to_u 8 (u64 (Z.shiftl b (8 - r))) = b * 2 ^ (8 - r)).
    { rewrite Z.shiftl_mul_pow2 by lia. assert (0 <= b * 2 ^ (8 - r) < 256) by nia.
      unfold u64. rewrite (to_u_small 64) by (change (2 ^ 64) with 18446744073709551616; lia).
      apply to_u_small. change (2 ^ 8) with 256. lia. }
    rewrite X. refine (conj Hv (conj _ (conj _ _))).
    + apply Forall_app. split; [exact H1|]. constructor; [|constructor]. unfold is_byte. nia.
    + rewrite app_length. cbn [length]. replace (v + 7) with ((r - 1) + (v / 8 + 1) * 8) by lia.
      rewrite Z.div_add, Z.div_small by lia. lia.
    + intros _. rewrite last_app1. apply Z.mod_mul. lia.
Qed.

(** ** Scalars *)

Lemma to_s_range : forall n z, 0 < n -> - 2 ^ (n - 1) <= to_s n z < 2 ^ (n - 1).
Proof.
  intros n z Hn. unfold to_s. pose proof (pow2_double n Hn). pose proof (Z.mod_pos_bound z (2 ^ n) ltac:(apply Z.pow_pos_nonneg; lia)).
  destruct (Z.ltb_spec (z mod 2 ^ n) (2 ^ (n - 1))); lia.
Qed.

Lemma yields_signed : forall n, 1 <= n <= 64 -> yields (ReadSignedBits n) (fun v => - 2 ^ (n - 1) <= v < 2 ^ (n - 1)).
Proof.
  intros n Hn s s' a E. rewrite ReadSignedBits_eq in E by lia. destruct (read_bits (Z.to_nat n) s) as [s1 [u|e| |]]; try discriminate.
  injection E as _ <-. apply to_s_range. lia.
Qed.

Lemma yields_unsigned : forall n, 0 <= n -> yields (ReadUnsignedBits n) (fun v => 0 <= v < 2 ^ n).
Proof. intros n Hn. pose proof (yields_bits (Z.to_nat n)) as H. rewrite Z2Nat.id in H by lia. exact H. Qed.

Lemma be_value_range : forall l, Forall is_byte l -> 0 <= be_value l < 256 ^ Z.of_nat (length l).
Proof.
  induction 1 as [|b l Hb Hl IH]; [cbn; lia|].
  unfold be_value. cbn [fold_left]. rewrite be_value_acc. cbn [length]. rewrite Nat2Z.inj_succ, Z.pow_succ_r by lia.
  unfold is_byte in Hb. nia.
Qed.

Lemma yields_be : forall k, 0 <= k -> yields (l <-r read_full k; rret (be_value l)) (fun v => 0 <= v < 256 ^ k).
Proof.
  intros k Hk. eapply yields_bind; [apply yields_full; exact Hk|]. intros l [H1 H2]. apply yields_ret.
  rewrite <- H2. now apply be_value_range.
Qed.

Lemma yields_varint : yields ReadVarint (in_s 64).
Proof.
  eapply yields_bind; [apply yields_byte|]. intros b Hb. destruct (Z.eqb_spec b 128).
  - apply yields_ret. unfold in_s, MinInt64. lia.
  - eapply yields_weaken; [apply yields_varint_from; [lia| |exact Hb]|].
    + cbn. lia.
    + intros v Hv. cbn beta in Hv. change (2 ^ (6 + 7 * Z.of_nat 7 + 8)) with (2 ^ (64 - 1)) in Hv. unfold in_s. lia.
Qed.

(** Every scalar reader returns only values of its type. *)
Lemma scalar_in_range : forall A w r P, scalar_type A w r P -> yields r P.
Proof.
  intros A w r P H. destruct H.
  all: try exact (yields_bits 8); try exact (yields_bits 16); try exact (yields_bits 32); try exact (yields_bits 64).
  all: try (apply yields_signed; lia).
  all: try exact yields_string; try exact yields_bytes; try exact yields_extern; try exact yields_varint.
  all: try (apply yields_unsigned; lia).
  all: try (eapply yields_bind; [apply yields_unsigned; lia|]; intros v Hv; apply yields_ret; apply to_u_range; lia).
  all: try (eapply yields_bind; [apply yields_signed; lia|]; intros v Hv; apply yields_ret; apply to_s_range; lia).
  - intros s s' a _. exact I.
  - eapply yields_weaken; [apply yields_varuint; lia|]. intros v Hv. unfold MaxVaruint16. cbn in *. lia.
  - eapply yields_weaken; [apply yields_varuint; lia|]. intros v Hv. unfold MaxVaruint32. cbn in *. lia.
  - eapply yields_weaken; [apply yields_varuint; lia|]. intros v Hv. unfold MaxVaruint64. cbn in *. lia.
  - eapply yields_weaken; [apply yields_varuint; lia|]. intros v Hv. unfold MaxUint64. cbn in *. lia.
  - intros s s' a E. exact (ReadVarsize_range _ _ _ E).
  - eapply yields_bind; [apply yields_byte|]. intros b Hb. eapply yields_weaken; [apply yields_varint_from; [lia|lia|exact Hb]|].
    intros v Hv. unfold MaxVarint16. cbn in *. lia.
  - eapply yields_bind; [apply yields_byte|]. intros b Hb. eapply yields_weaken; [apply yields_varint_from; [lia|lia|exact Hb]|].
    intros v Hv. unfold MaxVarint32. cbn in *. lia.
  - eapply yields_bind; [apply yields_byte|]. intros b Hb. eapply yields_weaken; [apply yields_varint_from; [lia|lia|exact Hb]|].
    intros v Hv. unfold MaxVarint64. cbn in *. lia.
  - apply (yields_be 4). lia.
  - apply (yields_be 8). lia.
Qed.

(** ** Element codecs *)

Lemma yields_t_read : forall b, wf_builtin b -> yields (t_read (traits_of b)) (in_range b).
Proof.
  intros b W. destruct b; cbn [traits_of t_read in_range BitFieldArrayTraits SignedBitFieldArrayTraits].
  all: try exact (scalar_in_range _ _ _ _ ST_varint).
  - exact (scalar_in_range _ _ _ _ ST_varint16).
  - exact (scalar_in_range _ _ _ _ ST_varint32).
  - exact (scalar_in_range _ _ _ _ ST_varint64).
  - eapply yields_weaken; [exact (scalar_in_range _ _ _ _ ST_varuint)|]. intros v Hv. unfold in_u, MaxUint64 in *. lia.
  - exact (scalar_in_range _ _ _ _ ST_varuint16).
  - exact (scalar_in_range _ _ _ _ ST_varuint32).
  - exact (scalar_in_range _ _ _ _ ST_varuint64).
  - exact (scalar_in_range _ _ _ _ ST_varsize).
  - exact (scalar_in_range _ _ _ _ ST_bool).
  - exact yields_string.
  - eapply yields_bind; [apply yields_full; lia|]. intros l [H1 H2]. apply yields_ret. exists (be_value l).
    split; [|reflexivity]. change (2 ^ 16) with (256 ^ 2). rewrite <- H2. now apply be_value_range.
  - apply (yields_be 4). lia.
  - apply (yields_be 8). lia.
  - eapply yields_bind; [exact yields_bytes|]. intros x Hx. apply yields_ret. eauto.
  - eapply yields_bind; [exact yields_extern|]. intros x Hx. apply yields_ret. eauto.
  - destruct g as [w|w]; [|contradiction]. destruct W as [Hw Hn].
    eapply yields_bind; [apply (yields_bits (Z.to_nat n))|]. intros v Hv. apply yields_ret. cbn [gconv].
    rewrite Z2Nat.id in Hv by lia. pose proof (pow2_le n w ltac:(lia)). rewrite to_u_small; lia.
  - destruct g as [w|w]; [contradiction|]. destruct W as [Hw Hn]. assert (n <= 64) by (unfold go_width in Hw; lia).
    eapply yields_bind; [apply (yields_bits (Z.to_nat n))|]. intros v Hv. apply yields_ret. cbn [gconv].
    rewrite Z2Nat.id in Hv by lia. pose proof (to_s_range n v ltac:(lia)) as R.
    rewrite (fillUpperBits_spec v (to_s n v) n); [rewrite (to_s_u64 w _ n); auto|lia|exact R|left].
    rewrite <- (Z.mod_small v (2 ^ n)) at 1 by lia. unfold to_s.
    destruct (Z.ltb_spec (v mod 2 ^ n) (2 ^ (n - 1))).
    + now rewrite Z.mod_mod by lia.
    + symmetry. transitivity ((v mod 2 ^ n - 2 ^ n + 1 * 2 ^ n) mod 2 ^ n); [now rewrite Z.mod_add by lia|].
      replace (v mod 2 ^ n - 2 ^ n + 1 * 2 ^ n) with (v mod 2 ^ n) by lia. now rewrite Z.mod_mod by lia.
Qed.

Lemma yields_std_read : forall b, wf_builtin b -> yields (std_read b) (in_range b).
Proof.
  intros b W. destruct b; try exact (yields_t_read _ W).
  destruct g as [w|w]; [contradiction|]. destruct W as [Hw Hn]. assert (n <= 64) by (unfold go_width in Hw; lia).
    eapply yields_bind; [apply yields_signed; lia|]. intros v Hv. apply yields_ret. cbn [gconv in_range].
    cbn beta in Hv. pose proof (pow2_le (n - 1) (w - 1) ltac:(lia)). rewrite to_s_small; lia.
Qed.

Definition wf_basic (E : env) (t : basic) : Prop := forall b, builtin_of E t = Some b -> wf_builtin b.

Lemma yields_basic : forall E t, wf_basic E t -> yields (read_basic E t) (basic_value E t).
Proof.
  intros E t W. destruct t as [b|signed g w]; cbn [read_basic].
  - specialize (W b eq_refl). eapply yields_bind; [apply yields_std_read; exact W|]. intros e He. apply yields_ret.
    exists b, e. auto.
  - unfold wf_basic in W. cbn [builtin_of] in W. destruct (w E) as [n|] eqn:Ew; [|intros s s' a H; discriminate].
    specialize (W _ eq_refl). destruct signed.
    + pose proof (yields_std_read _ W) as Y. cbn [std_read] in Y. intros s s' a H. unfold rbind, rret in *.
      destruct (ReadSignedBits (to_u 8 n) s) as [s1 [z|e| |]] eqn:Ez; try discriminate.
      exists (BSBits g (to_u 8 n)), (gconv g z). cbn [builtin_of]. rewrite Ew. refine (conj eq_refl (conj W (conj _ _))).
      * apply (Y s s1). now rewrite Ez.
      * cbn [inj]. congruence.
    + pose proof (yields_std_read _ W) as Y. cbn [std_read] in Y. intros s s' a H. unfold rbind, rret in *.
      destruct (ReadUnsignedBits (to_u 8 n) s) as [s1 [z|e| |]] eqn:Ez; try discriminate.
      exists (BBits g (to_u 8 n)), (gconv g z). cbn [builtin_of]. rewrite Ew. refine (conj eq_refl (conj W (conj _ _))).
      * apply (Y s s1). now rewrite Ez.
      * cbn [inj]. congruence.
Qed.

Lemma yields_codec : forall E t T, wf_basic E t -> codec_of E t = Ok T ->
  has_codec E t /\ builtin_of E t <> None /\ yields (t_read T) (basic_value E t).
Proof.
  intros E t T W H. assert (V : exists b, builtin_of E t = Some b /\ T = vtraits b /\ has_codec E t).
  { destruct t as [b|signed g w]; cbn [codec_of builtin_of has_codec] in *.
    - injection H as <-. eauto.
    - destruct (w E) as [n|] eqn:Ew; [|discriminate]. cbv zeta in H. destruct (Z.leb_spec 64 (to_u 8 n)); [discriminate|].
      injection H as <-. eexists. refine (conj eq_refl (conj eq_refl _)). intros m Hm. injection Hm as <-. lia. }
  destruct V as (b & Hb & -> & Hc). refine (conj Hc (conj _ _)); [congruence|].
  unfold vtraits. cbn [t_read]. eapply yields_bind; [apply yields_t_read; exact (W b Hb)|].
  intros e He. apply yields_ret. exists b, e. auto.
Qed.

(** ** Go types *)

Lemma gconv_value : forall g x, go_width (gwidth g) -> gvalue g (gconv g x).
Proof.
  intros [w|w] x H; cbn [gwidth gvalue gconv] in *; unfold go_width in H.
  - apply to_u_range. lia.
  - apply to_s_range. lia.
Qed.

Lemma wf_width : forall b, wf_builtin b -> match b with BBits g _ | BSBits g _ => go_width (gwidth g) | _ => True end.
Proof. intros []; cbn; auto; destruct g; tauto. Qed.

Lemma range_go : forall b e, wf_builtin b -> in_range b e -> go_value b e.
Proof.
  intros b e W H. destruct b; cbn [in_range go_value] in *; auto;
    unfold in_s, in_u, MaxVarint16, MaxVarint32, MaxVarint64, MaxVaruint16, MaxVaruint32, MaxVaruint64, MaxVarsize in *;
    try (cbn in *; lia).
  - destruct g as [w|w]; [|contradiction]. destruct W as [Hw Hn]. cbn. unfold in_u.
    pose proof (pow2_le n w ltac:(lia)). lia.
  - destruct g as [w|w]; [contradiction|]. destruct W as [Hw Hn]. cbn. unfold in_s.
    pose proof (pow2_le (n - 1) (w - 1) ltac:(lia)). lia.
Qed.

Lemma from_go : forall b z, wf_builtin b -> go_value b (t_from (traits_of b) z).
Proof.
  intros b z W. apply wf_width in W. destruct b; cbn [traits_of t_from go_value] in *; auto;
    try (apply to_s_range; lia); try (apply to_u_range; lia).
  - now apply gconv_value.
  - now apply gconv_value.
Qed.

(** ** Arrays that are not packed *)

Lemma read_elems_each : forall {A N} (K : elemops A N) cfg n i s s' es, a_packed cfg = false ->
  read_elems K cfg i n s = (s', Ok es) ->
  forall j e, nth_error es j = Some e -> exists r1 r2, k_read K (i + j) r1 = (r2, Ok e).
Proof.
  intros A N K cfg n i s s' es Hp. revert i s s' es. induction n as [|n IH]; intros i s s' es H j e Hj; cbn [read_elems] in H.
  - unfold sret in H. injection H as _ <-. destruct j; discriminate.
  - unfold sbind at 1 in H. destruct (read_elem K cfg i s) as [s1 [a|x| |]] eqn:E1; try discriminate.
    unfold sbind at 1 in H. destruct (read_elems K cfg (S i) n s1) as [s2 [es'|x| |]] eqn:E2; try discriminate.
    unfold sret in H. injection H as _ <-. destruct j as [|j]; cbn [nth_error] in Hj.
    + injection Hj as ->. rewrite Nat.add_0_r. unfold read_elem in E1. rewrite Hp in E1. unfold sbind in E1.
      match type of E1 with (match ?m with _ => _ end) = _ => destruct m as [[c1 r1] [u|x| |]] end; try discriminate.
      unfold on_stream in E1. destruct (k_read K i r1) as [r2 o] eqn:Er. exists r1, r2. rewrite Er. congruence.
    + rewrite <- Nat.add_succ_comm. eapply IH; eauto.
Qed.

Lemma yields_array : forall {A N} (K : elemops A N) cfg, a_packed cfg = false ->
  yields (read_array K cfg) (fun es =>
    (if a_auto cfg then Z.of_nat (length es) <= MaxVarsize else a_fixed cfg = Z.of_nat (length es)) /\
    forall j e, nth_error es j = Some e -> exists r1 r2, k_read K j r1 = (r2, Ok e)).
Proof.
  intros A N K cfg Hp r r' es H. split.
  - destruct (a_auto cfg) eqn:Ha; [|symmetry; eapply read_array_fixed; eauto].
    unfold read_array, with_ctx in H. destruct (array_unmarshal K cfg (None, r)) as [[c r1] o] eqn:E. injection H as _ ->.
    unfold array_unmarshal in E. rewrite Ha in E. unfold sbind at 1 in E.
    destruct (on_stream (rbind ReadVarsize (fun v => rret (i64 v))) (None, r)) as [[c2 r2] [v|x| |]] eqn:Ev; try discriminate.
    assert (Hv : 0 <= v <= MaxVarsize).
    { unfold on_stream, rbind, rret in Ev. destruct (ReadVarsize r) as [r3 [u|x| |]] eqn:Er; try discriminate.
      apply ReadVarsize_range in Er. assert (v = i64 u) by congruence. subst v. unfold i64. rewrite to_s_small; [exact Er|lia|].
      unfold MaxVarsize in Er. change (2 ^ (64 - 1)) with 9223372036854775808. lia. }
    destruct (v <? 0); [discriminate|]. destruct (v =? 0) eqn:E0.
    + unfold sret in E. assert (es = []) by congruence. subst es. cbn. lia.
    + rewrite Hp in E. unfold sbind, sret at 1 in E. apply read_elems_length in E. rewrite E, Z2Nat.id; lia.
  - intros j e Hj. unfold read_array, with_ctx in H. destruct (array_unmarshal K cfg (None, r)) as [[c r1] o] eqn:E. injection H as _ ->.
    unfold array_unmarshal in E. rewrite Hp in E. unfold sbind at 1 in E.
    match type of E with (match ?m with _ => _ end) = _ => destruct m as [s1 [v|x| |]] end; try discriminate.
    destruct (v <? 0); [discriminate|]. destruct (v =? 0).
    + unfold sret in E. assert (es = []) by congruence. subst es. destruct j; discriminate.
    + unfold sbind, sret at 1 in E. eapply read_elems_each in E; eauto.
Qed.
