(** Theorems about delta packing and the element codecs, in the form of the
    properties. *)

Require Import ZArith List Bool Lia ZifyBool ZifyNat.
From Verif Require Import Bits BitsFacts Stream Spec StreamFacts Scalars FixedFacts ScalarFacts ScalarTable ScalarThms
  Float16 Float16Convert Float16Facts Traits TraitSpec Delta DeltaSpec DeltaFacts TraitFacts SizeFacts TraitCache.
Import ListNotations.
Open Scope Z_scope.

(** ** Delta packing *)

Definition builtin_list (b : builtin) (es : list (elt b)) : Prop :=
  wf_builtin b /\ integer_like b /\ Forall (in_range b) es.

Lemma builtin_elements : forall b es, builtin_list b es ->
  Forall (fun e => element_ok (traits_of b) (wire b e) e) es.
Proof. intros b es (Hb & Hi & Hes). eapply Forall_impl; [|exact Hes]. intros a. now apply builtin_element. Qed.
Lemma builtin_numbers : forall b es, builtin_list b es -> Forall (number_ok (traits_of b)) es.
Proof. intros b es (Hb & Hi & Hes). eapply Forall_impl; [|exact Hes]. intros a. now apply builtin_number. Qed.
Lemma builtin_sizes : forall b es, builtin_list b es -> Forall (sized (traits_of b)) es.
Proof. intros b es (Hb & Hi & Hes). eapply Forall_impl; [|exact Hes]. intros a. now apply builtin_sized. Qed.

Lemma builtin_delta_wire : forall b es m, wf_builtin b -> integer_like b -> Forall (in_range b) es ->
  es <> [] -> delta_width (map (t_as (traits_of b)) es) m ->
  roundtrips (delta_marshal (traits_of b) es) (delta_unmarshal (traits_of b) (length es))
    (delta_wire (map (wire b) es) (map (size_of (traits_of b)) es) (map (t_as (traits_of b)) es) m) es.
Proof.
  intros b es m Hb Hi Hes Hne Hm. assert (H : builtin_list b es) by (repeat split; assumption).
  pose proof (builtin_elements b es H) as H1. pose proof (builtin_numbers b es H) as H2.
  pose proof (builtin_sizes b es H) as H3.
  destruct es as [|e l]; [congruence|].
  rewrite (delta_width_unique _ _ _ Hm (width_delta_width (map (t_as (traits_of b)) l) (t_as (traits_of b) e))).
  now apply delta_roundtrip.
Qed.

Lemma delta_empty : forall {A} (T : traits A), roundtrips (delta_marshal T []) (delta_unmarshal T 0) [] [].
Proof.
  intros A T. split.
  - intros w Hw. unfold delta_marshal, with_ctx. cbn [d_init_all d_write_all]. unfold sret. rewrite app_nil_r.
    destruct w as [wb fl]. cbn in *. now subst fl.
  - intros pos rest. unfold delta_unmarshal, with_ctx. cbn. now rewrite Nat.add_0_r.
Qed.

Lemma builtin_delta_roundtrip : forall b es, wf_builtin b -> integer_like b -> Forall (in_range b) es ->
  exists bs, roundtrips (delta_marshal (traits_of b) es) (delta_unmarshal (traits_of b) (length es)) bs es.
Proof.
  intros b es Hb Hi Hes. assert (H : builtin_list b es) by (repeat split; assumption).
  pose proof (builtin_elements b es H) as H1. pose proof (builtin_numbers b es H) as H2.
  pose proof (builtin_sizes b es H) as H3.
  destruct es as [|e l]; [exists []; apply delta_empty|eexists; apply (delta_roundtrip (traits_of b) (wire b) e l H1 H2 H3)].
Qed.

Lemma any_codec_roundtrip : forall A (T : traits A) (enc : A -> list bool) e es,
  Forall (fun e => roundtrips (t_write T e) (t_read T) (enc e) e) (e :: es) ->
  Forall (fun e => 0 <= t_as T e < 2 ^ 64 /\ t_from T (t_as T e) = e) (e :: es) ->
  Forall (fun e => exists s, t_size T e = Ok s) (e :: es) ->
  exists bs, roundtrips (delta_marshal T (e :: es)) (delta_unmarshal T (length (e :: es))) bs (e :: es).
Proof. intros A T enc e es H1 H2 H3. eexists. exact (delta_roundtrip T enc e es H1 H2 H3). Qed.

Lemma builtin_delta_size : forall b es, wf_builtin b -> integer_like b -> Forall (in_range b) es ->
  es <> [] -> Forall (size_right b) es ->
  delta_bitsize (traits_of b) es = Ok (Z.of_nat (length (output (delta_marshal (traits_of b) es)))) /\
  Z.of_nat (length (output (delta_marshal (traits_of b) es))) <=
    1 + sum (map (fun e => Z.of_nat (length (wire b e))) es).
Proof.
  intros b es Hb Hi Hes Hne Hr. assert (H : builtin_list b es) by (repeat split; assumption).
  apply delta_size_exact; [exact Hne|now apply builtin_elements|now apply builtin_numbers|].
  rewrite Forall_forall in *. intros a Ha. apply (builtin_size_right b a Hb (Hes a Ha)). now apply Hr.
Qed.

(** ** Bit-field elements are not range checked *)

Lemma element_bits : forall g n v, 1 <= n <= 64 ->
  encodes (t_write (traits_of (BBits g n)) v) (bits_of (Z.to_nat n) (v mod 2 ^ n)) /\
  encodes (t_write (traits_of (BSBits g n)) v) (bits_of (Z.to_nat n) (v mod 2 ^ n)).
Proof.
  intros g n v Hn.
  assert (E : bits_of (Z.to_nat n) (v mod 2 ^ n) = bits_of (Z.to_nat n) (u64 v)).
  { rewrite bits_of_modn by lia. unfold u64, to_u. symmetry.
    change (2 ^ 64) with (2 ^ Z.of_nat 64). apply bits_of_mod. lia. }
  rewrite E. split; apply encodes_put.
Qed.

Lemma unsigned_element_wraps : forall w n v, go_width w -> 1 <= n <= w ->
  roundtrips (t_write (traits_of (BBits (GU w) n)) v) (t_read (traits_of (BBits (GU w) n)))
    (bits_of (Z.to_nat n) (v mod 2 ^ n)) (v mod 2 ^ n).
Proof.
  intros w n v Hw Hn. assert (n <= 64) by (unfold go_width in Hw; lia).
  split; [apply element_bits; lia|].
  apply (bitfield_rt w n (v mod 2 ^ n) Hw Hn). apply Z.mod_pos_bound. apply pow2_pos. lia.
Qed.

Lemma signed_element_wraps : forall w n v u, go_width w -> 1 <= n <= w ->
  - 2 ^ (n - 1) <= u < 2 ^ (n - 1) -> u mod 2 ^ n = v mod 2 ^ n ->
  roundtrips (t_write (traits_of (BSBits (GS w) n)) v) (t_read (traits_of (BSBits (GS w) n)))
    (bits_of (Z.to_nat n) (v mod 2 ^ n)) u.
Proof.
  intros w n v u Hw Hn Hu E. assert (n <= 64) by (unfold go_width in Hw; lia).
  split; [apply element_bits; lia|]. rewrite <- E, bits_of_modn by lia.
  now apply (sbitfield_rt w n u Hw Hn).
Qed.

(** ** Codec cache *)

Lemma expected_all_last : forall reqs T n before,
  last (expected_all before (reqs ++ [(T, n)])) Panic = expected (before ++ reqs) T n.
Proof.
  induction reqs as [|[T1 n1] reqs IH]; intros T n before.
  - cbn [app expected_all last]. now rewrite app_nil_r.
  - cbn [app expected_all].
    replace (before ++ (T1, n1) :: reqs) with ((before ++ [(T1, n1)]) ++ reqs) by now rewrite <- app_assoc.
    rewrite <- IH. destruct (expected_all _ (reqs ++ _)) eqn:E; [|reflexivity].
    destruct reqs as [|[? ?] ?]; discriminate.
Qed.

Lemma answers_last : forall reqs T n, Forall (fun r => 0 <= snd r) (reqs ++ [(T, n)]) ->
  last (answers (reqs ++ [(T, n)]) new_cache) Panic = expected reqs T n.
Proof. intros reqs T n H. rewrite answers_expected by exact H. apply expected_all_last. Qed.

(** ** Half-precision floats *)

Definition f16_is_nan (h : Z) : Prop := Z.land h 0x7c00 = 0x7c00 /\ Z.land h 0x3ff <> 0.

Lemma f16_read : forall h, 0 <= h < 2 ^ 16 ->
  roundtrips (WriteFloat16 (f16_to_f32 h)) ReadFloat16
    (bits_of 16 (f32_to_f16 (f16_to_f32 h))) (f16_to_f32 h) /\
  (~ f16_is_nan h -> f32_to_f16 (f16_to_f32 h) = h) /\
  (f16_is_nan h -> f32_to_f16 (f16_to_f32 h) = Z.lor h 0x200).
Proof.
  intros h Hh. split; [now apply WriteFloat16_rt|].
  destruct (f16_checked h Hh) as (_ & _ & E). rewrite E. unfold f16_is_nan.
  destruct (Z.land h 31744 =? 31744) eqn:E1, (Z.land h 1023 =? 0) eqn:E2; cbn [andb negb]; split; intros; lia.
Qed.

Lemma f16_read_write : forall h, 0 <= h < 2 ^ 16 ->
  decodes ReadFloat16 (bits_of 16 h) (f16_to_f32 h) /\
  roundtrips (WriteFloat16 (f16_to_f32 h)) ReadFloat16
    (bits_of 16 (f32_to_f16 (f16_to_f32 h))) (f16_to_f32 h) /\
  (~ f16_is_nan h -> f32_to_f16 (f16_to_f32 h) = h) /\
  (f16_is_nan h -> f32_to_f16 (f16_to_f32 h) = Z.lor h 0x200).
Proof. intros h Hh. split; [now apply ReadFloat16_dec|now apply f16_read]. Qed.

(** ** What the field writers do with the same values *)

Lemma fields_reject : forall v n, 1 <= n <= 64 ->
  (2 ^ n <= v < 2 ^ 64 -> rejects (WriteUnsignedBits v n) ErrValueOutOfBitRange) /\
  (0 <= v < 2 ^ n -> encodes (WriteUnsignedBits v n) (bits_of (Z.to_nat n) (v mod 2 ^ n))) /\
  (v < - 2 ^ (n - 1) \/ 2 ^ (n - 1) <= v -> rejects (WriteSignedBits v n) ErrValueOutOfBitRange) /\
  (- 2 ^ (n - 1) <= v < 2 ^ (n - 1) -> encodes (WriteSignedBits v n) (bits_of (Z.to_nat n) (v mod 2 ^ n))).
Proof.
  intros v n Hn. repeat split; intros H.
  - apply WriteUnsignedBits_rejects; lia.
  - rewrite bits_of_modn by lia. apply WriteUnsignedBits_ok; lia.
  - now apply WriteSignedBits_rejects.
  - rewrite bits_of_modn by lia. now apply WriteSignedBits_ok.
Qed.
