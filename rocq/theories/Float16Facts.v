(** Facts about half-precision floats. *)

Require Import ZArith List Bool Lia.
From Verif Require Import Bits BitsFacts Stream Spec StreamFacts Scalars ScalarFacts PrefixFacts Float16 Float16Convert.
Import ListNotations.
Open Scope Z_scope.

Lemma f32_to_f16_range : forall u, 0 <= f32_to_f16 u < 2 ^ 16.
Proof.
  intros u. unfold f32_to_f16.
  repeat match goal with |- context [if ?c then _ else _] => destruct c end;
    apply (to_u_range 16); lia.
Qed.

Lemma ReadFloat16_dec : forall h, 0 <= h < 2 ^ 16 -> decodes ReadFloat16 (bits_of 16 h) (f16_to_f32 h).
Proof.
  intros h Hh. change 16%nat with (8 * 2)%nat. rewrite <- be_bytes_bits. eapply decodes_map.
  - apply decodes_read_full; [apply be_bytes_is_byte|]. now rewrite be_bytes_length.
  - rewrite be_value_bytes. now rewrite Z.mod_small by exact Hh.
Qed.

Lemma WriteFloat16_enc : forall u, encodes (WriteFloat16 u) (bits_of 16 (f32_to_f16 u)).
Proof. intros u. change 16%nat with (8 * 2)%nat. rewrite <- be_bytes_bits. apply encodes_put. Qed.

(** Every value a reader can produce is written and read back unchanged. *)
Lemma WriteFloat16_rt : forall h, 0 <= h < 2 ^ 16 ->
  roundtrips (WriteFloat16 (f16_to_f32 h)) ReadFloat16
    (bits_of 16 (f32_to_f16 (f16_to_f32 h))) (f16_to_f32 h).
Proof.
  intros h Hh. split; [apply WriteFloat16_enc|].
  destruct (f16_checked h Hh) as (E & _). rewrite <- E at 2.
  apply ReadFloat16_dec. apply f32_to_f16_range.
Qed.

Lemma pd_ReadFloat16 : prefix_determined ReadFloat16.
Proof. apply pd_bind; [apply pd_read_full; lia|]. intros l. apply pd_ret. Qed.

Lemma np_ReadFloat16 : never_panics ReadFloat16.
Proof. apply np_bind; [apply np_read_full|]. intros l. apply np_ret. Qed.
