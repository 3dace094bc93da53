(** Properties C15, C16, C25, C45-C47: delta packing and element codecs. *)

Require Import ZArith List Bool Lia.
From Verif Require Import Bits Stream Spec Scalars ScalarTable ScalarThms Float16 Traits TraitSpec Delta DeltaSpec
  DeltaFacts SizeFacts TraitCache TraitThms.
Import ListNotations.
Open Scope Z_scope.

(** ** C15 *)

(** Every sequence of in-range integers, bit fields or bools survives a delta
    context, whatever its length and differences. *)
Theorem C15_roundtrip : forall b es, wf_builtin b -> integer_like b -> Forall (in_range b) es ->
  exists bs, roundtrips (delta_marshal (traits_of b) es) (delta_unmarshal (traits_of b) (length es)) bs es.
Proof. exact builtin_delta_roundtrip. Qed.
Print Assumptions C15_roundtrip.

(** The exact bits: plain, or packed with the least width that holds every
    difference of neighbours. *)
Theorem C15_wire_format : forall b es m, wf_builtin b -> integer_like b -> Forall (in_range b) es -> es <> [] ->
  delta_width (map (t_as (traits_of b)) es) m ->
  roundtrips (delta_marshal (traits_of b) es) (delta_unmarshal (traits_of b) (length es))
    (delta_wire (map (wire b) es) (map (size_of (traits_of b)) es) (map (t_as (traits_of b)) es) m) es.
Proof. exact builtin_delta_wire. Qed.
Print Assumptions C15_wire_format.

(** Not only for the builtin types: any element codec that round-trips, whose
    elements are determined by their 64-bit number and have a size. *)
Theorem C15_any_codec : forall A (T : traits A) (enc : A -> list bool) e es,
  Forall (fun e => roundtrips (t_write T e) (t_read T) (enc e) e) (e :: es) ->
  Forall (fun e => 0 <= t_as T e < 2 ^ 64 /\ t_from T (t_as T e) = e) (e :: es) ->
  Forall (fun e => exists s, t_size T e = Ok s) (e :: es) ->
  exists bs, roundtrips (delta_marshal T (e :: es)) (delta_unmarshal T (length (e :: es))) bs (e :: es).
Proof. exact @any_codec_roundtrip. Qed.
Print Assumptions C15_any_codec.

Example C15_packed : let es := [1000; 1003; 1001; 1001; 990; 1002] in
  wf_builtin (BBits (GU 16) 16) /\ integer_like (BBits (GU 16) 16) /\ Forall (in_range (BBits (GU 16) 16)) es /\
  delta_width (map (t_as (traits_of (BBits (GU 16) 16))) es) 4 /\
  length (output (delta_marshal (traits_of (BBits (GU 16) 16)) es)) = 48%nat /\
  snd (delta_unmarshal (traits_of (BBits (GU 16) 16)) 6
    (mkR 0 (output (delta_marshal (traits_of (BBits (GU 16) 16)) es)))) = Ok es.
Proof.
  cbn [wf_builtin integer_like go_width]. unfold delta_width.
  split; [unfold go_width; lia|]. split; [exact I|]. split; [repeat constructor; cbn; lia|].
  split; [|split; vm_compute; reflexivity].
  split; [lia|]. split.
  - intros a b0 H. vm_compute in H. repeat (destruct H as [H|H]; [injection H as <- <-; vm_compute; reflexivity|]).
    contradiction.
  - right. exists 990, 1002. split; [vm_compute; tauto|vm_compute; discriminate].
Qed.
(** Differences that need more than 62 bits are stored plainly. *)
Example C15_huge_differences : let es := [- 2 ^ 63; 2 ^ 63 - 1; 0; -1] in
  Forall (in_range BVarint) es /\
  snd (delta_unmarshal (traits_of BVarint) 4 (mkR 0 (output (delta_marshal (traits_of BVarint) es)))) = Ok es.
Proof. split; [|vm_compute; reflexivity]. repeat constructor; cbn; unfold in_s; vm_compute; try discriminate; reflexivity. Qed.

(** ** C16 *)

(** The prediction is exact if the element sizes are, and packing never costs
    more than its one descriptor bit. *)
Theorem C16_size : forall b es, wf_builtin b -> integer_like b -> Forall (in_range b) es ->
  es <> [] -> Forall (size_right b) es ->
  delta_bitsize (traits_of b) es = Ok (Z.of_nat (length (output (delta_marshal (traits_of b) es)))) /\
  Z.of_nat (length (output (delta_marshal (traits_of b) es))) <=
    1 + sum (map (fun e => Z.of_nat (length (output (t_write (traits_of b) e)))) es).
Proof. exact builtin_delta_size. Qed.
Print Assumptions C16_size.

Theorem C16_any_codec : forall A (T : traits A) (enc : A -> list bool) es, es <> [] ->
  Forall (fun e => roundtrips (t_write T e) (t_read T) (enc e) e) es ->
  Forall (fun e => 0 <= t_as T e < 2 ^ 64 /\ t_from T (t_as T e) = e) es ->
  Forall (fun e => t_size T e = Ok (Z.of_nat (length (enc e)))) es ->
  delta_bitsize T es = Ok (Z.of_nat (length (output (delta_marshal T es)))) /\
  Z.of_nat (length (output (delta_marshal T es))) <= 1 + sum (map (fun e => Z.of_nat (length (enc e))) es).
Proof. exact @delta_size_exact. Qed.
Print Assumptions C16_any_codec.

Example C16_applies : let es := [300; 301; 299; 70000] in
  Forall (in_range BVaruint32) es /\ Forall (size_right BVaruint32) es /\
  delta_bitsize (traits_of BVaruint32) es = Ok 73 /\
  length (output (delta_marshal (traits_of BVaruint32) es)) = 73%nat.
Proof.
  split; [repeat constructor; cbn; unfold MaxVaruint32; lia|].
  split; [repeat constructor|]. split; vm_compute; reflexivity.
Qed.

(** ** C25 *)

(** The size an element reports is the number of bits it writes, exactly for the
    values in [size_right]. *)
Theorem C25_element_size : forall b v, wf_builtin b -> in_range b v ->
  (t_size (traits_of b) v = Ok (Z.of_nat (length (output (t_write (traits_of b) v)))) <-> size_right b v).
Proof. exact builtin_size_right. Qed.
Print Assumptions C25_element_size.

Example C25_applies :
  (wf_builtin (BSBits (GS 16) 11) /\ in_range (BSBits (GS 16) 11) (-1000) /\ size_right (BSBits (GS 16) 11) (-1000)) /\
  (in_range BVaruint16 20000 /\ ~ size_right BVaruint16 20000 /\
   t_size (traits_of BVaruint16) 20000 = Ok 24 /\ length (wire BVaruint16 20000) = 16%nat).
Proof.
  split.
  - cbn. unfold go_width. repeat split; try lia; vm_compute; try discriminate; reflexivity.
  - split; [cbn; unfold MaxVaruint16; lia|]. split; [cbn; intros H; vm_compute in H; discriminate|].
    split; vm_compute; reflexivity.
Qed.

(** ** C45 *)

(** In any sequence of requests (Go type, width) each answer is determined by the
    requests before it: widths from 64 on panic; otherwise the codec has the
    requested type and width if no earlier request of that width had another
    type, and the request panics if the first one had. *)
Theorem C45_answer : forall reqs T n, Forall (fun r => 0 <= snd r) (reqs ++ [(T, n)]) ->
  last (answers (reqs ++ [(T, n)]) new_cache) Panic =
    if 64 <=? n then Panic
    else match find (fun r => snd r =? n) reqs with
         | None => Ok (T, n)
         | Some (T0, _) => if T0 =? T then Ok (T, n) else Panic
         end.
Proof. exact answers_last. Qed.
Print Assumptions C45_answer.

Example C45_applies :
  answers [(1, 5); (2, 7); (1, 5); (2, 5); (3, 64); (2, 7)] new_cache =
  [Ok (1, 5); Ok (2, 7); Ok (1, 5); Panic; Panic; Ok (2, 7)].
Proof. vm_compute. reflexivity. Qed.

(** ** C46 *)

(** A bit-field element is never rejected: any value at all is stored by its low
    bits, and an unsigned one reads back as its residue. *)
Theorem C46_unsigned_element : forall w n v, go_width w -> 1 <= n <= w ->
  roundtrips (t_write (traits_of (BBits (GU w) n)) v) (t_read (traits_of (BBits (GU w) n)))
    (bits_of (Z.to_nat n) (v mod 2 ^ n)) (v mod 2 ^ n).
Proof. exact unsigned_element_wraps. Qed.
Print Assumptions C46_unsigned_element.

(** A signed one reads back as the n-bit two's complement number [u] of the same
    residue. *)
Theorem C46_signed_element : forall w n v u, go_width w -> 1 <= n <= w ->
  - 2 ^ (n - 1) <= u < 2 ^ (n - 1) -> u mod 2 ^ n = v mod 2 ^ n ->
  roundtrips (t_write (traits_of (BSBits (GS w) n)) v) (t_read (traits_of (BSBits (GS w) n)))
    (bits_of (Z.to_nat n) (v mod 2 ^ n)) u.
Proof. exact signed_element_wraps. Qed.
Print Assumptions C46_signed_element.

(** The field writers reject the same values (C01, C02), and agree on the others. *)
Theorem C46_fields_reject : forall v n, 1 <= n <= 64 ->
  (2 ^ n <= v < 2 ^ 64 -> rejects (WriteUnsignedBits v n) ErrValueOutOfBitRange) /\
  (0 <= v < 2 ^ n -> encodes (WriteUnsignedBits v n) (bits_of (Z.to_nat n) (v mod 2 ^ n))) /\
  (v < - 2 ^ (n - 1) \/ 2 ^ (n - 1) <= v -> rejects (WriteSignedBits v n) ErrValueOutOfBitRange) /\
  (- 2 ^ (n - 1) <= v < 2 ^ (n - 1) -> encodes (WriteSignedBits v n) (bits_of (Z.to_nat n) (v mod 2 ^ n))).
Proof. exact fields_reject. Qed.
Print Assumptions C46_fields_reject.

Example C46_applies : go_width 8 /\ 1 <= 5 <= 8 /\ 100 mod 2 ^ 5 = 4 /\
  wire (BBits (GU 8) 5) 100 = [false; false; true; false; false] /\
  2 ^ 5 <= 100 < 2 ^ 64 /\ -12 mod 2 ^ 5 = 20 mod 2 ^ 5 /\ wire (BSBits (GS 8) 5) 20 = wire (BSBits (GS 8) 5) (-12).
Proof. unfold go_width. repeat split; try lia; vm_compute; try discriminate; reflexivity. Qed.

(** ** C47 *)

(** Every half-precision pattern is read, and what is read is written back
    unchanged except that a signalling NaN becomes quiet. *)
Theorem C47_float16 : forall h, 0 <= h < 2 ^ 16 ->
  decodes ReadFloat16 (bits_of 16 h) (f16_to_f32 h) /\
  roundtrips (WriteFloat16 (f16_to_f32 h)) ReadFloat16
    (bits_of 16 (f32_to_f16 (f16_to_f32 h))) (f16_to_f32 h) /\
  (~ f16_is_nan h -> f32_to_f16 (f16_to_f32 h) = h) /\
  (f16_is_nan h -> f32_to_f16 (f16_to_f32 h) = Z.lor h 0x200).
Proof. exact f16_read_write. Qed.
Print Assumptions C47_float16.

(** Writing never fails and takes 16 bits, whatever the float32. *)
Theorem C47_float16_total : forall u, encodes (WriteFloat16 u) (bits_of 16 (f32_to_f16 u)).
Proof. exact Float16Facts.WriteFloat16_enc. Qed.
Print Assumptions C47_float16_total.

Example C47_applies : ~ f16_is_nan 0x3e00 /\ f16_to_f32 0x3e00 = 0x3fc00000 /\ f16_is_nan 0x7c01 /\
  f32_to_f16 (f16_to_f32 0x7c01) = 0x7e01.
Proof.
  unfold f16_is_nan. split; [intros [H _]; vm_compute in H; discriminate|]. split; [vm_compute; reflexivity|].
  split; [split; vm_compute; [reflexivity|discriminate]|vm_compute; reflexivity].
Qed.
