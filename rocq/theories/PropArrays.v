(** Properties C17-C19 and C48-C50: arrays, failing writers, numbits. *)

Require Import ZArith List Bool Lia ZifyBool.
From Verif Require Import Bits Stream Spec PosSpec Scalars ScalarTable HonestSpec HonestFacts Traits TraitSpec Delta
  DeltaSpec DeltaFacts SizeFacts Array ArraySpec ArrayThms.
Import ListNotations.
Open Scope Z_scope.

(** ** C17 *)

(** Any element operations that round-trip (at any position, so that aligned and
    position-dependent elements are included), any number of elements that the
    configuration can hold. *)
Theorem C17_roundtrip : forall A N (K : elemops A N) cfg (es : list A) (enc : nat -> pbits),
  a_packed cfg = false -> holds cfg (length es) ->
  (forall i e, nth_error es i = Some e -> roundtrips_at (k_write K i e) (k_read K i) (enc i) e) ->
  roundtrips_at (write_array K cfg es) (read_array K cfg) (array_bits cfg (map enc (seq 0 (length es)))) es.
Proof. exact array_any_elements. Qed.
Print Assumptions C17_roundtrip.

(** In particular all builtin element types. *)
Theorem C17_builtin : forall b cfg es, wf_builtin b -> a_packed cfg = false -> holds cfg (length es) ->
  Forall (in_range b) es ->
  roundtrips_at (write_array (trait_ops (traits_of b)) cfg es) (read_array (trait_ops (traits_of b)) cfg)
    (array_bits cfg (map (fun e => pfix (output (t_write (traits_of b) e))) es)) es.
Proof. exact array_builtin. Qed.
Print Assumptions C17_builtin.

(** Too many elements for the length field: rejected, nothing is written. *)
Theorem C17_too_long : forall A N (K : elemops A N) cfg (es : list A), a_auto cfg = true ->
  MaxVarsize < Z.of_nat (length es) < 2 ^ 64 -> rejects (write_array K cfg es) ErrOutOfBounds.
Proof. exact array_too_long. Qed.
Print Assumptions C17_too_long.

Example C17_applies :
  let cfg := mkA true false 0 false false in let es := [[104; 105]; []; [33]] in
  wf_builtin BString /\ holds cfg (length es) /\ Forall (in_range BString) es /\
  length (output (write_array (trait_ops (traits_of BString)) cfg es)) = 56%nat /\
  snd (read_array (trait_ops (traits_of BString)) cfg (mkR 0
    (output (write_array (trait_ops (traits_of BString)) cfg es)))) = Ok es.
Proof.
  cbn zeta. split; [exact I|]. split; [vm_compute; discriminate|].
  split; [repeat constructor; cbn; unfold is_byte, MaxVarsize; lia|]. split; vm_compute; reflexivity.
Qed.
(** Aligned elements. *)
Example C17_aligned_applies :
  let cfg := mkA false false 3 true false in let es := [5; 0; 7] in
  holds cfg (length es) /\ Forall (in_range (BBits (GU 8) 3)) es /\
  output (write_array (trait_ops (traits_of (BBits (GU 8) 3))) cfg es) =
    [true; false; true; false; false; false; false; false; false; false; false; false; false; false; false; false; true; true; true] /\
  snd (read_array (trait_ops (traits_of (BBits (GU 8) 3))) cfg (mkR 0
    (output (write_array (trait_ops (traits_of (BBits (GU 8) 3))) cfg es)))) = Ok es.
Proof. cbn zeta. split; [reflexivity|]. split; [repeat constructor; cbn; lia|]. split; vm_compute; reflexivity. Qed.

(** ** C18 *)

(** Packed arrays of integers, bit fields and bools: the elements come back; the
    bits are those of the delta format of C15. *)
Theorem C18_integers : forall b cfg es, wf_builtin b -> integer_like b -> Forall (in_range b) es ->
  a_packed cfg = true -> holds cfg (length es) ->
  exists encs, length encs = length es /\
    roundtrips_at (write_array (trait_ops (traits_of b)) cfg es) (read_array (trait_ops (traits_of b)) cfg)
      (array_bits cfg (map pfix encs)) es /\
    (forall m, es <> [] -> delta_width (map (t_as (traits_of b)) es) m ->
       concat encs = delta_wire (map (fun e => output (t_write (traits_of b) e)) es)
                       (map (size_of (traits_of b)) es) (map (t_as (traits_of b)) es) m).
Proof. exact packed_integers. Qed.
Print Assumptions C18_integers.

(** Packed arrays of floats, strings, bytes and externs: written without error,
    but as soon as the sizes of the elements after the first add up to more than
    6 bits they all come back as the zero value. *)
Theorem C18_others : forall b cfg e l, wf_builtin b -> ~ integer_like b -> Forall (in_range b) (e :: l) ->
  a_packed cfg = true -> holds cfg (length (e :: l)) ->
  exists bits, roundtrips_at (write_array (trait_ops (traits_of b)) cfg (e :: l))
    (read_array (trait_ops (traits_of b)) cfg) bits
    (e :: (if 6 <? sum (map (size_of (traits_of b)) l) then repeat (t_zero (traits_of b)) (length l) else l)).
Proof. exact packed_others. Qed.
Print Assumptions C18_others.

Example C18_integers_apply :
  let cfg := mkA true true 0 false false in let es := [-3; 4; -5; 6; 100] in
  wf_builtin (BSBits (GS 16) 11) /\ integer_like (BSBits (GS 16) 11) /\ Forall (in_range (BSBits (GS 16) 11)) es /\
  holds cfg (length es) /\
  snd (read_array (trait_ops (traits_of (BSBits (GS 16) 11))) cfg (mkR 0
    (output (write_array (trait_ops (traits_of (BSBits (GS 16) 11))) cfg es)))) = Ok es.
Proof.
  cbn zeta. split; [cbn; unfold go_width; lia|]. split; [exact I|]. split; [repeat constructor; cbn; lia|].
  split; [vm_compute; discriminate|vm_compute; reflexivity].
Qed.
Example C18_others_refuted :
  let cfg := mkA true true 0 false false in let es := [0x3f800000; 0x40000000; 0x40400000] in
  ~ integer_like BFloat32 /\ Forall (in_range BFloat32) es /\ holds cfg (length es) /\
  snd (write_array (trait_ops (traits_of BFloat32)) cfg es (mkW [] [])) = Ok tt /\
  snd (read_array (trait_ops (traits_of BFloat32)) cfg (mkR 0
    (output (write_array (trait_ops (traits_of BFloat32)) cfg es)))) = Ok [0x3f800000; 0; 0].
Proof.
  cbn zeta. split; [intros H; exact H|]. split; [repeat constructor; cbn; unfold in_u; lia|].
  split; [vm_compute; discriminate|split; vm_compute; reflexivity].
Qed.

(** ** C19 *)

(** The only error an array writer ever reports is that of its length field,
    whatever its elements and the underlying writer do. *)
Theorem C19_errors : forall A N (K : elemops A N) cfg es w e, a_check cfg = false ->
  (forall x, k_create K <> Err x) -> snd (write_array K cfg es w) = Err e ->
  a_auto cfg = true /\ snd (WriteVarsize (u64 (Z.of_nat (length es))) w) = Err e.
Proof. exact array_errors. Qed.
Print Assumptions C19_errors.

(** A fixed-length array writer always reports success. *)
Theorem C19_always_success : forall A N (K : elemops A N) cfg es w, a_check cfg = false -> a_packed cfg = false ->
  a_auto cfg = false ->
  (forall i e w, exists w', k_write K i e w = (w', Ok tt) \/ exists x, k_write K i e w = (w', Err x)) ->
  snd (write_array K cfg es w) = Ok tt.
Proof. exact array_always_ok. Qed.
Print Assumptions C19_always_success.

(** A rejected element is silently left out of the stream, although the length
    field counts it. *)
Theorem C19_element_dropped : forall A N (K : elemops A N) cfg (wires : A -> list bool) pre bad post x,
  a_check cfg = false -> a_packed cfg = false ->
  (a_auto cfg = true -> Z.of_nat (length (pre ++ bad :: post)) <= MaxVarsize) ->
  (forall i e, In e (pre ++ post) -> encodes (k_write K i e) (wires e)) ->
  (forall i, rejects (k_write K i bad) x) ->
  encodes (write_array K cfg (pre ++ bad :: post))
    (length_bits cfg (length (pre ++ bad :: post)) ++ concat (map wires pre) ++ concat (map wires post)).
Proof. exact array_drops_element. Qed.
Print Assumptions C19_element_dropped.

(** 40000 does not fit a varuint16; the reader then misreads the stream. *)
Example C19_applies :
  let cfg := mkA true false 0 false false in let K := trait_ops (traits_of BVaruint16) in
  snd (t_write (traits_of BVaruint16) 40000 (mkW [] [])) = Err ErrOutOfBounds /\
  write_array K cfg [1; 40000; 3] (mkW [] []) = (mkW (bits_of 8 3 ++ bits_of 8 1 ++ bits_of 8 3) [], Ok tt) /\
  snd (read_array K cfg (mkR 0 (bits_of 8 3 ++ bits_of 8 1 ++ bits_of 8 3))) = Err EOF.
Proof. repeat split; vm_compute; reflexivity. Qed.
(** The second element is lost to a failure of the underlying writer. *)
Example C19_io_failure :
  let cfg := mkA false false 3 false false in
  write_array (trait_ops (traits_of (BBits (GU 8) 8))) cfg [1; 2; 3] (mkW [] [false; true]) =
    (mkW (bits_of 8 1 ++ bits_of 8 3) [], Ok tt).
Proof. vm_compute. reflexivity. Qed.

(** ** C48 *)

(** A scalar writer that reports success has written the whole encoding, for any
    pattern of failures of the underlying writer. *)
Theorem C48_scalars : forall A w r P, scalar_type A w r P -> forall v bs st st', encodes (w v) bs ->
  w v st = (st', Ok tt) -> wbits st' = wbits st ++ bs.
Proof. exact scalar_success. Qed.
Print Assumptions C48_scalars.

(** So do the writers of array elements. *)
Theorem C48_elements : forall b v, honest (t_write (traits_of b) v).
Proof. exact trait_honest. Qed.
Print Assumptions C48_elements.

Example C48_applies : scalar_type Z WriteVaruint32 ReadVaruint32 (fun v => 0 <= v <= MaxVaruint32) /\
  snd (WriteVaruint32 70000 (mkW [] [false; true; false])) = Err ErrIO /\
  WriteVaruint32 70000 (mkW [] [false; false; false; true]) = (mkW (output (WriteVaruint32 70000)) [true], Ok tt).
Proof. split; [constructor|]. split; vm_compute; reflexivity. Qed.

(** ** C49 *)

(** Elements of variable size (whose own sizes are right, C25): the predicted
    size of an array is right exactly when that of its length field is. *)
Theorem C49_variable : forall b cfg es pos, wf_builtin b -> t_const (traits_of b) = false ->
  a_packed cfg = false -> a_check cfg = false -> a_set cfg = false ->
  holds cfg (length es) -> Forall (in_range b) es -> Forall (size_right b) es ->
  (array_bitsize (traits_of b) cfg es pos =
     Ok (Z.of_nat (length (output (write_array (trait_ops (traits_of b)) cfg es)))) <-> length_size_right cfg (length es)).
Proof. exact array_size_variable. Qed.
Print Assumptions C49_variable.

(** Elements of constant size [s]: the prediction is never too small; it is right
    exactly when that of the length field is, the array starts at a byte boundary
    and the elements are whole bytes (or there is only one). *)
Theorem C49_constant : forall b cfg es pos s, wf_builtin b -> t_const (traits_of b) = true ->
  t_size (traits_of b) (t_zero (traits_of b)) = Ok s ->
  a_packed cfg = false -> a_check cfg = false -> a_set cfg = false ->
  holds cfg (length es) -> Forall (in_range b) es -> es <> [] -> 0 <= pos ->
  (forall p, array_bitsize (traits_of b) cfg es pos = Ok p ->
     Z.of_nat (length (output (write_array (trait_ops (traits_of b)) cfg es))) <= p) /\
  (array_bitsize (traits_of b) cfg es pos =
     Ok (Z.of_nat (length (output (write_array (trait_ops (traits_of b)) cfg es)))) <->
   length_size_right cfg (length es) /\ pos mod 8 = 0 /\ (length es = 1%nat \/ s mod 8 = 0)).
Proof. exact array_size_constant. Qed.
Print Assumptions C49_constant.

Example C49_applies :
  let cfg := mkA true false 0 false false in
  (array_bitsize (traits_of (BBits (GU 16) 16)) cfg [1; 2; 3] 8 = Ok 56 /\
   length (output (write_array (trait_ops (traits_of (BBits (GU 16) 16))) cfg [1; 2; 3])) = 56%nat) /\
  (array_bitsize (traits_of BBool) cfg [true; false; true] 0 = Ok 25 /\
   length (output (write_array (trait_ops (traits_of BBool)) cfg [true; false; true])) = 11%nat) /\
  (array_bitsize (traits_of BVaruint) cfg (repeat 1 64) 0 = Ok (16 + 64 * 8) /\
   length (output (write_array (trait_ops (traits_of BVaruint)) cfg (repeat 1 64))) = (8 + 64 * 8)%nat).
Proof. repeat split; vm_compute; reflexivity. Qed.

(** ** C50 *)

(** Outside of 0 and 1, the run-time numbits is the least number of bits that can
    tell that many values apart. *)
Theorem C50_runtime : forall v, 2 <= v < 2 ^ 64 ->
  v <= 2 ^ NumBits v /\ (forall k, 0 <= k -> v <= 2 ^ k -> NumBits v <= k).
Proof. exact NumBits_least. Qed.
Print Assumptions C50_runtime.

Example C50_applies : map NumBits [0; 1; 2; 3; 4; 5; 8; 9; 2 ^ 64 - 1] = [0; 1; 1; 2; 2; 3; 3; 4; 64].
Proof. vm_compute. reflexivity. Qed.
