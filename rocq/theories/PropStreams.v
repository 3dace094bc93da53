(** Properties C12-C14: bit streams, alignment, Marshal and Unmarshal. *)

Require Import ZArith List Bool Lia.
From Verif Require Import Bits BitsFacts Stream Spec Scalars BitIO Marshal StreamSpec StreamFacts PrefixFacts StreamThms.
Import ListNotations.
Open Scope Z_scope.

(** ** C12 *)

(** Whatever a client does with the byte-cached writer, the closed stream is the
    concatenation of what it wrote, zero padded, and BitsCount is its length. *)
Theorem C12_writer : forall p, wprog_ok p ->
  exists w, bw_run p bw_new = (w, ends p 0) /\ bcount w = Z.of_nat (length (written p 0)) /\
    zero_padded (bw_close w) (written p 0).
Proof. exact bw_run_spec. Qed.
Print Assumptions C12_writer.

(** The ideal stream all the codecs are modelled on writes the same bits. *)
Theorem C12_writer_ideal : forall p, wprog_ok p ->
  st_run p (mkW [] []) = (mkW (written p 0) [], ends p 0).
Proof. exact (fun p => st_run_spec p []). Qed.
Print Assumptions C12_writer_ideal.

(** No client can tell the byte-cached reader from the ideal one: it sees the
    same values, errors and positions, also after failed reads. *)
Theorem C12_reader : forall p l, rprog_ok p -> Forall is_byte l ->
  br_run p (br_new l) = sr_run p (mkR 0 (bytes_bits l)).
Proof. exact br_run_spec. Qed.
Print Assumptions C12_reader.

(** Reading fields of any widths returns the successive slices of the input, and
    fails exactly when there are not enough bits. *)
Theorem C12_reader_slices : forall ns l, Forall (fun n => 1 <= n <= 64)%nat ns -> Forall is_byte l ->
  br_run (read_fields ns []) (br_new l) =
    if (total ns <=? 8 * length l)%nat then Ok (slices ns (bytes_bits l)) else Err EOF.
Proof. exact br_read_fields. Qed.
Print Assumptions C12_reader_slices.

(** The widths start at 1: a zero-width read can return a stale value. *)
Theorem C12_zero_width_refuted : exists l v, Forall is_byte l /\
  br_run (RStep (IReadBits 3) (fun _ _ => RStep (IReadBits 5) (fun _ _ =>
          RStep (IReadBits 0) (fun v _ => match v with Ok x => RDone x | _ => RFail EOF end)))) (br_new l) = Ok [v] /\
  v <> 0.
Proof. exact zero_width_read. Qed.
Print Assumptions C12_zero_width_refuted.

Definition C12_prog : wprog :=
  WStep (OWriteBits 5 3) (fun _ => WStep (OWrite [255; 1]) (fun pos => WStep (OWriteBool true) (fun _ =>
  WStep (OAlign 8) (fun _ => WStep (OWriteBits (u64 pos) 13) (fun _ => WDone))))).
Example C12_applies : wprog_ok C12_prog /\
  Marshal_bytes C12_prog = Ok [191; 224; 48; 0; 152] /\
  bw_close (fst (bw_run C12_prog bw_new)) = [191; 224; 48; 0; 152].
Proof.
  split; [|split; vm_compute; reflexivity]. cbn [C12_prog wprog_ok wop_ok]. unfold in_u, is_byte.
  repeat split; try lia; try (repeat constructor; lia); intros; apply (to_u_range 64); lia.
Qed.
Example C12_reader_applies : Forall (fun n => 1 <= n <= 64)%nat [3; 7; 1; 20]%nat /\
  br_run (read_fields [3; 7; 1; 20]%nat []) (br_new [171; 205; 239; 1]) = Ok [5; 47; 0; 456576].
Proof. split; [repeat constructor; lia|vm_compute; reflexivity]. Qed.

(** ** C13 *)

(** Writer: the least number of zero bits, and the new position. *)
Theorem C13_writer : forall b w, (0 < b)%nat -> wfaults w = [] ->
  exists d, least_padding (Z.of_nat (length (wbits w))) (Z.of_nat b) (Z.of_nat d) /\
    walign b w = (mkW (wbits w ++ repeat false d) [], Ok (length (wbits w) + d)%nat).
Proof. exact walign_spec. Qed.
Print Assumptions C13_writer.

(** Reader: the same number of bits is skipped, whatever they are. *)
Theorem C13_reader : forall b pos rem, (0 < b)%nat ->
  exists d, least_padding (Z.of_nat pos) (Z.of_nat b) (Z.of_nat d) /\
    ((d <= length rem)%nat -> ralign b (mkR pos rem) = (mkR (pos + d) (skipn d rem), Ok (pos + d)%nat)) /\
    ((length rem < d)%nat -> snd (ralign b (mkR pos rem)) = Err EOF).
Proof. exact ralign_spec. Qed.
Print Assumptions C13_reader.

(** The size prediction uses the same number. *)
Theorem C13_count : forall pos b, 0 <= pos -> 0 < b ->
  exists d, CountAlignBits pos b = Some d /\ least_padding pos b d.
Proof. exact CountAlignBits_spec. Qed.
Print Assumptions C13_count.

(** The least padding is unique, so the three agree. *)
Theorem C13_agree : forall pos b d1 d2, least_padding pos b d1 -> least_padding pos b d2 -> d1 = d2.
Proof. exact least_padding_unique. Qed.
Print Assumptions C13_agree.

(** Boundary 0 panics everywhere. *)
Theorem C13_zero_panics : forall w r b pos,
  snd (walign 0 w) = Panic /\ snd (ralign 0 r) = Panic /\ bw_align 0 b = None /\ CountAlignBits pos 0 = None.
Proof. exact (fun w r b pos => conj eq_refl (conj eq_refl (conj eq_refl eq_refl))). Qed.
Print Assumptions C13_zero_panics.

(** Every boundary above 249 loses padding at some position: Align reports an
    aligned position, but fewer bits were written. *)
Theorem C13_large_boundary_refuted : forall b, 250 <= b <= 255 -> exists n w,
  bw_run (bools n (WStep (OAlign b) (fun _ => WDone))) bw_new = (w, Ok tt) /\
  bcount w mod b = 0 /\ Z.of_nat (8 * length (bw_close w)) < bcount w.
Proof. exact big_boundaries. Qed.
Print Assumptions C13_large_boundary_refuted.

Example C13_applies : least_padding 13 8 3 /\ CountAlignBits 13 8 = Some 3.
Proof.
  split; [|reflexivity]. split; [lia|]. split; [reflexivity|]. intros d' H0 H.
  destruct (Z.le_gt_cases 3 d') as [L|L]; [exact L|].
  assert (C : d' = 0 \/ d' = 1 \/ d' = 2) by lia. destruct C as [->|[->| ->]]; discriminate H.
Qed.

(** ** C14 *)

(** On success: the encoding, zero padded, in ceil(bits/8) bytes. *)
Theorem C14_marshal : forall m bs, encodes m bs ->
  exists b, Marshal m = Ok b /\ zero_padded b bs /\ length b = ((length bs + 7) / 8)%nat.
Proof. exact (fun m bs H => ex_intro _ (pack bs) (conj (Marshal_ok m bs H) (conj (pack_padded bs) (pack_length bs)))). Qed.
Print Assumptions C14_marshal.

(** On failure: the error and no bytes. *)
Theorem C14_marshal_error : forall m w e, m (mkW [] []) = (w, Err e) -> Marshal m = Err e.
Proof. exact Marshal_error. Qed.
Print Assumptions C14_marshal_error.

(** The byte-cached stream gives the same bytes, for every client of the writer. *)
Theorem C14_marshal_bytes : forall p, wprog_ok p -> Marshal_bytes p = Marshal (st_run p).
Proof. exact Marshal_bytes_ideal. Qed.
Print Assumptions C14_marshal_bytes.

(** Round trip through bytes, with anything appended. *)
Theorem C14_roundtrip : forall A (m : writer unit) (r : reader A) bs a,
  roundtrips m r bs a ->
  exists b, Marshal m = Ok b /\ forall suffix, Unmarshal r (b ++ suffix) = Ok a.
Proof.
  exact (fun A m r bs a H => ex_intro _ (pack bs) (conj (Marshal_ok m bs (proj1 H))
    (fun suffix => Unmarshal_ok r bs a suffix (proj2 H)))).
Qed.
Print Assumptions C14_roundtrip.

(** Appended bytes never change a successful result. *)
Theorem C14_suffix : forall A (r : reader A) b a, prefix_determined r ->
  Unmarshal r b = Ok a -> forall suffix, Unmarshal r (b ++ suffix) = Ok a.
Proof. exact (fun A r b a => Unmarshal_suffix r b a). Qed.
Print Assumptions C14_suffix.

Example C14_applies : Marshal (WriteUnsignedBits 1337 11) = Ok [167; 32] /\
  Unmarshal (ReadUnsignedBits 11) [167; 32; 99] = Ok 1337 /\
  Marshal (WriteUnsignedBits 5000 11) = Err ErrValueOutOfBitRange.
Proof. repeat split; vm_compute; reflexivity. Qed.
