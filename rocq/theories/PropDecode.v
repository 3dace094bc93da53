(** Properties C43, C44 and C64: decoding arbitrary input. *)

Require Import ZArith List Bool Lia ZifyBool ZifyNat.
From Verif Require Import Bits BitsFacts Stream Spec PosSpec Scalars ScalarTable Traits TraitSpec Delta
  Array ArraySpec Schema SchemaSpec SchemaExample DecodeSpec DecodeFacts DecodeRange DecodeTotal DecodeValid DecodeThms.
Import ListNotations.
Open Scope Z_scope.

(** ** An example *)

(** The schema of [SchemaExample.v], with a width that is always between 1 and 32;
    [flat_schema] is the same without "packed":
    <<
    struct Message {
      uint8 n; Kind kind; optional string name; bit<(n & 31) + 1> flags if kind == 1;
      align(8): packed Point points[]; Payload(kind) payload; uint16 data[n]; optional Message next;
    };
    >> *)
Definition in_schema_of (packed : bool) : schema := [
  DScalar (Std (BBits (GU 8) 8));
  DStruct [plain_field (TBasic (Std BVarint32)); plain_field uint16_t; optional_field int8_t];
  DChoice (fun ps => match ps with VInt z :: _ => Some z | _ => None end)
    [([1; 2], Some (plain_field uint8_t)); ([3], None)] (Some (plain_field (TBasic (Std BString))));
  DStruct [
    plain_field uint8_t;
    plain_field (TRef Kind no_args);
    optional_field (TBasic (Std BString));
    mkF (TBasic (Bits false (GU 64) (fun E => match slot_int 0 E with Some n => Some (Z.land n 31 + 1) | None => None end))) None false
      (Some (fun E => match slot_int 1 E with Some k => Some (k =? 1) | None => None end)) 0 false;
    mkF (TRef Point no_args) (Some (None, packed)) false None 8 false;
    plain_field (TRef Payload (fun E _ => match slot_int 1 E with Some k => Some [VInt k] | None => None end));
    mkF uint16_t (Some (Some (slot_int 0), false)) false None 0 false;
    optional_field (TRef Message no_args)];
  DUnion [plain_field uint8_t; plain_field (TRef Message no_args)]
].
Definition in_schema : schema := in_schema_of true.
Definition flat_schema : schema := in_schema_of false.

Definition in_params (id : nat) (ps : list value) : Prop := id = Payload -> exists z rest, ps = VInt z :: rest.
Definition in_packed (id : nat) : Prop := id = Point.
Definition in_rank (id : nat) : nat := nth id [0; 0; 0; 1; 0]%nat 0%nat.

Ltac each_field i Hf :=
  repeat (destruct i as [|i]; [try discriminate Hf; injection Hf as <-|try (destruct i; discriminate Hf)]).

Lemma in_first : forall n fs done, Forall2 (slot_typed (typed in_schema n)) (plain_field uint8_t :: plain_field (TRef Kind no_args) :: fs) done ->
  exists a b rest, done = Some (VInt a) :: Some (VInt b) :: rest /\ 0 <= a < 256.
Proof.
  intros n fs done H. inversion H as [|f1 s1 fs1 ss1 H1 R1]; subst. inversion R1 as [|f2 s2 fs2 ss2 H2 R2]; subst.
  destruct s1 as [v1|]; [|destruct H1 as [H1|H1]; [discriminate|now destruct H1]]. destruct H1 as (a & -> & Ha).
  destruct s2 as [v2|]; [|destruct H2 as [H2|H2]; [discriminate|now destruct H2]].
  destruct n as [|n]; [contradiction|]. destruct H2 as (d & Hd & H2). injection Hd as <-. destruct H2 as (b & -> & _).
  exists a, b, ss2. split; [reflexivity|]. exact Ha.
Qed.

Ltac type_field H := unfold in_packed, in_rank, Kind, Point, Payload, Message, Any; cbn [nth]; repeat split; intros;
  try (eexists; reflexivity); try (left; lia); try (right; left; reflexivity); try (right; right; right; exact I); try (match goal with X : exists _, _ |- _ => destruct X; discriminate end);
  try discriminate; try lia.

Lemma in_safe : safe in_schema in_params in_packed in_rank 2.
Proof.
  assert (N : forall j ps', j <> Payload -> in_params j ps') by (intros j ps' Hj Hj'; contradiction).
  constructor.
  - intros id t H. destruct id as [|[|[|[|[|id]]]]]; try discriminate H; [|destruct id; discriminate].
    injection H as <-. cbn; unfold go_width; split; intros; lia.
  - intros id selector cases default ps H Hi. destruct id as [|[|[|[|[|id]]]]]; try discriminate H; [|destruct id; discriminate].
    injection H as <- <- <-. destruct (Hi eq_refl) as (z & rest & ->). eauto.
  - intros id d i f ps E Hd Hf Hi HV.
    destruct id as [|[|[|[|[|id]]]]]; [injection Hd as <-; cbn [fields_of choice_fields flat_map snd app] in Hf ..|destruct id; discriminate].
    + destruct i; discriminate.
    + destruct i as [|[|[|i]]]; [injection Hf as <- ..|destruct i; discriminate];
      (split; [|intros _]; (exists true; split; [reflexivity|intros _; split; [cbn; unfold go_width; try lia; exact I|exact I]])).
    + destruct i as [|[|i]]; [injection Hf as <- ..|destruct i; discriminate];
      (split; [|discriminate]; (exists true; split; [reflexivity|intros _; split; [cbn; unfold go_width; try lia; exact I|exact I]])).
    + destruct HV as (n & done & HF & ->).
      assert (B : (2 <= i)%nat -> exists a b rest, done = Some (VInt a) :: Some (VInt b) :: rest /\ 0 <= a < 256).
      { intros Hge. destruct i as [|[|i]]; try lia. exact (in_first _ _ _ HF). }
      destruct i as [|[|[|[|[|[|[|[|i]]]]]]]]; [injection Hf as <- ..|destruct i; discriminate]; (split; [|discriminate]);
        try (destruct (B ltac:(lia)) as (a & b & rest & -> & Ha)); clear HF B.
      * exists true. split; [reflexivity|]. intros _. split; [cbn; unfold go_width; lia|exact I].
      * exists true. split; [reflexivity|]. intros _. split; [|exact I]. intros j. exists []. split; [reflexivity|now apply N].
      * exists true. split; [reflexivity|]. intros _. split; exact I.
      * eexists. split; [reflexivity|]. intros _. split; [|exact I]. cbn [f_type f_array readable].
        split; [unfold go_width; cbn; lia|]. eexists. split; [reflexivity|]. change 31 with (Z.ones 5). rewrite Z.land_ones by lia.
        pose proof (Z.mod_pos_bound a (2 ^ 5) ltac:(lia)) as R. change (2 ^ 5) with 32 in *.
        rewrite to_u_small by (change (2 ^ 8) with 256; lia). split; [lia|discriminate].
      * exists true. split; [reflexivity|]. intros _. split; [|exact I]. intros j. exists []. split; [reflexivity|now apply N].
      * exists true. split; [reflexivity|]. intros _. split; [|exact I]. intros j. eexists. split; [reflexivity|]. intros _. eauto.
      * exists true. split; [reflexivity|]. intros _. split; [cbn; unfold go_width; lia|]. eexists. split; [reflexivity|].
        unfold i64. rewrite to_s_small; [lia|lia|]. change (2 ^ (64 - 1)) with 9223372036854775808. lia.
      * exists true. split; [reflexivity|]. intros _. split; [|exact I]. intros j. exists []. split; [reflexivity|now apply N].
    + destruct i as [|[|i]]; [injection Hf as <- ..|destruct i; discriminate];
      (split; [|discriminate]; (exists true; split; [reflexivity|intros _; split; [|exact I]])).
      * cbn; unfold go_width; lia.
      * intros j. exists []. split; [reflexivity|now apply N].
  - intros id d f id' args Hd Hf Ht.
    destruct id as [|[|[|[|[|id]]]]]; [injection Hd as <-; cbn [fields_of choice_fields flat_map snd app] in Hf ..|destruct id; discriminate].
    + contradiction.
    + destruct Hf as [<-|[<-|[<-|[]]]]; discriminate.
    + destruct Hf as [<-|[<-|[]]]; discriminate.
    + destruct Hf as [<-|[<-|[<-|[<-|[<-|[<-|[<-|[<-|[]]]]]]]]]; try discriminate; injection Ht as <- <-.
      * type_field tt.
      * type_field tt.
      * type_field tt.
      * type_field tt.
    + destruct Hf as [<-|[<-|[]]]; try discriminate; injection Ht as <- <-. type_field tt.
Qed.

Lemma in_wide : wide_packed in_schema in_packed.
Proof.
  constructor.
  - intros id t Hd Hp. unfold in_packed in Hp. subst id. discriminate.
  - intros id d f t Hd Hf Ht Hp.
    destruct id as [|[|[|[|[|id]]]]]; [injection Hd as <-; cbn [fields_of choice_fields flat_map snd app] in Hf ..|destruct id; discriminate].
    + contradiction.
    + destruct Hf as [<-|[<-|[<-|[]]]]; injection Ht as <-; cbn; lia || exact I.
    + exfalso. destruct Hp as [[len Hp]|[Hp _]]; [|discriminate]. destruct Hf as [<-|[<-|[]]]; discriminate.
    + exfalso. destruct Hp as [[len Hp]|[Hp _]]; [|discriminate].
      destruct Hf as [<-|[<-|[<-|[<-|[<-|[<-|[<-|[<-|[]]]]]]]]]; discriminate.
    + exfalso. destruct Hp as [[len Hp]|[Hp _]]; [|discriminate]. destruct Hf as [<-|[<-|[]]]; discriminate.
  - intros id d f id' args Hd Hf Ht Hp.
    destruct id as [|[|[|[|[|id]]]]]; [injection Hd as <-; cbn [fields_of choice_fields flat_map snd app] in Hf ..|destruct id; discriminate].
    + contradiction.
    + destruct Hf as [<-|[<-|[<-|[]]]]; discriminate.
    + destruct Hf as [<-|[<-|[]]]; discriminate.
    + destruct Hp as [[len Hp]|Hp]; [|discriminate].
      destruct Hf as [<-|[<-|[<-|[<-|[<-|[<-|[<-|[<-|[]]]]]]]]]; try discriminate. injection Ht as <- <-. reflexivity.
    + exfalso. destruct Hp as [[len Hp]|Hp]; [|discriminate]. destruct Hf as [<-|[<-|[]]]; discriminate.
Qed.

Lemma flat_no_packed : no_packed_arrays flat_schema.
Proof.
  intros id d f Hd Hf [len Hp].
  destruct id as [|[|[|[|[|id]]]]]; [injection Hd as <-; cbn [fields_of choice_fields flat_map snd app] in Hf ..|destruct id; discriminate].
  - contradiction.
  - destruct Hf as [<-|[<-|[<-|[]]]]; discriminate.
  - destruct Hf as [<-|[<-|[]]]; discriminate.
  - destruct Hf as [<-|[<-|[<-|[<-|[<-|[<-|[<-|[<-|[]]]]]]]]]; discriminate.
  - destruct Hf as [<-|[<-|[]]]; discriminate.
Qed.

Lemma flat_causal : causal flat_schema.
Proof.
  intros id d i f Hd Hf.
  do 5 (destruct id as [|id]; [injection Hd as <-;
    cbn [fields_of choice_fields flat_map snd app] in Hf;
    do 8 (destruct i as [|i]; [try discriminate Hf; injection Hf as <-; causal_field|]);
    (destruct i; discriminate) |]).
  destruct id; discriminate.
Qed.

Lemma flat_regular : regular flat_schema in_params.
Proof.
  assert (N : forall j ps', j <> Payload -> in_params j ps') by (intros j ps' Hj Hj'; contradiction).
  split.
  - intros id t b H Hb. destruct id as [|[|[|[|[|id]]]]]; try discriminate H; [|destruct id; discriminate].
    injection H as <-. injection Hb as <-. cbn. unfold go_width. lia.
  - intros id d f E Hd Hf _.
    destruct id as [|[|[|[|[|id]]]]]; [injection Hd as <-; cbn [fields_of choice_fields flat_map snd app] in Hf ..|destruct id; discriminate].
    + contradiction.
    + destruct Hf as [<-|[<-|[<-|[]]]]; (split; [cbn; lia|]); intros b Hb; injection Hb as <-; cbn; unfold go_width; lia || exact I.
    + destruct Hf as [<-|[<-|[]]]; (split; [cbn; lia|]); intros b Hb; injection Hb as <-; cbn; unfold go_width; lia || exact I.
    + destruct Hf as [<-|[<-|[<-|[<-|[<-|[<-|[<-|[<-|[]]]]]]]]]; (split; [cbn; lia|]).
      * intros b Hb. injection Hb as <-. cbn; unfold go_width; lia.
      * intros j ps _. now apply N.
      * intros b Hb. injection Hb as <-. exact I.
      * cbn [f_type]. intros b Hb. cbn [builtin_of] in Hb. destruct (slot_int 0 E) as [a|]; [|discriminate]. injection Hb as <-.
        cbn [wf_builtin]. change 31 with (Z.ones 5). rewrite Z.land_ones by lia.
        pose proof (Z.mod_pos_bound a (2 ^ 5) ltac:(lia)) as R. change (2 ^ 5) with 32 in *.
        rewrite to_u_small by (change (2 ^ 8) with 256; lia). unfold go_width. lia.
      * intros j ps _. now apply N.
      * cbn [f_type plain_field]. intros j ps H. destruct (slot_int 1 E); [|discriminate]. injection H as <-. intros _. eauto.
      * intros b Hb. injection Hb as <-. cbn; unfold go_width; lia.
      * intros j ps _. now apply N.
    + destruct Hf as [<-|[<-|[]]]; (split; [cbn; lia|]).
      * intros b Hb. injection Hb as <-. cbn; unfold go_width; lia.
      * intros j ps _. now apply N.
Qed.

(** ** C43 *)

(** Whatever the input, UnmarshalZserio returns an object of the type or an error,
    if no expression panics and every cycle of types reads at least one bit
    ([safe]).  The depth of the recursion is bounded by the length of the input. *)
Theorem C43_total : forall S I P rank top id d ps pos bits, safe S I P rank top ->
  nth_error S id = Some d -> I id ps ->
  exists n r' o, ((exists v, o = Ok v /\ typed S n id v) \/ exists e, o = Err e) /\
  forall fuel, (length bits * top + rank id < fuel)%nat -> UnmarshalZserio S fuel id ps (mkR pos bits) = (r', o).
Proof. exact decode_returns. Qed.
Print Assumptions C43_total.

(** No array with automatic length has more than 2^31-1 elements. *)
Theorem C43_array_length : forall {A N} (K : elemops A N) cfg r r' es, a_auto cfg = true ->
  read_array K cfg r = (r', Ok es) -> Z.of_nat (length es) <= 2 ^ 31 - 1.
Proof. exact @auto_length. Qed.
Print Assumptions C43_array_length.

(** But seven bytes are enough for any number of elements up to that. *)
Theorem C43_amplification : forall n b, 1 <= Z.of_nat n <= 2 ^ 31 - 1 -> 0 <= b < 256 ->
  exists bits, (length bits <= 55)%nat /\
  decodes (read_array (trait_ops (traits_of BUint8)) packed_auto) bits (repeat b n).
Proof. exact amplification. Qed.
Print Assumptions C43_amplification.

(** The conditions are needed: a type that contains an array of itself with a fixed
    length is never read, whatever the input ... *)
Theorem C43_endless : forall fuel r, snd (UnmarshalZserio self_array fuel 0 [] r) = NoFuel.
Proof. exact self_array_endless. Qed.
Print Assumptions C43_endless.

(** ... and a length or width from the input can panic: a negative length, a bit
    array of 64 bits, a signed integer of 65 bits. *)
Theorem C43_hostile_refuted : forall fuel, (0 < fuel)%nat ->
  snd (UnmarshalZserio negative_length fuel 0 [] (mkR 0 (bits_of 8 255))) = Panic /\
  snd (UnmarshalZserio wide_array fuel 0 [] (mkR 0 (bits_of 8 64 ++ bits_of 8 1))) = Panic /\
  snd (UnmarshalZserio wide_int fuel 0 [] (mkR 0 (bits_of 8 65))) = Panic.
Proof. exact hostile_panics. Qed.
Print Assumptions C43_hostile_refuted.

(** A recursive type with a packed array, computed widths and lengths, a choice and
    a union; garbage for it is an error, in time. *)
Example C43_applies : safe in_schema in_params in_packed in_rank 2 /\ in_params Any [] /\
  UnmarshalZserio in_schema 200 Any [] (mkR 0 (concat (map (bits_of 8) [2; 1; 1; 128; 200; 3]))) = (mkR 48 [], Err EOF).
Proof. split; [exact in_safe|]. split; [discriminate|]. vm_compute. reflexivity. Qed.

(** ** C44 *)

(** If everything that is delta packed takes at least six bits, the decoder of
    every type depends only on the bits it consumes, and every cut is an error. *)
Theorem C44_wide : forall S P fuel id ps, wide_packed S P -> prefix_determined (UnmarshalZserio S fuel id ps).
Proof. exact wide_prefix. Qed.
Print Assumptions C44_wide.

(** In particular without packed arrays. *)
Theorem C44_plain : forall S fuel id ps, no_packed_arrays S -> prefix_determined (UnmarshalZserio S fuel id ps).
Proof. exact plain_prefix. Qed.
Print Assumptions C44_plain.

(** A packed array of numbers of at most 5 bits whose input ends in the packing
    descriptor, after at least one element's width of bits, is read as an array of
    zeros of full length. *)
Theorem C44_narrow : forall w k n len extra pos, go_width w -> 1 <= k <= 5 -> 1 <= Z.of_nat n <= 2 ^ 31 - 1 ->
  encodes (WriteVarsize (Z.of_nat n)) len -> k <= Z.of_nat (length extra) <= 5 ->
  exists r, read_array (trait_ops (traits_of (BBits (GU w) k))) packed_auto (mkR pos (len ++ true :: extra)) = (r, Ok (repeat 0 n)).
Proof. exact narrow_truncated. Qed.
Print Assumptions C44_narrow.

(** struct Narrow { bit:4 x; packed bit:3 a[]; }: the first two bytes of an encoding
    of five bytes are accepted. *)
Definition narrow_schema : schema :=
  [DStruct [plain_field (TBasic (Std (BBits (GU 8) 4))); mkF (TBasic (Std (BBits (GU 8) 3))) (Some (None, true)) false None 0 false]].
Theorem C44_refuted : exists v bits r v',
  MarshalZserio narrow_schema 1 0 [] v (mkW [] []) = (mkW bits [], Ok tt) /\ (32 < length bits)%nat /\
  UnmarshalZserio narrow_schema 1 0 [] (mkR 0 (firstn 16 bits)) = (r, Ok v') /\ v' <> v.
Proof.
  exists (VRec 0 [Some (VInt 9); Some (VArr (map VInt [1; 2; 3; 4; 5; 6; 7; 6; 5; 4; 3; 2]))]).
  eexists _, _, (VRec 0 [Some (VInt 9); Some (VArr (map VInt (repeat 0 12)))]).
  split; [vm_compute; reflexivity|]. split; [vm_compute; lia|]. split; [vm_compute; reflexivity|discriminate].
Qed.
Print Assumptions C44_refuted.

Example C44_applies : wide_packed in_schema in_packed /\ no_packed_arrays flat_schema /\ encodes (WriteVarsize (Z.of_nat 2)) (bits_of 8 2) /\
  snd (read_array (trait_ops (traits_of (BBits (GU 8) 3))) packed_auto (mkR 4 (bits_of 8 2 ++ [true; true; false; true]))) = Ok [0; 0].
Proof. refine (conj in_wide (conj flat_no_packed (conj _ _))); [|vm_compute; reflexivity]. intros [b f] Hf. cbn in Hf. subst f. reflexivity. Qed.

(** ** C64 *)

(** Every value returned by a scalar reader is a value of the type. *)
Theorem C64_scalars : forall A write read (range : A -> Prop) r r' a, scalar_type A write read range ->
  read r = (r', Ok a) -> range a.
Proof. exact (fun A write read range r r' a H => scalar_in_range A write read range H r r' a). Qed.
Print Assumptions C64_scalars.

(** Every object returned by UnmarshalZserio is a valid value (C20) if there are no
    packed arrays; so that it can be encoded and decoded again. *)
Theorem C64_decoded : forall S I fuel id ps r r' v, causal S -> regular S I -> no_packed_arrays S -> I id ps ->
  UnmarshalZserio S fuel id ps r = (r', Ok v) ->
  valid S fuel false id ps v /\
  exists enc, forall fuel', (fuel <= fuel')%nat ->
  roundtrips_at (MarshalZserio S fuel' id ps v) (UnmarshalZserio S fuel' id ps) enc v.
Proof. exact decoded_roundtrip. Qed.
Print Assumptions C64_decoded.

(** struct Packed { packed bit:3 a[]; }: an array that is decoded can have elements
    out of range; when it is encoded again, without an error, they are changed. *)
Definition packed_schema : schema := [DStruct [mkF (TBasic (Std (BBits (GU 8) 3))) (Some (None, true)) false None 0 false]].
Theorem C64_packed_refuted : exists input r v bits r' v',
  UnmarshalZserio packed_schema 1 0 [] (mkR 0 input) = (r, Ok v) /\
  MarshalZserio packed_schema 1 0 [] v (mkW [] []) = (mkW bits [], Ok tt) /\
  UnmarshalZserio packed_schema 1 0 [] (mkR 0 bits) = (r', Ok v') /\ v' <> v.
Proof.
  exists (bits_of 8 2 ++ [true] ++ bits_of 6 1 ++ bits_of 3 7 ++ bits_of 2 1).
  eexists _, (VRec 0 [Some (VArr [VInt 7; VInt 8])]), _, _, (VRec 0 [Some (VArr [VInt 7; VInt 0])]).
  split; [vm_compute; reflexivity|]. split; [vm_compute; reflexivity|]. split; [vm_compute; reflexivity|discriminate].
Qed.
Print Assumptions C64_packed_refuted.

Example C64_applies : causal flat_schema /\ regular flat_schema in_params /\ no_packed_arrays flat_schema /\ in_params Any [] /\
  snd (UnmarshalZserio flat_schema 4 Any [] (mkR 0 (concat (map (bits_of 8) [2; 1; 1; 64; 1; 5; 0; 7; 100; 128; 200; 0])))) =
  Ok (VRec 2 [None; Some (VRec 0 [Some (VInt 1); Some (VInt 1); None; Some (VInt 2); Some (VArr [point 5 7 None]); Some (VRec 0 [Some (VInt 201); None]);
    Some (VArr [VInt 400]); None])]).
Proof.
  refine (conj flat_causal (conj flat_regular (conj flat_no_packed (conj _ _)))); [discriminate|]. vm_compute. reflexivity.
Qed.
