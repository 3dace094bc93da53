(** Property C104: decoding and encoding again. *)

Require Import ZArith List Bool Lia ZifyBool ZifyNat.
From Verif Require Import Bits BitsFacts Stream Spec Scalars ScalarTable Marshal Traits TraitSpec Delta
  Array Schema SchemaSpec SchemaExample DecodeSpec PropDecode ReencodeSpec ReencodeThms.
Import ListNotations.
Open Scope Z_scope.

(** Whatever the bits a scalar was read from, it is written with no more. *)
Theorem C104_scalars : forall A write read (range : A -> Prop) r r' a, scalar_type A write read range -> read r = (r', Ok a) ->
  exists bits, encodes (write a) bits /\ Z.of_nat (length bits) <= consumed r r'.
Proof. exact scalar_shortest. Qed.
Print Assumptions C104_scalars.

(** A decoded object is encoded again without an error, by a writer that is not
    ahead of where the reader began; it ends not ahead of where the reader ended. *)
Theorem C104_bits : forall S I fuel id ps r r' v w, causal S -> regular S I -> no_packed_arrays S -> I id ps ->
  UnmarshalZserio S fuel id ps r = (r', Ok v) -> wfaults w = [] -> (length (wbits w) <= rpos r)%nat ->
  exists w', MarshalZserio S fuel id ps v w = (w', Ok tt) /\ (length (wbits w') <= rpos r')%nat.
Proof. exact reencode_bits. Qed.
Print Assumptions C104_bits.

(** So that Marshal writes the shortest of all byte strings that Unmarshal reads as
    the object. *)
Theorem C104_shortest : forall S I fuel id ps input v, causal S -> regular S I -> no_packed_arrays S -> I id ps ->
  Unmarshal (UnmarshalZserio S fuel id ps) input = Ok v ->
  exists output, Marshal (MarshalZserio S fuel id ps v) = Ok output /\
    Unmarshal (UnmarshalZserio S fuel id ps) output = Ok v /\
    forall input', Unmarshal (UnmarshalZserio S fuel id ps) input' = Ok v -> (length output <= length input')%nat.
Proof. exact reencode_bytes. Qed.
Print Assumptions C104_shortest.

(** With types of fixed width only, no length fields, no union tags and no alignment,
    the bits written are the bits read. *)
Theorem C104_identical : forall S I fuel id ps r r' v w, causal S -> regular S I -> no_packed_arrays S -> rigid S -> I id ps ->
  UnmarshalZserio S fuel id ps r = (r', Ok v) -> wfaults w = [] ->
  exists bits, rrem r = bits ++ rrem r' /\ MarshalZserio S fuel id ps v w = (mkW (wbits w ++ bits) [], Ok tt).
Proof. exact reencode_exact. Qed.
Print Assumptions C104_identical.

(** In general they are not: a number with more bytes than it needs, a negative zero,
    padding bits that are set, a signalling NaN. *)
Definition one_field (f : field) : schema := [DStruct [f]].
Definition aligned_schema : schema := [DStruct [plain_field (TBasic (Std BBool)); mkF uint8_t None false None 8 false]].
Theorem C104_identical_refuted : exists cases : list (schema * list Z * list Z), length cases = 4%nat /\
  Forall (fun c => match c with (sch, input, output) =>
    exists v, Unmarshal (UnmarshalZserio sch 1 0 []) input = Ok v /\ Marshal (MarshalZserio sch 1 0 [] v) = Ok output /\
      Unmarshal (UnmarshalZserio sch 1 0 []) output = Ok v /\ input <> output end) cases.
Proof.
  exists [(one_field (plain_field (TBasic (Std BVaruint16))), [128; 5], [5]);
          (one_field (plain_field (TBasic (Std BVarint16))), [128], [0]);
          (aligned_schema, [255; 1], [128; 1]);
          (one_field (plain_field (TBasic (Std BFloat16))), [124; 1], [126; 1])].
  split; [reflexivity|]. repeat constructor; eexists; (split; [vm_compute; reflexivity|]); (split; [vm_compute; reflexivity|]);
    (split; [vm_compute; reflexivity|discriminate]).
Qed.
Print Assumptions C104_identical_refuted.

(** ** Examples *)

(** <<
    struct Packet { uint8 n; optional int16 t; uint16 data[n]; Body(n) body; };
    choice Body(uint8 n) on n { case 1: float32 x; default: bool b; };
    >> *)
Definition rigid_schema : schema := [
  DStruct [plain_field uint8_t; optional_field (TBasic (Std (BSBits (GS 16) 16)));
    mkF uint16_t (Some (Some (slot_int 0), false)) false None 0 false;
    plain_field (TRef 1 (fun E _ => match slot_int 0 E with Some k => Some [VInt k] | None => None end))];
  DChoice (fun ps => match ps with VInt z :: _ => Some z | _ => None end)
    [([1], Some (plain_field (TBasic (Std BFloat32))))] (Some (plain_field (TBasic (Std BBool))))].

Lemma rigid_causal : causal rigid_schema.
Proof.
  intros id d i f Hd Hf.
  do 2 (destruct id as [|id]; [injection Hd as <-;
    cbn [fields_of choice_fields flat_map snd app] in Hf;
    do 4 (destruct i as [|i]; [try discriminate Hf; injection Hf as <-; causal_field|]);
    (destruct i; discriminate) |]).
  destruct id; discriminate.
Qed.

Definition rigid_params (id : nat) (ps : list value) : Prop := True.
Lemma rigid_regular : regular rigid_schema rigid_params.
Proof.
  split.
  - intros id t b H. destruct id as [|[|[|id]]]; discriminate.
  - intros id d f E Hd Hf _. destruct id as [|[|[|id]]]; try discriminate; injection Hd as <-; cbn [fields_of choice_fields flat_map snd app] in Hf.
    + destruct Hf as [<-|[<-|[<-|[<-|[]]]]]; (split; [cbn; lia|]); try exact (fun _ _ _ => I); intros b Hb; injection Hb as <-; cbn; unfold go_width; lia.
    + destruct Hf as [<-|[<-|[]]]; (split; [cbn; lia|]); intros b Hb; injection Hb as <-; exact I.
Qed.

Lemma rigid_no_packed : no_packed_arrays rigid_schema.
Proof.
  intros id d f Hd Hf [len Hp]. destruct id as [|[|[|id]]]; try discriminate; injection Hd as <-; cbn [fields_of choice_fields flat_map snd app] in Hf.
  - destruct Hf as [<-|[<-|[<-|[<-|[]]]]]; discriminate.
  - destruct Hf as [<-|[<-|[]]]; discriminate.
Qed.

Lemma rigid_rigid : rigid rigid_schema.
Proof.
  split; [|split].
  - intros id t b H. destruct id as [|[|[|id]]]; discriminate.
  - intros id fs H. destruct id as [|[|[|id]]]; discriminate.
  - intros id d f Hd Hf. destruct id as [|[|[|id]]]; try discriminate; injection Hd as <-; cbn [fields_of choice_fields flat_map snd app] in Hf.
    + destruct Hf as [<-|[<-|[<-|[<-|[]]]]]; (split; [reflexivity|]); (split; [discriminate|]); intros t Ht E b Hb; try discriminate;
        injection Ht as <-; injection Hb as <-; exact I.
    + destruct Hf as [<-|[<-|[]]]; (split; [reflexivity|]); (split; [discriminate|]); intros t Ht E b Hb; injection Ht as <-; injection Hb as <-; exact I.
Qed.

Example C104_applies :
  (causal flat_schema /\ regular flat_schema in_params /\ no_packed_arrays flat_schema /\ in_params Any [] /\
   let v := VRec 2 [None; Some (VRec 0 [Some (VInt 1); Some (VInt 1); None; Some (VInt 2); Some (VArr [point 5 7 None]); Some (VRec 0 [Some (VInt 201); None]);
     Some (VArr [VInt 400]); None])] in
   Unmarshal (UnmarshalZserio flat_schema 4 Any []) [128; 2; 1; 1; 64; 1; 5; 0; 7; 100; 128; 200; 0; 99] = Ok v /\
   Marshal (MarshalZserio flat_schema 4 Any [] v) = Ok [2; 1; 1; 64; 1; 5; 0; 7; 100; 128; 200; 0]) /\
  (causal rigid_schema /\ regular rigid_schema rigid_params /\ no_packed_arrays rigid_schema /\ rigid rigid_schema /\
   UnmarshalZserio rigid_schema 2 0 [] (mkR 0 (bytes_bits [1; 128; 1; 128; 2; 159; 192; 0; 0; 0])) =
   (mkR 73 (repeat false 7), Ok (VRec 0 [Some (VInt 1); Some (VInt 3); Some (VArr [VInt 5]); Some (VRec 0 [Some (VInt 1065353216); None])]))).
Proof.
  split.
  - refine (conj flat_causal (conj flat_regular (conj flat_no_packed (conj _ _)))); [discriminate|]. split; vm_compute; reflexivity.
  - refine (conj rigid_causal (conj rigid_regular (conj rigid_no_packed (conj rigid_rigid _)))). vm_compute. reflexivity.
Qed.
