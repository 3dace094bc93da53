(** Properties C72 and C73: the code generated for builtin types, enums and bitmasks. *)

Require Import ZArith String List Bool Lia.
From Verif Require Import Bits Stream Scalars Traits Schema AstExpr AstTypes AstTypesSpec CodecChoice CodecChoiceSpec CodecChoiceFacts.
Import ListNotations.
Open Scope Z_scope.

(** ** C72 *)

(** Whatever a builtin type is used for - writing, reading and measuring a field, the
    elements of an array, a field of a packed object - the generated code calls
    functions that exist, with values of the Go type of the field, and that are those
    of one codec. *)
Theorem C72_codec : forall text angle b g, builtin_text text angle b g ->
  let t := VisitTypeInstantiation text angle in
  let w := length_of angle in
  GoType t = Some g /\
  (forall E v, run_write (encode_call t w) E v = Some (write_basic E b v)) /\ write_type (encode_call t w) g = Some g /\
  (forall E, run_read (decode_call t w) g E = Some (read_basic E b)) /\ read_type (decode_call t w) g = Some g /\
  (forall E v, of_go_type g v -> run_size t w g E v = Some (size_basic E b v)) /\
  (exists i ty, instantiate t w = Some i /\ (forall E, run_instance i E = Some (codec_of E b)) /\
     instance_type i = Some ty /\ traits_type t = Some ty /\ assoc ty element_types = Some g) /\
  IsDeltaPackable t = packable b.
Proof. exact types_consistent. Qed.
Print Assumptions C72_codec.

(** The types that are packed as deltas are the integer types. *)
Theorem C72_packable : forall text angle b g, builtin_text text angle b g ->
  (IsDeltaPackable (VisitTypeInstantiation text angle) = true <-> is_integer b).
Proof. exact packable_integer. Qed.
Print Assumptions C72_packable.

(** Outside of these types: bit:0 and bit without a length name a function that does
    not exist; int8 with a length in angle brackets is written without its sign in a
    field and with its sign in an array; bit:5 with a length in angle brackets is written
    with that length but measured as 5 bits. *)
Theorem C72_refuted :
  (forall E v, run_write (encode_call (VisitTypeInstantiation "bit:0" None) (length_of None)) E v = None) /\
  (forall E v, run_write (encode_call (VisitTypeInstantiation "bit" None) (length_of None)) E v = None) /\
  (forall w, encode_call (VisitTypeInstantiation "int8" (Some w)) w = BitsCall false w /\
             instantiate (VisitTypeInstantiation "int8" (Some w)) w = Some (IGet true "int8" w)) /\
  (forall w go E v, encode_call (VisitTypeInstantiation "bit:5" (Some w)) w = BitsCall false w /\
             run_size (VisitTypeInstantiation "bit:5" (Some w)) w go E v = Some (Ok 5)).
Proof. split; [reflexivity|]. split; [reflexivity|]. split; intros; split; reflexivity. Qed.
Print Assumptions C72_refuted.

Example C72_applies :
  builtin_text "bit:13" None (Bits false (GU 16) (fun _ => Some 13)) "uint16" /\
  builtin_text "int:064" None (Std BInt64) "int64" /\
  builtin_text "varsize" None (Std BVarsize) "uint64" /\
  builtin_text "int" (Some (fun _ => Some 5)) (Bits true (GS 64) (fun _ => Some 5)) "int64".
Proof.
  split; [|split; [|split]].
  - apply (BT_bits false [1; 3]%nat 16 "uint16"); [discriminate|repeat constructor|cbn; lia|cbn; lia| |cbn; tauto].
    split; [cbn; tauto|]. split; [cbn; lia|]. intros w' Hw. cbn in *. lia.
  - apply (BT_standard true [0; 6; 4]%nat "int64"); [discriminate|repeat constructor|cbn; tauto].
  - apply (BT_named "varsize" BVarsize "uint64"). cbn. tauto.
  - apply (BT_angle true (fun _ => Some 5)).
Qed.

(** ** C73 *)

(** An enum or bitmask over an integer type is written and read as that type.  The code
    that measures an enum does not compile for the five types whose size functions get
    the value without a conversion; for the others the size is that of the type. *)
Theorem C73_enum : forall text b g enum, builtin_text text None b g -> is_integer b -> ~ In enum ["uint64"; "int64"; "string"]%string ->
  let t := VisitTypeInstantiation text None in
  exists c, enum_write_call t = Call c /\
    (forall E v, run_write c E v = Some (write_basic E b v)) /\ write_type c g = Some g /\
    (forall E, run_read (scalar_read_call t) g E = Some (read_basic E b)) /\ read_type (scalar_read_call t) g = Some g /\
    (forall E z, run_size t (fun _ => None) enum E (VInt z) =
       if in_dec string_dec text ["varuint"; "varuint64"; "varsize"; "varint"; "varint64"]%string then None
       else Some (size_basic E b (VInt z))).
Proof. exact enum_consistent. Qed.
Print Assumptions C73_enum.

Theorem C73_bitmask : forall t, bitmask_write_call t t = enum_write_call t.
Proof. exact bitmask_direct. Qed.
Print Assumptions C73_bitmask.

(** A bitmask whose type is a subtype of a bit field of n bits writes nothing for 0 and
    fails for every other value (for every value if the field is signed), and reads n
    bits. *)
Theorem C73_refuted : forall (signed : bool) n name z E, 1 <= n <= 64 -> 0 <= z < 2^64 ->
  exists c, bitmask_write_call (subtype_ref name) (mkT (if signed then "int" else "bit") n false) = Call c /\
  run_write c E (VInt z) = Some (if signed || (0 <? z) then werr ErrValueOutOfBitRange else put []).
Proof. exact bitmask_subtype. Qed.
Print Assumptions C73_refuted.

Theorem C73_refuted_read : forall (signed : bool) n, 1 <= n ->
  scalar_read_call (mkT (if signed then "int" else "bit") n false) = BitsCall signed (fun _ => Some n).
Proof. intros signed n Hn. unfold scalar_read_call. cbn [t_bits]. replace (n =? 0) with false by lia. now destruct signed. Qed.
Print Assumptions C73_refuted_read.

Example C73_applies : builtin_text "bit:5" None (Bits false (GU 8) (fun _ => Some 5)) "uint8" /\
  is_integer (Bits false (GU 8) (fun _ => Some 5)) /\ ~ In "Color"%string ["uint64"; "int64"; "string"]%string.
Proof.
  split; [|split].
  - apply (BT_bits false [5]%nat 8 "uint8"); [discriminate|repeat constructor|cbn; lia|cbn; lia| |cbn; tauto].
    split; [cbn; tauto|]. split; [cbn; lia|]. intros w' Hw. cbn in *. lia.
  - exact I.
  - cbn. intuition discriminate.
Qed.
