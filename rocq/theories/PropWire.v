(** The wire format of generated types. *)

Require Import ZArith List Bool Lia ZifyBool ZifyNat.
From Verif Require Import Bits Stream Spec PosSpec Scalars Traits TraitSpec Delta DeltaSpec Array ArraySpec Schema
  SchemaSpec SchemaExample WireSpec WireScalars WireColumns WireFacts WirePacked.
Import ListNotations.
Open Scope Z_scope.

(** C77: the marshalled bits of every supported value are those of the wire format
    (WireSpec.v), and unmarshalling them yields the value. *)
Theorem C77_wire_format : forall S n id ps v, causal S -> valid S n false id ps v ->
  exists enc, wire_format S n id ps v = Some enc /\
    forall fuel, (n <= fuel)%nat ->
      roundtrips_at (MarshalZserio S fuel id ps v) (UnmarshalZserio S fuel id ps) enc v.
Proof. exact wire_roundtrip. Qed.
Print Assumptions C77_wire_format.

(** Writing does not need expressions to refer to preceding fields only. *)
Theorem C77_written : forall S n id ps v, valid S n false id ps v ->
  exists enc, wire_format S n id ps v = Some enc /\
    forall fuel, (n <= fuel)%nat -> encodes_at (MarshalZserio S fuel id ps v) enc.
Proof. exact wire_written. Qed.
Print Assumptions C77_written.

(** Different values have different bits. *)
Theorem C77_distinct : forall S n id ps v v' enc enc' pos, causal S ->
  valid S n false id ps v -> valid S n false id ps v' ->
  wire_format S n id ps v = Some enc -> wire_format S n id ps v' = Some enc' -> enc pos = enc' pos -> v = v'.
Proof. exact wire_distinct. Qed.
Print Assumptions C77_distinct.

Example C77_applies : causal ex_schema /\ valid ex_schema 3 false Message [] message /\
  valid ex_schema 3 false Message [] leaf.
Proof. split; [exact ex_causal|]. split; [apply valid_message|apply valid_leaf]. Qed.

(** The message of SchemaExample.v: a packed array of six points, whose columns x
    and y are stored as differences and whose column z is stored plainly. *)
Definition point_bits : list bool :=
  (* length 6 *)                    [false; false; false; false; false; true; true; false] ++
  (* x: packed, 2 bits, -1000 *)    [true] ++ bits_of 6 2 ++ [true; true; false; false; false; true; true; true; false; true; true; false; true; false; false; false] ++
  (* y: packed, 2 bits, 10 *)       [true] ++ bits_of 6 2 ++ bits_of 16 10 ++ (* no z *) [false] ++
  (* differences 2, 2; z = -1 *)    bits_of 3 2 ++ bits_of 3 2 ++ [true] ++ [false] ++ bits_of 8 255 ++
  (* differences 2, 2; no z *)      bits_of 3 2 ++ bits_of 3 2 ++ [false] ++
  (* differences 2, 2; z = 1 *)     bits_of 3 2 ++ bits_of 3 2 ++ [true] ++ bits_of 8 1 ++
  (* twice *)                       bits_of 3 2 ++ bits_of 3 2 ++ [false] ++ bits_of 3 2 ++ bits_of 3 2 ++ [false].
Definition message_bits : list bool :=
  (* n, kind *)        bits_of 8 3 ++ bits_of 8 1 ++
  (* name *)           [true] ++ bits_of 8 1 ++ bits_of 8 97 ++
  (* flags: 3 bits *)  bits_of 3 5 ++
  (* padding *)        [false; false; false; false] ++
  point_bits ++
  (* small, data *)    bits_of 8 200 ++ bits_of 16 1 ++ bits_of 16 2 ++ bits_of 16 3 ++
  (* next *)           [true] ++
  (* n, kind, name *)  bits_of 8 2 ++ bits_of 8 7 ++ [false].

Example C77_message : exists enc rest, wire_format ex_schema 3 Message [] message = Some enc /\
  enc 0%nat = message_bits ++ rest.
Proof. eexists _, _. split; [reflexivity|]. vm_compute. reflexivity. Qed.
