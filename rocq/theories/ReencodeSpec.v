(** Schemas whose values have exactly one encoding each. *)

Require Import ZArith List Bool.
From Verif Require Import Bits Stream Traits Schema SchemaSpec.
Import ListNotations.

(** Types of fixed width whose bit patterns are all different values: integers and
    bit fields, bool, float32 and float64.  (Not float16: reading a signalling NaN
    makes it quiet.) *)
Definition one_encoding (b : builtin) : Prop :=
  match b with
  | BBool | BFloat32 | BFloat64 | BBits _ _ | BSBits _ _ => True
  | _ => False
  end.

(** Only such types; no unions, no arrays with a length field, no alignment. *)
Definition rigid (S : schema) : Prop :=
  (forall id t b, nth_error S id = Some (DScalar t) -> builtin_of (mkE [] []) t = Some b -> one_encoding b) /\
  (forall id fs, nth_error S id <> Some (DUnion fs)) /\
  forall id d f, nth_error S id = Some d -> In f (fields_of d) ->
    f_align f = 0%nat /\ (forall packed, f_array f <> Some (None, packed)) /\
    forall t, f_type f = TBasic t -> forall E b, builtin_of E t = Some b -> one_encoding b.
