(** What LoadDefaultValues should do, field by field. *)

Require Import ZArith List Bool.
From Verif Require Import Bits Stream Scalars Marshal Traits Delta Array Schema Defaults.
Import ListNotations.
Open Scope Z_scope.

(** Neither optional nor an array. *)
Definition mandatory (f : field) : Prop := f_optional f = false /\ f_array f = None.

(** [reaches Sc id path f id' i]: going from a variable of the type [id] through
    the fields [path], of which all but the last are mandatory fields, ends at the
    field [f], which is the field number [i] of the type [id']. *)
Inductive reaches (Sc : schema) : nat -> list nat -> field -> nat -> nat -> Prop :=
| Here : forall id d i f, nth_error Sc id = Some d -> nth_error (fields_of d) i = Some f -> reaches Sc id [i] f id i
| There : forall id d i g id1 args path f id' j, nth_error Sc id = Some d -> nth_error (fields_of d) i = Some g ->
    mandatory g -> f_type g = TRef id1 args -> reaches Sc id1 path f id' j -> reaches Sc id (i :: path) f id' j.

(** The value found there; None is the zero value. *)
Fixpoint get (path : list nat) (slot : option value) : option value :=
  match path with
  | [] => slot
  | i :: path' => match slot with Some (VRec _ slots) => get path' (nth i slots None) | _ => None end
  end.

(** The UnionChoice of a variable. *)
Definition union_choice (slot : option value) : Z := match slot with Some (VRec tag _) => tag | _ => 0 end.

(** The fields that LoadDefaultValues can set: those of builtin types that are
    mandatory. *)
Definition settable (f : field) : Prop := mandatory f /\ exists t, f_type f = TBasic t.
(** The fields it goes into: those of structs, choices and unions that are
    mandatory. *)
Definition entered (Sc : schema) (f : field) : Prop :=
  mandatory f /\ exists id args d, f_type f = TRef id args /\ nth_error Sc id = Some d /\ forall t, d <> DScalar t.

(** Go accepts the types only if none contains itself: there is a rank that
    decreases from a type to those of its mandatory fields. *)
Definition ranked (Sc : schema) (rank : nat -> nat) : Prop :=
  forall id d g id1 args, nth_error Sc id = Some d -> In g (fields_of d) -> mandatory g -> f_type g = TRef id1 args ->
    (rank id1 < rank id)%nat /\ nth_error Sc id1 <> None.

(** Variables of structs, choices and unions hold records. *)
Inductive typed (Sc : schema) : nat -> option value -> Prop :=
| TZero : forall id, typed Sc id None
| TScalar : forall id t v, nth_error Sc id = Some (DScalar t) -> typed Sc id (Some v)
| TRecord : forall id d tag slots, nth_error Sc id = Some d -> (forall t, d <> DScalar t) ->
    (forall i g id1 args, nth_error (fields_of d) i = Some g -> mandatory g -> f_type g = TRef id1 args -> typed Sc id1 (nth i slots None)) ->
    typed Sc id (Some (VRec tag slots)).
