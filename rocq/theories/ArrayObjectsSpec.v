(** Specification of array objects that are used several times. *)

Require Import ZArith List Bool.
From Verif Require Import Bits Stream Scalars Traits Delta DeltaSpec DeltaFacts Array ArrayObjects.
Import ListNotations.
Open Scope Z_scope.

(** What a program sees of an object: its configuration and its elements. *)
Definition view {A} (m : memory A) (a : nat) : option (acfg * list A) :=
  match nth_error (m_objects m) a with
  | None => None
  | Some o => Some (o_cfg o, elements m o)
  end.

(** The outcome without the value. *)
Definition forget {A} (o : outcome A) : outcome unit :=
  match o with Ok _ => Ok tt | Err e => Err e | Panic => Panic | NoFuel => NoFuel end.

(** The call is not a copy. *)
Definition not_clone {A} (c : call A) : Prop := match c with Clone _ => False | _ => True end.

(** The array a call is made on. *)
Definition target {A} (c : call A) : nat :=
  match c with
  | Marshal a _ | Unmarshal a _ | BitSize a _ | BitSizePacked a _ | Clone a | Set_ a _ _ | Assign a _ => a
  end.

(** What the size prediction of a packed array that has been written leaves out: the
    descriptor (one bit, or seven with the width), and the difference between the
    first element, which is stored whole, and a delta. *)
Definition left_out (sizes : list Z) (m : Z) : Z :=
  if packs sizes m then 7 + hd 0 sizes - delta_cost m else 1.
