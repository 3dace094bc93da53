(** Success means that everything was written. *)

Require Import List.
From Verif Require Import Stream.
Import ListNotations.

(** Whenever [m] reports success, whatever the underlying writer did, it has
    written what it writes to a writer that never fails. *)
Definition honest {A} (m : writer A) : Prop :=
  forall w w' a, m w = (w', Ok a) -> m (mkW (wbits w) []) = (mkW (wbits w') [], Ok a).
