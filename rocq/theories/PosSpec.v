(** Encodings that depend on the bit position (because of alignment). *)

Require Import ZArith List Bool.
From Verif Require Import Bits Stream Spec.
Import ListNotations.
Open Scope nat_scope.

(** The bits of an encoding that starts at a given position. *)
Definition pbits := nat -> list bool.

(** [m] succeeds on every writer that does not fail and appends exactly [enc pos],
    [pos] being the number of bits written before. *)
Definition encodes_at (m : writer unit) (enc : pbits) : Prop :=
  forall w, wfaults w = [] -> m w = (mkW (wbits w ++ enc (length (wbits w))) [], Ok tt).

(** At position [pos], before any further bits, [m] consumes exactly [enc pos] and
    returns [a]. *)
Definition decodes_at {A} (m : reader A) (enc : pbits) (a : A) : Prop :=
  forall pos rest, m (mkR pos (enc pos ++ rest)) = (mkR (pos + length (enc pos)) rest, Ok a).

Definition roundtrips_at {A} (write : writer unit) (read : reader A) (enc : pbits) (a : A) : Prop :=
  encodes_at write enc /\ decodes_at read enc a.

(** Encodings one after the other. *)
Definition papp (e1 e2 : pbits) : pbits := fun pos => e1 pos ++ e2 (pos + length (e1 pos)).
Definition pnil : pbits := fun _ => [].
Fixpoint pconcat (l : list pbits) : pbits :=
  match l with
  | [] => pnil
  | e :: l' => papp e (pconcat l')
  end.

(** An encoding that does not depend on the position. *)
Definition pfix (bs : list bool) : pbits := fun _ => bs.

(** The least number of zero bits up to a multiple of the boundary
    ([C13_writer] and [discard_least] say that [discard] is that number). *)
Definition padding (boundary : nat) : pbits := fun pos => repeat false (discard pos boundary).
