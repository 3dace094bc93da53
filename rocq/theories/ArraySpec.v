(** Specification of arrays. *)

Require Import ZArith List Bool.
From Verif Require Import Bits Stream Spec PosSpec Scalars Traits TraitSpec Delta DeltaSpec DeltaFacts Array.
Import ListNotations.
Open Scope Z_scope.

(** The bits of a length field. *)
Definition length_bits (cfg : acfg) (n : nat) : list bool :=
  if a_auto cfg then output (WriteVarsize (Z.of_nat n)) else [].

(** The array configuration can represent [n] elements. *)
Definition holds (cfg : acfg) (n : nat) : Prop :=
  if a_auto cfg then Z.of_nat n <= MaxVarsize else a_fixed cfg = Z.of_nat n.

(** Elements before which the stream is aligned. *)
Definition aligned (cfg : acfg) (e : pbits) : pbits := if a_check cfg then papp (padding 8) e else e.

(** The bits of an array whose elements have the given encodings. *)
Definition array_bits (cfg : acfg) (encs : list pbits) : pbits :=
  papp (pfix (length_bits cfg (length encs))) (pconcat (map (aligned cfg) encs)).

(** What a packed array gives back: everything, if the plain representation was
    chosen; otherwise only the first element and the numbers of the others. *)
Definition arrives {A} (T : traits A) (es : list A) (m : Z) : list A :=
  match es with
  | [] => []
  | e :: l => e :: (if packs (map (size_of T) es) m then map (fun x => t_from T (t_as T x)) l else l)
  end.

(** The number of elements for which the size of the length field is predicted
    correctly. *)
Definition length_size_right (cfg : acfg) (n : nat) : Prop :=
  a_auto cfg = true -> let n := Z.of_nat n in
  n < 2 ^ 6 \/ 2 ^ 7 <= n < 2 ^ 13 \/ 2 ^ 14 <= n < 2 ^ 20 \/ 2 ^ 21 <= n < 2 ^ 28.
