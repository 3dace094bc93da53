(** Specification of delta packing, independent of the contexts. *)

Require Import ZArith List Bool.
From Verif Require Import Bits Stream Spec.
Import ListNotations.
Open Scope Z_scope.

(** Neighbouring pairs of a sequence. *)
Definition neighbours {A} (l : list A) : list (A * A) := combine l (tl l).

(** [m] is the least number of bits that holds every absolute difference of
    neighbours. *)
Definition delta_width (us : list Z) (m : Z) : Prop :=
  0 <= m /\
  (forall a b, In (a, b) (neighbours us) -> Z.abs (b - a) < 2 ^ m) /\
  (m = 0 \/ exists a b, In (a, b) (neighbours us) /\ 2 ^ (m - 1) <= Z.abs (b - a)).

(** Bits per difference: a sign bit is added; if all elements are equal the
    differences are not stored at all. *)
Definition delta_cost (m : Z) : Z := if m =? 0 then 0 else m + 1.

Definition sum (l : list Z) : Z := fold_right Z.add 0 l.

(** Size of the two representations, without the descriptor bit. *)
Definition plain_size (sizes : list Z) : Z := sum sizes.
Definition packed_size (sizes : list Z) (m : Z) : Z :=
  6 + hd 0 sizes + (Z.of_nat (length sizes) - 1) * delta_cost m.

(** The packed representation is chosen when there is something to pack, the
    width fits and it is strictly smaller. *)
Definition packs (sizes : list Z) (m : Z) : bool :=
  (2 <=? Z.of_nat (length sizes)) && (m <=? 62) && (packed_size sizes m <? plain_size sizes).

(** The two representations of a sequence given by the encodings of its elements
    and their numbers. *)
Definition plain_wire (encs : list (list bool)) : list bool := false :: concat encs.

Definition packed_wire (encs : list (list bool)) (us : list Z) (m : Z) : list bool :=
  true :: bits_of 6 m ++ hd [] encs ++
  concat (map (fun p => bits_of (Z.to_nat (delta_cost m)) (snd p - fst p)) (neighbours us)).

Definition delta_wire (encs : list (list bool)) (sizes us : list Z) (m : Z) : list bool :=
  if packs sizes m then packed_wire encs us m else plain_wire encs.
