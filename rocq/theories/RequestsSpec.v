(** What the memory that decoding asks for is compared with. *)

Require Import ZArith List.
From Verif Require Import Bits Stream Traits TraitSpec Schema SchemaSpec DecodeSpec.
Import ListNotations.
Open Scope Z_scope.

Definition total (l : list Z) : Z := fold_right Z.add 0 l.
(** The bits that are left to read. *)
Definition left (r : rst) : Z := Z.of_nat (length (rrem r)).

(** Basic types have Go types that can hold them. *)
Definition go_basic (t : basic) : Prop := match t with Std b => wf_builtin b | Bits _ g _ => go_width (gwidth g) end.
Definition go_types (S : schema) : Prop :=
  (forall id t, nth_error S id = Some (DScalar t) -> go_basic t) /\
  (forall id d f t, nth_error S id = Some d -> In f (fields_of d) -> f_type f = TBasic t -> go_basic t).

(** [params]: the parameters that objects of each type are read with. *)
Definition passes (S : schema) (params : nat -> list value -> Prop) : Prop :=
  forall id d i f id' args j ps E ps', nth_error S id = Some d -> nth_error (fields_of d) i = Some f -> params id ps -> view S d i ps E ->
  f_type f = TRef id' args -> args E j = Some ps' -> params id' ps'.
(** Explicit array lengths are at most [limit], with what their expressions can see
    while an object is read. *)
Definition limited (S : schema) (params : nat -> list value -> Prop) (limit : Z) : Prop :=
  forall id d i f l packed ps E n, nth_error S id = Some d -> nth_error (fields_of d) i = Some f -> params id ps -> view S d i ps E ->
  f_array f = Some (Some l, packed) -> l E = Some n -> i64 n <= limit.
(** Every element of an array takes at least one bit. *)
Definition dense (S : schema) (params : nat -> list value -> Prop) : Prop :=
  forall id d i f len packed ps E, nth_error S id = Some d -> nth_error (fields_of d) i = Some f -> params id ps -> view S d i ps E ->
  f_array f = Some (len, packed) ->
  match f_type f with
  | TBasic (Std _) => True
  | TBasic (Bits _ _ w) => forall n, w E = Some n -> 1 <= to_u 8 n
  | TRef id' args => forall fuel j ps' r r' v, args E j = Some ps' -> UnmarshalZserio S fuel id' ps' r = (r', Ok v) -> left r' < left r
  end.

(** The bytes, elements and characters of the slices and strings of a value. *)
Fixpoint slices (v : value) : Z :=
  match v with
  | VInt _ | VBool _ | VBuf None => 0
  | VStr s => Z.of_nat (length s)
  | VBuf (Some (_, bytes)) => Z.of_nat (length bytes)
  | VRec _ slots => (fix go (l : list (option value)) : Z := match l with [] => 0 | None :: l' => go l' | Some x :: l' => slices x + go l' end) slots
  | VArr es => Z.of_nat (length es) + (fix go (l : list value) : Z := match l with [] => 0 | x :: l' => slices x + go l' end) es
  end.
