(** Which packed objects have a predictable size. *)

Require Import ZArith List Bool.
From Verif Require Import Bits Stream PosSpec Scalars Traits TraitSpec Delta SizeFacts Schema SchemaSpec SchemaSize PackedSize.
Import ListNotations.
Open Scope Z_scope.
Open Scope prog_scope.

(** ** Packing contexts *)

(** Two contexts that differ at most in the previous element, which the writer
    keeps track of and the size prediction does not. *)
Definition forget_ctx (c : dctx) : dctx :=
  mkD None (d_max c) (d_unpacked c) (d_first c) (d_num c) (d_packed c) (d_started c).
Fixpoint forget (n : node) : node :=
  match n with Node c ch => Node (option_map forget_ctx c) (map forget ch) end.
Definition alike (n n' : node) : Prop := forget n = forget n'.

(** A context as a user gets it: ZserioCreatePackingContext on an empty node, then
    ZserioInitPackingContext of any objects of the type. *)
Inductive prepared (S : schema) (fuel : nat) (id : nat) : node -> Prop :=
| prepared_new : forall n, m_create (run S fuel) id (Node None []) = (n, Ok tt) -> prepared S fuel id n
| prepared_init : forall n n' ps v, prepared S fuel id n ->
    m_init (run S fuel) id ps v n = (n', Ok tt) -> prepared S fuel id n'.

(** ** Objects *)

(** A packable value whose codec knows its size (C25), or a value of the other
    builtin types but extern and bytes (C24). *)
Definition sizable_basic (E : env) (t : basic) (v : value) : Prop :=
  if packable t
  then forall b e, builtin_of E t = Some b -> v = inj b e -> size_right b e
  else measurable_basic E t.

(** No arrays; stored whatever the other fields are; optional or aligned but not
    both. *)
Definition sizable_field (ok : nat -> list value -> value -> Prop) (E : env) (f : field) (slot : option value) : Prop :=
  f_array f = None /\ included E f = Some true /\ (f_optional f = true -> f_align f = 0%nat) /\
  forall v, slot = Some v ->
    match f_type f with
    | TBasic t => sizable_basic E t v
    | TRef id args => forall ps, args E 0%nat = Some ps -> ok id ps v
    end.

Fixpoint sizable (S : schema) (n : nat) (id : nat) (ps : list value) (v : value) : Prop :=
  match n with
  | O => False
  | Datatypes.S n' =>
      match nth_error S id, v with
      | Some (DScalar t), _ => forall b e, builtin_of (mkE [] []) t = Some b -> v = inj b e -> size_right b e
      | Some (DStruct fs), VRec _ slots =>
          forall i f, nth_error fs i = Some f -> sizable_field (sizable S n') (mkE ps slots) f (nth_slot i slots)
      | Some (DChoice selector cases default), VRec _ slots =>
          forall sel i f, selector ps = Some sel -> branch_of sel cases default i f ->
            sizable_field (sizable S n') (mkE ps slots) f (nth_slot i slots)
      | _, _ => False
      end
  end.

(** ** Sequences of objects (with their parameters) through one context *)

(** The elements of a packed array. *)
Fixpoint write_packed (S : schema) (fuel id : nat) (xs : list (list value * value)) : prog (node * wst) unit :=
  match xs with
  | [] => sret tt
  | (ps, v) :: xs' => m_pmarshal (run S fuel) id ps v ;;s write_packed S fuel id xs'
  end.
(** The sum of their sizes. *)
Fixpoint sizes_packed (S : schema) (fuel id : nat) (xs : list (list value * value)) (pos : Z) : prog (option node) Z :=
  match xs with
  | [] => sret 0
  | (ps, v) :: xs' =>
      d <-s ZserioBitSizePacked S fuel id ps v pos;
      ds <-s sizes_packed S fuel id xs' (pos + d);
      sret (d + ds)
  end.
