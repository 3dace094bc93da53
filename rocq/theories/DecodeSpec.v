(** Which schemas can be decoded without panics, on any input. *)

Require Import ZArith List Bool.
From Verif Require Import Bits Stream Scalars Traits TraitSpec Schema SchemaSpec.
Import ListNotations.
Open Scope Z_scope.

(** ** Types of values *)

(** The integers of the Go type that holds the values of a builtin type. *)
Definition go_value (b : builtin) : elt b -> Prop :=
  match b as b return elt b -> Prop with
  | BVarint | BVarint64 => in_s 64
  | BVarint16 => in_s 16
  | BVarint32 => in_s 32
  | BVaruint | BVaruint64 | BVarsize => in_u 64
  | BVaruint16 => in_u 16
  | BVaruint32 => in_u 32
  | BBits g _ | BSBits g _ => gvalue g
  | _ => fun _ => True
  end.

(** [v] has the Go type of the field type. *)
Definition basic_typed (t : basic) (v : value) : Prop :=
  match t with
  | Std b => exists e, v = inj b e /\ go_value b e
  | Bits _ g _ => exists z, v = VInt z /\ gvalue g z
  end.
Definition item_typed (ty : nat -> value -> Prop) (t : ftype) (v : value) : Prop :=
  match t with TBasic b => basic_typed b v | TRef id _ => ty id v end.
Definition content_typed (ty : nat -> value -> Prop) (f : field) (v : value) : Prop :=
  match f_array f with
  | Some _ => exists es, v = VArr es /\ Forall (item_typed ty (f_type f)) es
  | None => item_typed ty (f_type f) v
  end.
(** Only optional and conditional fields can be unset in a struct. *)
Definition slot_typed (ty : nat -> value -> Prop) (f : field) (s : option value) : Prop :=
  match s with
  | Some v => content_typed ty f v
  | None => f_optional f = true \/ f_clause f <> None
  end.

(** [v] is an object of type [id], nested at most [n] deep. *)
Fixpoint typed (S : schema) (n : nat) (id : nat) (v : value) : Prop :=
  match n with
  | O => False
  | Datatypes.S n' =>
      exists d, nth_error S id = Some d /\
      match d with
      | DScalar t => basic_typed t v
      | DStruct fs => exists slots, v = VRec 0 slots /\ Forall2 (slot_typed (typed S n')) fs slots
      | _ => exists tag slots, v = VRec tag slots /\ length slots = length (fields_of d) /\
          forall i f x, nth_error (fields_of d) i = Some f -> nth_slot i slots = Some x -> content_typed (typed S n') f x
      end
  end.

(** What the expressions of field [i] of a type can see while an object is read:
    the fields before it, or nothing in a choice or union. *)
Definition view (S : schema) (d : def) (i : nat) (ps : list value) (E : env) : Prop :=
  match d with
  | DScalar _ => False
  | DStruct fs => exists n done, Forall2 (slot_typed (typed S n)) (firstn i fs) done /\
      E = mkE ps (done ++ repeat None (length fs - i))
  | _ => E = mkE ps (repeat None (length (fields_of d)))
  end.

(** ** Conditions *)

(** A width that can be read; an element codec exists up to 63 bits (C45). *)
Definition readable (E : env) (t : basic) (codec : bool) : Prop :=
  match t with
  | Std b => wf_builtin b
  | Bits _ g w => go_width (gwidth g) /\ exists n, w E = Some n /\ to_u 8 n <= 64 /\ (codec = true -> to_u 8 n < 64)
  end.

(** No expression of the field panics; array lengths are not negative; arguments
    satisfy the condition [I] of the type they are passed to.  [pk]: the object is
    in a packed array. *)
Definition no_panic (I : nat -> list value -> Prop) (pk : bool) (E : env) (f : field) : Prop :=
  exists stored, included E f = Some stored /\
  (stored = true ->
    match f_type f with
    | TBasic t => readable E t (match f_array f with Some _ => true | None => pk && packable t end)
    | TRef id args => forall j, exists ps, args E j = Some ps /\ I id ps
    end /\
    match f_array f with
    | Some (Some l, _) => exists n, l E = Some n /\ 0 <= i64 n
    | _ => True
    end).

(** [safe S I P rank top]: for parameters that satisfy [I] no expression panics.
    Types nested in each other have falling ranks, except where at least one bit
    is read in between: at optional fields, at arrays with automatic length and in
    unions.  [P] are the types in packed arrays: among these ranks always fall,
    arrays excepted. *)
Definition reads_first (d : def) (f : field) : Prop :=
  f_optional f = true \/ (exists packed, f_array f = Some (None, packed)) \/ match d with DUnion _ => True | _ => False end.

Record safe (S : schema) (I : nat -> list value -> Prop) (P : nat -> Prop) (rank : nat -> nat) (top : nat) : Prop := {
  safe_scalar : forall id t, nth_error S id = Some (DScalar t) -> readable (mkE [] []) t false /\ (P id -> readable (mkE [] []) t true);
  safe_selector : forall id selector cases default ps, nth_error S id = Some (DChoice selector cases default) ->
    I id ps -> exists sel, selector ps = Some sel;
  safe_fields : forall id d i f ps E, nth_error S id = Some d -> nth_error (fields_of d) i = Some f -> I id ps ->
    view S d i ps E -> no_panic I false E f /\ (P id -> no_panic I true E f);
  safe_types : forall id d f id' args, nth_error S id = Some d -> In f (fields_of d) -> f_type f = TRef id' args ->
    (exists d', nth_error S id' = Some d') /\ (rank id' < top)%nat /\
    ((rank id' < rank id)%nat \/ reads_first d f) /\
    ((exists len, f_array f = Some (len, true)) -> P id') /\
    (P id -> P id' /\ (f_array f = None -> (rank id' < rank id)%nat))
}.

(** ** Truncation *)

(** Every value takes at least six bits, as many as the width in a packing
    descriptor. *)
Definition wide (t : basic) : Prop :=
  match t with
  | Std (BBits _ n) | Std (BSBits _ n) => 6 <= n
  | Std BBool => False
  | Std _ => True
  | Bits _ _ w => forall E n, w E = Some n -> 6 <= to_u 8 n
  end.

Definition packed_array (f : field) : Prop := exists len, f_array f = Some (len, true).

(** Everything that is delta packed is wide; [P] are the types in packed arrays. *)
Record wide_packed (S : schema) (P : nat -> Prop) : Prop := {
  wide_scalar : forall id t, nth_error S id = Some (DScalar t) -> P id -> wide t;
  wide_basic : forall id d f t, nth_error S id = Some d -> In f (fields_of d) -> f_type f = TBasic t ->
    packed_array f \/ (P id /\ (f_array f <> None \/ packable t = true)) -> wide t;
  wide_types : forall id d f id' args, nth_error S id = Some d -> In f (fields_of d) -> f_type f = TRef id' args ->
    packed_array f \/ P id -> P id'
}.

(** No array is declared packed. *)
Definition no_packed_arrays (S : schema) : Prop :=
  forall id d f, nth_error S id = Some d -> In f (fields_of d) -> ~ packed_array f.

(** ** Decoded values *)

(** For parameters that satisfy [I], bit widths fit the Go type they are held in;
    alignments are below 250 (C13). *)
Definition regular (S : schema) (I : nat -> list value -> Prop) : Prop :=
  (forall id t b, nth_error S id = Some (DScalar t) -> builtin_of (mkE [] []) t = Some b -> wf_builtin b) /\
  (forall id d f E, nth_error S id = Some d -> In f (fields_of d) -> I id (e_params E) ->
     (f_align f < 250)%nat /\
     match f_type f with
     | TBasic t => forall b, builtin_of E t = Some b -> wf_builtin b
     | TRef id' args => forall j ps, args E j = Some ps -> I id' ps
     end).
