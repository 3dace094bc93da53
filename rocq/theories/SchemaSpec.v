(** Which values a schema type has, and which schemas the theorems range over. *)

Require Import ZArith List Bool.
From Verif Require Import Bits Stream PosSpec Scalars Traits TraitSpec Schema.
Import ListNotations.
Open Scope Z_scope.

(** ** Builtin values *)

(** The builtin type that a field type stands for: a bit field gets its width
    from an expression, as a uint8. *)
Definition builtin_of (E : env) (t : basic) : option builtin :=
  match t with
  | Std b => Some b
  | Bits signed g w =>
      match w E with
      | Some n => Some (if signed then BSBits g (to_u 8 n) else BBits g (to_u 8 n))
      | None => None
      end
  end.

(** [v] is a value of the builtin type and within its range. *)
Definition basic_value (E : env) (t : basic) (v : value) : Prop :=
  exists b e, builtin_of E t = Some b /\ wf_builtin b /\ in_range b e /\ v = inj b e.

(** Bit fields of 64 bits have no element codec (C45). *)
Definition has_codec (E : env) (t : basic) : Prop :=
  match t with
  | Std _ => True
  | Bits _ _ w => forall n, w E = Some n -> to_u 8 n < 64
  end.

(** Types whose arrays may be packed (C18). *)
Definition integral (E : env) (t : basic) : Prop :=
  forall b, builtin_of E t = Some b -> integer_like b.

(** ** Schemas *)

Definition fields_of (d : def) : list field :=
  match d with
  | DScalar _ => []
  | DStruct fs => fs
  | DChoice _ cases default => choice_fields cases default
  | DUnion fs => fs
  end.

(** The fields before the [i]-th, the others not yet set: what the reader has. *)
Definition before (i : nat) (slots : list (option value)) : list (option value) :=
  firstn i slots ++ repeat None (length slots - i).

(** All the expressions of a field have the same value in both environments. *)
Definition same_type (E E' : env) (t : ftype) : Prop :=
  match t with
  | TBasic (Std _) => True
  | TBasic (Bits _ _ w) => w E = w E'
  | TRef _ args => forall i, args E i = args E' i
  end.
Definition agree (f : field) (E E' : env) : Prop :=
  included E f = included E' f /\
  same_type E E' (f_type f) /\
  match f_array f with Some (Some l, _) => l E = l E' | _ => True end.

(** The expressions of a field use only parameters and preceding fields. *)
Definition causal_field (i : nat) (f : field) : Prop :=
  forall ps slots, (i < length slots)%nat -> agree f (mkE ps slots) (mkE ps (before i slots)).
Definition causal (S : schema) : Prop :=
  forall id d i f, nth_error S id = Some d -> nth_error (fields_of d) i = Some f -> causal_field i f.

(** The type is built from finitely many types when arrays are not followed (a
    packed array of another type would need an infinite tree of contexts). *)
Fixpoint finite (S : schema) (n : nat) (id : nat) : Prop :=
  match n with
  | O => False
  | Datatypes.S n' =>
      exists d, nth_error S id = Some d /\
      forall f, In f (fields_of d) -> f_array f = None ->
        match f_type f with TRef id' _ => finite S n' id' | TBasic _ => True end
  end.

(** ** Values of user-defined types *)

(** [valid S n pk id ps v]: [v] is a value of the type [id] with parameters [ps],
    nested at most [n] deep; [pk]: it is stored inside a packed array, which
    restricts what is supported. *)

(** A length that the array can have. *)
Definition array_length (E : env) (len : option expr) (n : nat) : Prop :=
  match len with
  | None => Z.of_nat n <= MaxVarsize
  | Some l => exists m, l E = Some m /\ i64 m = Z.of_nat n
  end.

Definition valid_content (ok : bool -> nat -> list value -> value -> Prop) (fin : nat -> Prop)
    (pk : bool) (E : env) (f : field) (v : value) : Prop :=
  match f_array f with
  | None =>
      match f_type f with
      | TBasic t => basic_value E t v /\ (pk = true -> packable t = true -> has_codec E t)
      | TRef id args => exists ps, args E 0%nat = Some ps /\ ok pk id ps v
      end
  | Some (len, packed) =>
      exists es, v = VArr es /\ array_length E len (length es) /\
      match f_type f with
      | TBasic t =>
          has_codec E t /\ builtin_of E t <> None /\ Forall (basic_value E t) es /\
          (packed || pk = true -> integral E t)
      | TRef id args =>
          (forall i e, nth_error es i = Some e -> exists ps, args E i = Some ps /\ ok (packed || pk) id ps e) /\
          (packed || pk = true -> fin id)
      end
  end.

(** A field that is stored has a value or is optional; a field that is not stored
    has no value.  Alignment is below the limit of C13. *)
Definition valid_field (ok : bool -> nat -> list value -> value -> Prop) (fin : nat -> Prop)
    (pk : bool) (E : env) (f : field) (slot : option value) : Prop :=
  (f_align f < 250)%nat /\
  exists stored, included E f = Some stored /\
  if (stored : bool) then
    match slot with
    | Some v => valid_content ok fin pk E f v
    | None => f_optional f = true
    end
  else slot = None.

(** Only field [i] may be set. *)
Definition only_field (i : nat) (slots : list (option value)) : Prop :=
  forall j, j <> i -> nth_slot j slots = None.
Definition no_field (slots : list (option value)) : Prop :=
  forall j, nth_slot j slots = None.

Fixpoint valid (S : schema) (n : nat) (pk : bool) (id : nat) (ps : list value) (v : value) : Prop :=
  match n with
  | O => False
  | Datatypes.S n' =>
      let field := valid_field (valid S n') (finite S n') pk in
      exists d, nth_error S id = Some d /\
      match d with
      | DScalar t =>
          let E := mkE [] [] in
          basic_value E t v /\ (pk = true -> has_codec E t /\ integral E t)
      | DStruct fs =>
          exists slots, v = VRec 0 slots /\ length slots = length fs /\
          forall i f, nth_error fs i = Some f -> field (mkE ps slots) f (nth_slot i slots)
      | DChoice selector cases default =>
          exists slots sel, v = VRec 0 slots /\ length slots = length (choice_fields cases default) /\
          selector ps = Some sel /\
          (pk = true -> cases <> []) /\
          match select sel 0 cases default with
          | Some (i, f) => only_field i slots /\ field (mkE ps slots) f (nth_slot i slots)
          | None => no_field slots
          end
      | DUnion fs =>
          pk = false /\
          exists tag slots, v = VRec tag slots /\ length slots = length fs /\ 0 <= tag <= MaxVarsize /\
          match (if tag <? 1 then None else nth_error fs (Z.to_nat (tag - 1))) with
          | Some f => only_field (Z.to_nat (tag - 1)) slots /\
                      field (mkE ps slots) f (nth_slot (Z.to_nat (tag - 1)) slots)
          | None => no_field slots
          end
      end
  end.

(** ** The bits of an object *)

(** No alignment is written 0. *)
Definition align_bits (n : nat) : pbits := if (n =? 0)%nat then pnil else padding n.

(** A field with the encoding [content] of its value: nothing if its condition is
    false, else the padding, the marker bit of an optional field and the value. *)
Definition field_layout (E : env) (f : field) (slot : option value) (content : pbits) : pbits :=
  match included E f with
  | Some true =>
      papp (align_bits (f_align f))
        (match slot with
         | Some _ => if f_optional f then papp (pfix [true]) content else content
         | None => pfix [false]
         end)
  | _ => pnil
  end.

(** The fields from the [i]-th on, one after the other. *)
Fixpoint struct_layout (E : env) (i : nat) (fs : list field) (contents : list pbits) : pbits :=
  match fs, contents with
  | f :: fs', c :: cs' => papp (field_layout E f (nth_slot i (e_slots E)) c) (struct_layout E (S i) fs' cs')
  | _, _ => pnil
  end.

(** [k] is the branch of the choice for the selector [sel]: the first case that
    has a field and whose first condition is [sel], and the default otherwise.
    [k] counts the fields of the cases before it. *)
Definition with_field (c : list Z * option field) : bool := is_some (snd c).
Definition matches (sel : Z) (c : list Z * option field) : bool :=
  with_field c && match fst c with x :: _ => sel =? x | [] => false end.
Inductive branch_of (sel : Z) (cases : list (list Z * option field)) (default : option field) : nat -> field -> Prop :=
| branch_case : forall pre conds f post, cases = pre ++ (conds, Some f) :: post ->
    forallb (fun c => negb (matches sel c)) pre = true -> hd_error conds = Some sel ->
    branch_of sel cases default (length (filter with_field pre)) f
| branch_default : forall f, default = Some f -> forallb (fun c => negb (matches sel c)) cases = true ->
    branch_of sel cases default (length (filter with_field cases)) f.
