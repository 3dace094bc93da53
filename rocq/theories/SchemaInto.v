(** UnmarshalZserio of the generated types into an object that may have been used
    before (internal/generator/templates).  [Schema.v] has the case of a new object. *)

Require Import ZArith List Bool.
From Verif Require Import Bits Stream Scalars Marshal Traits Delta Array Schema.
Import ListNotations.
Open Scope Z_scope.

(** The place an object is decoded into: [None] is the zero value of the type (and a
    nil pointer or slice).  The result is what is there afterwards, also after an
    error, and the reader with the outcome. *)
Definition decoder := option value -> rst -> option value * (rst * outcome unit).

Definition as_unit {A} (o : outcome A) : outcome unit :=
  match o with Ok _ => Ok tt | Err e => Err e | Panic => Panic | NoFuel => NoFuel end.

(** The place is assigned only when the reader succeeds (decode.go.tmpl:49-58). *)
Definition put {A} (inj : A -> option value) (m : reader A) : decoder := fun s r =>
  match m r with
  | (r', Ok v) => (inj v, (r', Ok tt))
  | (r', o) => (s, (r', as_unit o))
  end.

(** decode.go.tmpl:49-93.  An array is read into a new slice; on an error the slice of
    an array of objects becomes nil (67, object_array_decode.go:13, 28, 44, 54), that of
    an array of builtin types is kept (71).  A compound field is decoded in place (88);
    [I] is its UnmarshalZserio. *)
Definition content_into (M : methods) (I : nat -> list value -> decoder) (E : env) (f : field) : decoder := fun s r =>
  match f_array f with
  | Some (len, packed) =>
      match read_field_array M E f len packed r with
      | (r', Ok es) => (Some (VArr es), (r', Ok tt))
      | (r', Err e) => (match f_type f with TRef _ _ => None | TBasic _ => s end, (r', Err e))
      | (r', o) => (s, (r', as_unit o))
      end
  | None =>
      match f_type f with
      | TBasic t => put Some (read_basic E t) s r
      | TRef id args => match args E 0%nat with Some ps => I id ps s r | None => (s, (r, Panic)) end
      end
  end.

(** decode.go.tmpl: a field whose condition is false is not touched; an optional field is
    read into a new variable (36-46) and assigned at the end (95), or set to nil (97). *)
Definition field_into (M : methods) (I : nat -> list value -> decoder) (E : env) (f : field) : decoder := fun s r =>
  match included E f with
  | None => (s, (r, Panic))
  | Some false => (s, (r, Ok tt))
  | Some true =>
      match ralign_opt (f_align f) r with
      | (r, Ok _) =>
          if f_optional f then
            match ReadBool r with
            | (r, Ok true) => put Some (read_content M E f) s r
            | (r, Ok false) => (None, (r, Ok tt))
            | (r, o) => (s, (r, as_unit o))
            end
          else content_into M I E f s r
      | (r, o) => (s, (r, as_unit o))
      end
  end.

(** struct.go.tmpl:34-43: [slots] is the object, of which the fields before the [i]-th
    have been read. *)
Fixpoint fields_into (M : methods) (I : nat -> list value -> decoder) (ps : list value) (i : nat) (fs : list field)
    (slots : list (option value)) (r : rst) : list (option value) * (rst * outcome unit) :=
  match fs with
  | [] => (slots, (r, Ok tt))
  | f :: fs' =>
      match field_into M I (mkE ps slots) f (nth_slot i slots) r with
      | (s, (r', Ok _)) => fields_into M I ps (S i) fs' (update i s slots) r'
      | (s, (r', o)) => (update i s slots, (r', o))
      end
  end.

(** The object in a place; the Go type system rules out the values of another shape. *)
Definition object_in (n : nat) (s : option value) : option (Z * list (option value)) :=
  match s with
  | None => Some (0, repeat None n)
  | Some (VRec tag slots) => if (length slots =? n)%nat then Some (tag, slots) else None
  | Some _ => None
  end.

(** struct.go.tmpl:34-43, choice.go.tmpl:58-76, union.go.tmpl:49-62, enum.go.tmpl:129-146,
    bitmask.go.tmpl:39-56. *)
Definition def_into (M : methods) (I : nat -> list value -> decoder) (d : def) (ps : list value) : decoder := fun s r =>
  match d with
  | DScalar t => put Some (read_basic (mkE [] []) t) s r
  | DStruct fs =>
      match object_in (length fs) s with
      | None => (s, (r, Panic))
      | Some (tag, slots) => let (slots', x) := fields_into M I ps 0 fs slots r in (Some (VRec tag slots'), x)
      end
  | DChoice selector cases default =>
      match object_in (length (choice_fields cases default)) s with
      | None => (s, (r, Panic))
      | Some (tag, slots) =>
          match selector ps with
          | None => (s, (r, Panic))
          | Some sel =>
              match select sel 0 cases default with
              | Some (i, f) =>
                  let (s', x) := field_into M I (mkE ps slots) f (nth_slot i slots) r in (Some (VRec tag (update i s' slots)), x)
              | None => (Some (VRec tag slots), (r, Ok tt))
              end
          end
      end
  | DUnion fs =>
      match object_in (length fs) s with
      | None => (s, (r, Panic))
      | Some (_, slots) =>
          match ReadVarsize r with
          | (r, Ok tag) =>
              match (if tag <? 1 then None else nth_error fs (Z.to_nat (tag - 1))) with
              | Some f =>
                  let i := Z.to_nat (tag - 1) in
                  let (s', x) := field_into M I (mkE ps slots) f (nth_slot i slots) r in (Some (VRec tag (update i s' slots)), x)
              | None => (Some (VRec tag slots), (r, Ok tt))
              end
          | (r, o) => (s, (r, as_unit o))
          end
      end
  end.

Fixpoint UnmarshalInto (S : schema) (fuel : nat) (id : nat) (ps : list value) : decoder := fun s r =>
  match fuel with
  | O => (s, (r, NoFuel))
  | Datatypes.S fuel' =>
      match nth_error S id with
      | Some d => def_into (run S fuel') (UnmarshalInto S fuel') d ps s r
      | None => (s, (r, Panic))
      end
  end.
