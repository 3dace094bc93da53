(** LoadDefaultValues of the generated types: default_values.go.tmpl and the method
    in struct.go.tmpl:14-19, union.go.tmpl:27-32, choice.go.tmpl:22-34,
    enum.go.tmpl:109-111 and bitmask.go.tmpl:19-21. *)

Require Import ZArith List Bool.
From Verif Require Import Bits Stream Scalars Marshal Traits Delta Array Schema.
Import ListNotations.
Open Scope Z_scope.

(** The initialisers: of the field number [i] of the type number [id], as the value
    of the Go expression they are printed as. They are constant expressions. *)
Definition initialisers := nat -> nat -> option value.

(** The fields of a type, in the order of declaration: in choices those of the
    cases that have one, and then the default. *)
Definition fields_of (d : def) : list field :=
  match d with
  | DScalar _ => []
  | DStruct fs => fs
  | DChoice _ cases default => choice_fields cases default
  | DUnion fs => fs
  end.

(** default_values.go.tmpl, with [load] as LoadDefaultValues of the types of the
    fields. [None] as a slot is the zero value, or nil for an optional field. The
    result None is a depth bound that is exceeded. *)
Definition load_field (load : nat -> option value -> option (option value)) (f : field) (x : option value) (slot : option value) : option (option value) :=
  if negb (f_optional f) && negb (is_some (f_array f)) then
    match f_type f with
    | TRef id _ => load id slot
    | TBasic _ => match x with Some v => Some (Some v) | None => Some slot end
    end
  else Some slot.

(** The range over the fields; [i] is the number of the next field. *)
Fixpoint load_fields (load : nat -> option value -> option (option value)) (I : nat -> option value) (i : nat) (fs : list field) (slots : list (option value)) : option (list (option value)) :=
  match fs with
  | [] => Some []
  | f :: fs' =>
      match load_field load f (I i) (nth_slot i slots) with
      | None => None
      | Some s => match load_fields load I (S i) fs' slots with None => None | Some ss => Some (s :: ss) end
      end
  end.

(** The method of the type number [id], on a variable holding [slot]. A variable of
    a struct, choice or union type that holds the zero value has the UnionChoice 0
    and zero values as fields. *)
Fixpoint load (Sc : schema) (I : initialisers) (fuel : nat) (id : nat) (slot : option value) : option (option value) :=
  match fuel with
  | O => None
  | S fuel' =>
      match nth_error Sc id with
      | None => None
      | Some (DScalar _) => Some slot
      | Some d =>
          match slot with
          | Some (VRec tag slots) =>
              match load_fields (load Sc I fuel') (I id) 0 (fields_of d) slots with Some s => Some (Some (VRec tag s)) | None => None end
          | None =>
              match load_fields (load Sc I fuel') (I id) 0 (fields_of d) [] with Some s => Some (Some (VRec 0 s)) | None => None end
          | _ => None
          end
      end
  end.

Definition LoadDefaultValues (Sc : schema) (I : initialisers) (fuel id : nat) (v : value) : option value :=
  match load Sc I fuel id (Some v) with Some (Some v') => Some v' | _ => None end.
