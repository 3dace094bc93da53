(** Which fields belong to one type only. *)

Require Import ZArith String List Bool Arith.
From Verif Require Import Members Capitalize.
Import ListNotations.
Open Scope string_scope.

(** The fields of a type. *)
Definition pointers (c : compound) : list nat := (c_fields c ++ match c_default c with Some p => [p] | None => [] end)%list.

(** A model as it is read: every field belongs to one type, and has no name for
    JSON yet. *)
Definition parsed (m : model) : Prop :=
  NoDup (flat_map pointers (snd m)) /\
  (forall c p, In c (snd m) -> In p (pointers c) -> (p < length (fst m))%nat) /\
  (forall f, In f (fst m) -> f_zserio f = "").

(** The type of the field depends on the template parameters, or is itself an
    instance of a template. *)
Definition depends (templates : list string) (f : field) : Prop :=
  ft_args (f_type f) <> [] \/ (ft_package (f_type f) = "" /\ In (ft_name (f_type f)) templates).

(** The name starts with an ASCII letter. *)
Definition letter_first (n : string) : Prop :=
  match n with
  | EmptyString => False
  | String c _ => let k := Ascii.nat_of_ascii c in ((65 <= k <= 90) \/ (97 <= k <= 122))%nat
  end.
