(** What the arguments of the types in an instance should be. *)

Require Import String List Bool Arith.
From Verif Require Import TypeArgs.
Import ListNotations.

(** Type references of fields are no template arguments, as each is an object of its
    own when the schema has been read. *)
Definition separate (S : schema) (l : list use) (h : heap) : Prop :=
  (forall p q, p < length h -> In q (c_targs (at_ h p)) -> q < length h) /\
  (forall f p, (exists pkg n t, lookup S pkg n = Some t /\ In f (t_fields t)) \/ (exists u, In u l /\ u_type u = f) ->
     f < length h /\ (p < length h -> ~ In f (c_targs (at_ h p)))).

(** The type of the field is the template parameter [x]. *)
Definition is_parameter (h : heap) (t : template) (f : pointer) (x : string) : Prop :=
  c_targs (at_ h f) = [] /\ c_package (at_ h f) = ""%string /\ c_name (at_ h f) = x /\ In x (t_params t).

(** All fields whose type is a template parameter have the arguments [a]. *)
Definition uniform (S : schema) (h : heap) (a : list expression) : Prop :=
  forall pkg n t f x, lookup S pkg n = Some t -> In f (t_fields t) -> is_parameter h t f x -> c_args (at_ h f) = a.
