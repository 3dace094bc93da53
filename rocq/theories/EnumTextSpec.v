(** What is assumed of an enum declaration. *)

Require Import ZArith Ascii List.
From Verif Require Import Files EnumText.

(** The names of the items are identifiers: no parenthesis. *)
Definition proper (e : items) : Prop := forall n v, In (n, v) e -> ~ In "("%char n.
