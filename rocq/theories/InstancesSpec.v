(** Who evaluates the expressions of a template. *)

Require Import ZArith String List Bool.
From Verif Require Import AstExpr ExprPrint Packages PackagesSpec Members MembersSpec Instances.
Import ListNotations.

(** Of all instances in [l] of the template of [i], [i0] comes first. *)
Definition first_instance (l : list instance) (i i0 : instance) : Prop :=
  i_template i0 = i_template i /\ exists pre post, l = pre ++ i0 :: post /\ forall x, In x pre -> i_template x <> i_template i.

(** In the instance [i] of a choice template, the selector [sel] is a parameter of the
    type [t]. *)
Definition selects (E : menv) (i : instance) (sel : string) (t : tyref) : Prop :=
  let p := i_package i in
  searchable E p /\ member_of E p (i_name i) sel (SyParameter t) /\ not_global E p sel /\
  (exists k m, means (me_world E) p t k m) /\ plain_name E p t.

(** The value of the label [n] for a selector of the type [t] of the package [p]. *)
Definition item_value (E : menv) (p : package) (t : tyref) (n : string) (z : Z) : Prop := label_value E nowhere p t (MName n) z.
