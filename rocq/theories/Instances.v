(** Expressions of template instances: the instances of a template point to the same
    expressions (instantiateField, instantiateStruct and instantiateChoice of
    internal/model/transform.go), which are evaluated once (Expression.Evaluate of
    internal/ast/expression.go). *)

Require Import ZArith String List Bool.
From Verif Require Import AstExpr ExprPrint Packages Members.
Import ListNotations.

(** An Expression, expression.go:37-91: not evaluated, or with its results. *)
Inductive cell := Todo (e : mexpr) | Complete (a : aexpr) (s : option sref).

(** Expression.Evaluate, expression.go:767-917: a complete expression stays as it is,
    whatever the scope. *)
Definition Evaluate (E : menv) (cur : current) (p : package) (c : cell) : status + cell :=
  match c with
  | Complete _ _ => inr c
  | Todo e => match evaluate_member E cur p e with MOk a s => inr (Complete a s) | MFail x => inl x end
  end.

Fixpoint each {A} (f : A -> status + A) (l : list A) : status + list A :=
  match l with
  | [] => inr []
  | x :: l' => match f x with inl e => inl e | inr y => match each f l' with inl e => inl e | inr ys => inr (y :: ys) end end
  end.

(** The expressions that a template and its instances share.  A struct or a choice
    that is no instance has its own.  instantiateField copies a Field, but not its
    expressions (transform.go:312); the conditions of a case are shared
    (transform.go:475), and so are the results of functions (transform.go:410-423, 517-530). *)
Record template := mkT {
  t_choice : option (cell * list (list cell));   (* of a choice: selector and labels *)
  t_exprs : list cell                            (* those of fields, parameters and functions *)
}.

(** fullySpecifyChoiceConditions, choice.go:51-81.  The label is replaced in the
    shared condition.  It is not complete if it is an identifier. *)
Definition specify_cell (selector c : cell) : status + cell :=
  match c with
  | Complete _ _ => inr c
  | Todo e => match specify (match selector with Complete _ s => s | Todo _ => None end) e with inl x => inl x | inr e' => inr (Todo e') end
  end.

(** Struct.Evaluate, struct.go:36-61, and Choice.Evaluate, choice.go:82-125; the
    default field of a choice is evaluated with the others. *)
Definition EvaluateInstance (E : menv) (cur : current) (p : package) (t : template) : status + template :=
  match t_choice t with
  | None => match each (Evaluate E cur p) (t_exprs t) with inl x => inl x | inr es => inr (mkT None es) end
  | Some (selector, cases) =>
      match Evaluate E cur p selector with
      | inl x => inl x
      | inr selector' =>
          match each (each (specify_cell selector')) cases with
          | inl x => inl x
          | inr cases' =>
              match each (Evaluate E cur p) (t_exprs t) with
              | inl x => inl x
              | inr es =>
                  match each (each (Evaluate E cur p)) cases' with
                  | inl x => inl x
                  | inr cases'' => inr (mkT (Some (selector', cases'')) es)
                  end
              end
          end
      end
  end.

(** An instance: its package, its name and the template it was made from. *)
Record instance := mkI { i_package : package; i_name : string; i_template : nat }.

(** The templates of a model by number. *)
Definition store := nat -> template.
Definition set (st : store) (k : nat) (t : template) : store := fun j => if Nat.eqb j k then t else st j.

(** EvaluateStructs and EvaluateChoices, transform.go:171-191, in the order [l], up to
    the first error: the orders of the maps of packages and types are arbitrary.
    CurrentCompoundScope stays set. *)
Fixpoint EvaluateInstances (E : menv) (cur : current) (l : list instance) (st : store) : status + store :=
  match l with
  | [] => inr st
  | i :: l' =>
      let cur' := enter (p_name (i_package i)) (i_name i) cur in
      match EvaluateInstance E cur' (i_package i) (st (i_template i)) with
      | inl x => inl x
      | inr t => EvaluateInstances E cur' l' (set st (i_template i) t)
      end
  end.

(** ** The generated code *)

(** The integers after case, choice.go.tmpl:42-43 and elsewhere. *)
Definition label_of (c : cell) : option Z := match c with Complete a _ => Some (r_int (res a)) | Todo _ => None end.
Definition labels_of (t : template) : option (list (list (option Z))) :=
  match t_choice t with Some (_, cases) => Some (map (map label_of) cases) | None => None end.
(** The name after switch. *)
Definition switch_of (t : template) : option string :=
  match t_choice t with Some (Complete _ (Some s), _) => Some (title (sr_name s)) | _ => None end.
(** The other expressions, as ExpressionToGoString gets them. *)
Definition printed (t : template) : list (option aexpr) := map (fun c => match c with Complete a _ => Some a | Todo _ => None end) (t_exprs t).

(** A choice and a struct of the schema, before evaluation. *)
Definition fresh_choice (c : choice) : template :=
  mkT (Some (Todo (ch_selector c), map (map Todo) (ch_labels c))) (map Todo (ch_exprs c)).
Definition fresh_struct (es : list mexpr) : template := mkT None (map Todo es).
