(** What the references of a model should become. *)

Require Import ZArith String List Bool.
From Verif Require Import Packages PackagesSpec Resolve.
Import ListNotations.
Open Scope Z_scope.

(** ** Places *)

Inductive compound_kind := Struct | Choice | Union.
(** Where a type can be used. *)
Inductive place :=
| ConstType
| ParameterType (k : compound_kind)
| FieldType (k : compound_kind)
| DefaultFieldType (k : compound_kind)
| FunctionType (k : compound_kind)
| SubtypeType
| BitmaskType
| InstantiatedType
| EnumType.

Definition compounds (k : compound_kind) (d : declarations) : list compound :=
  match k with Struct => r_structs d | Choice => r_choices d | Union => r_unions d end.

(** The references at a place, with the template parameters of the type around. *)
Definition references (x : place) (d : declarations) : list (list string * ref) :=
  let inside k (f : compound -> list ref) := flat_map (fun c => map (pair (k_templates c)) (f c)) (compounds k d) in
  match x with
  | ConstType => map (pair []) (r_consts d)
  | ParameterType k => inside k k_params
  | FieldType k => inside k k_fields
  | DefaultFieldType k => inside k (fun c => match k_default c with Some r => [r] | None => [] end)
  | FunctionType k => inside k k_functions
  | SubtypeType => map (pair []) (r_subtypes d)
  | BitmaskType => map (pair []) (r_bitmasks d)
  | InstantiatedType => map (pair []) (r_instantiated d)
  | EnumType => map (pair []) (r_enums d)
  end.

(** The places that are forgotten. *)
Definition forgotten (x : place) : Prop :=
  match x with
  | DefaultFieldType _ => True
  | FunctionType Choice => True
  | FunctionType Union => True
  | EnumType => True
  | _ => False
  end.

(** ** Meanings *)

(** The import makes the name [n] visible, from the package [q]. *)
Definition offers (w : world) (i : import) (n : string) (q : package) : Prop :=
  In q w /\ p_name q = i_package i /\ (i_type i = "*"%string \/ i_type i = n) /\ exists s, declares q n s.

(** Used in [p], the name [n] means the type of that name in the package [m]: in
    [p] itself, or else in the first import that offers it. *)
Definition names (w : world) (p : package) (n m : string) : Prop :=
  ((exists s, declares p n s) /\ m = p_name p) \/
  (undeclared p n /\ exists l1 i l2 q, p_imports p = l1 ++ i :: l2 /\ offers w i n q /\ m = i_package i /\
     forall i' q', In i' l1 -> ~ offers w i' n q').

(** The reference after the pass: with the package it names. *)
Definition placed (w : world) (p : package) (t t' : tyref) : Prop :=
  (tr_package t <> ""%string /\ t' = t /\ exists q s, In q w /\ p_name q = tr_package t /\ declares q (tr_name t) s) \/
  (tr_package t = ""%string /\ exists m, names w p (tr_name t) m /\ t' = mkTR false m (tr_name t) (tr_bits t)).

(** The same for the template arguments, except for builtin types and template
    parameters. *)
Inductive meant (w : world) (p : package) (templates : list string) : ref -> ref -> Prop :=
| Builtin : forall t args, tr_builtin t = true -> meant w p templates (Ref t args) (Ref t args)
| Declared : forall t t' args args', tr_builtin t = false -> placed w p t t' -> meant_args w p templates args args' ->
    meant w p templates (Ref t args) (Ref t' args')
with meant_args (w : world) (p : package) (templates : list string) : list ref -> list ref -> Prop :=
| NoArg : meant_args w p templates [] []
| OfTemplate : forall a l l', In (tr_name (head a)) templates -> meant_args w p templates l l' -> meant_args w p templates (a :: l) (a :: l')
| Argument : forall a a' l l', ~ In (tr_name (head a)) templates -> meant w p templates a a' -> meant_args w p templates l l' ->
    meant_args w p templates (a :: l) (a' :: l').

(** The reference at a place, in a type with these template parameters. *)
Definition becomes (w : world) (p : package) (a b : list string * ref) : Prop :=
  fst b = fst a /\
  ((tr_package (head (snd a)) = ""%string /\ In (tr_name (head (snd a))) (fst a) /\ snd b = snd a) \/
   (~ (tr_package (head (snd a)) = ""%string /\ In (tr_name (head (snd a))) (fst a)) /\ meant w p (fst a) (snd a) (snd b))).

(** All imports of the packages are of packages of the model. *)
Definition imports_known (w : world) (p : package) : Prop := forall i, In i (p_imports p) -> exists q, In q w /\ p_name q = i_package i.
(** The model as a whole: packages have different, non-empty names and import each
    other. *)
Definition well_formed (w : world) (p : package) : Prop :=
  NoDup (map p_name w) /\ (forall q, In q w -> p_name q <> ""%string) /\ In p w /\ imports_known w p.

(** All references outside the forgotten places mean something. *)
Definition resolvable (w : world) (p : package) (d : declarations) : Prop :=
  forall x a, ~ forgotten x -> In a (references x d) -> exists b, becomes w p a b.
