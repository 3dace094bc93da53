(** The pass that resolves all type references of a model: ResolveTypes,
    internal/model/transform.go:600-862. *)

Require Import ZArith String List Bool.
From Verif Require Import Packages.
Import ListNotations.
Open Scope Z_scope.

(** A type reference with its template arguments, type_reference.go:3-20. *)
Inductive ref := Ref (t : tyref) (args : list ref).
Definition head (r : ref) : tyref := match r with Ref t _ => t end.

(** ignoreParameters[name], transform.go:854. *)
Definition ignored (ignore : list string) (n : string) : bool := existsb (String.eqb n) ignore.

(** resolveTypeReference, transform.go:819-862, with the template arguments; the
    reference is changed in place, here returned. None is an error. *)
Fixpoint resolve (w : world) (p : package) (ignore : list string) (r : ref) : option ref :=
  match r with
  | Ref t args =>
      if tr_builtin t then Some r
      else
        match resolveTypeReference w p t with
        | None => None
        | Some t' =>
            match (fix all (l : list ref) : option (list ref) :=
                     match l with
                     | [] => Some []
                     | a :: l' =>
                         match (if ignored ignore (tr_name (head a)) then Some a else resolve w p ignore a) with
                         | None => None
                         | Some a' => match all l' with None => None | Some l'' => Some (a' :: l'') end
                         end
                     end) args with
            | None => None
            | Some args' => Some (Ref t' args')
            end
        end
  end.

(** ** Declarations *)

(** A struct, choice or union: template parameters, type parameters, fields (of a
    choice: those of the cases that have one), the field of the default case of a
    choice, and functions with their return type. *)
Record compound := mkC {
  k_templates : list string;
  k_params : list ref;
  k_fields : list ref;
  k_default : option ref;
  k_functions : list ref
}.

(** The type references of a package: of constants, structs, choices, unions,
    subtypes, bitmasks, instantiated types and enums. The order in the maps is
    that of the lists. *)
Record declarations := mkDs {
  r_consts : list ref;
  r_structs : list compound;
  r_choices : list compound;
  r_unions : list compound;
  r_subtypes : list ref;
  r_bitmasks : list ref;
  r_instantiated : list ref;
  r_enums : list ref
}.

Fixpoint every {A B} (f : A -> option B) (l : list A) : option (list B) :=
  match l with
  | [] => Some []
  | a :: l' => match f a with None => None | Some b => match every f l' with None => None | Some r => Some (b :: r) end end
  end.

(** The body of the loops: a reference to a template parameter is left alone, e.g.
    transform.go:625-639. *)
Definition resolve_member (w : world) (p : package) (templates : list string) (r : ref) : option ref :=
  if (tr_package (head r) =? "")%string && ignored templates (tr_name (head r)) then Some r
  else resolve w p templates r.

(** The loop over structs, transform.go:619-681. *)
Definition resolve_struct (w : world) (p : package) (k : compound) : option compound :=
  match every (resolve_member w p (k_templates k)) (k_params k), every (resolve_member w p (k_templates k)) (k_fields k),
        every (resolve_member w p (k_templates k)) (k_functions k) with
  | Some ps, Some fs, Some gs => Some (mkC (k_templates k) ps fs (k_default k) gs)
  | _, _, _ => None
  end.
(** The loops over choices and unions, transform.go:683-774. *)
Definition resolve_choice (w : world) (p : package) (k : compound) : option compound :=
  match every (resolve_member w p (k_templates k)) (k_params k), every (resolve_member w p (k_templates k)) (k_fields k) with
  | Some ps, Some fs => Some (mkC (k_templates k) ps fs (k_default k) (k_functions k))
  | _, _ => None
  end.
Definition resolve_union := resolve_choice.

(** The body of the loop over packages, transform.go:603-813. *)
Definition resolve_declarations (w : world) (m : package * declarations) : option (package * declarations) :=
  let '(p, d) := m in
  match every (resolve w p []) (r_consts d), every (resolve_struct w p) (r_structs d), every (resolve_choice w p) (r_choices d),
        every (resolve_union w p) (r_unions d), every (resolve w p []) (r_subtypes d), every (resolve w p []) (r_bitmasks d),
        every (resolve w p []) (r_instantiated d) with
  | Some a, Some b, Some c, Some e, Some f, Some g, Some h => Some (p, mkDs a b c e f g h (r_enums d))
  | _, _, _, _, _, _, _ => None
  end.
Definition ResolveTypes (w : world) (ms : list (package * declarations)) : option (list (package * declarations)) :=
  every (resolve_declarations w) ms.

(** Package.GoType, package.go:110-129, of a type that is not builtin: the package,
    if it is another one, and the name; None is the error "type is not resolved". *)
Definition GoTypeOfReference (p : package) (t : tyref) : option (option string * string) :=
  if (tr_package t =? "")%string then None
  else if (tr_package t =? p_name p)%string then Some (None, tr_name t)
  else Some (Some (tr_package t), tr_name t).
