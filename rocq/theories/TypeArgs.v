(** The type references of template instances, which share pointers: InstantiateTemplates,
    instantiateType, instantiateStruct, instantiateChoice and instantiateField of
    internal/model/transform.go. *)

Require Import String List Bool Arith.
From Verif Require Import Members.
Import ListNotations.

(** Pointers to TypeReferences and Expressions. *)
Definition pointer := nat.
Definition expression := nat.

(** TypeReference, type_reference.go:3-20: what the passes use and change. *)
Record cell := mkC { c_package : string; c_name : string; c_targs : list pointer; c_args : list expression }.
Definition heap := list cell.
Definition nothing : cell := mkC "" "" [] [].
Definition at_ (h : heap) (p : pointer) : cell := nth p h nothing.

(** An assignment to TypeArguments. *)
Definition with_args (c : cell) (a : list expression) : cell := mkC (c_package c) (c_name c) (c_targs c) a.
Definition set_args (h : heap) (p : pointer) (a : list expression) : heap :=
  firstn p h ++ match skipn p h with [] => [] | c :: r => with_args c a :: r end.

(** A struct or choice template: its parameters and the types of its fields (of a
    choice: those of the cases, then that of the default, as far as they have
    a field). *)
Record template := mkT { t_choice : bool; t_params : list string; t_fields : list pointer }.
(** An instance that was made, in the package [e_package]. *)
Record entry := mkE { e_package : string; e_name : string; e_template : template; e_fields : list pointer }.
Record state := mkS { s_heap : heap; s_made : list entry }.

(** What the passes before leave: the template of a name, as GetSymbol finds it from
    a package, and the structs and choices ([true]) that a package declares. *)
Record schema := mkSch {
  lookup : string -> string -> option template;
  declared : string -> bool -> string -> bool
}.

(** An error; more nested templates than there is fuel for. *)
Inductive out (A : Type) := Good (a : A) | Bad | Deep.
Arguments Good {A}. Arguments Bad {A}. Arguments Deep {A}.

Fixpoint collect (f : pointer -> state -> out (pointer * state)) (l : list pointer) (st : state) : out (list pointer * state) :=
  match l with
  | [] => Good ([], st)
  | p :: l' =>
      match f p st with
      | Good (q, st1) => match collect f l' st1 with Good (qs, st2) => Good (q :: qs, st2) | Bad => Bad | Deep => Deep end
      | Bad => Bad
      | Deep => Deep
      end
  end.

(** templateTypes, transform.go:361-371: the last one of equal names counts. *)
Fixpoint bound (params : list string) (types : list pointer) (n : string) : option pointer :=
  match params, types with
  | x :: xs, p :: ps => match bound xs ps n with Some q => Some q | None => if (x =? n)%string then Some p else None end
  | _, _ => None
  end.

(** generateInstantiatedName, transform.go:540-546. *)
Definition instance_name (h : heap) (tr : pointer) (targs : list pointer) : string :=
  (title (c_name (at_ h tr)) ++ fold_right (fun p s => title (c_name (at_ h p)) ++ s) "" targs)%string.

(** instantiateField, transform.go:311-348.  [again]: instantiateType. *)
Definition instantiateField (again : pointer -> list pointer -> state -> out (pointer * state)) (types : string -> option pointer)
  (field : pointer) (st : state) : out (pointer * state) :=
  let c := at_ (s_heap st) field in
  match c_targs c with
  | [] =>
      match types (c_name c) with
      | Some q => if (c_package c =? "")%string then Good (q, mkS (set_args (s_heap st) q (c_args c)) (s_made st)) else Good (field, st)
      | None => Good (field, st)
      end
  | targs => again field (map (fun p => match types (c_name (at_ (s_heap st) p)) with Some q => q | None => p end) targs) st
  end.

(** instantiateType, transform.go:548-583, with instantiateStruct (350-431) or
    instantiateChoice (433-538). *)
Fixpoint instantiateType (fuel : nat) (S : schema) (pkg : string) (name : option string) (tr : pointer) (targs : list pointer) (st : state) : out (pointer * state) :=
  match fuel with
  | O => Deep
  | Datatypes.S f =>
      match targs with
      | [] => Good (tr, st)
      | _ =>
          let n := match name with Some n => n | None => instance_name (s_heap st) tr targs end in
          match lookup S pkg (c_name (at_ (s_heap st) tr)) with
          | None => Bad
          | Some t =>
              if (length (t_params t) =? length targs)%nat then
                match collect (fun ta st => instantiateType f S pkg None ta (c_targs (at_ (s_heap st) ta)) st) targs st with
                | Good (types, st1) =>
                    let new := length (s_heap st1) in
                    let st2 := mkS (s_heap st1 ++ [mkC pkg n [] []]) (s_made st1) in
                    let finish st := Good (new, mkS (set_args (s_heap st) new (c_args (at_ (s_heap st) tr))) (s_made st)) in
                    if (declared S pkg (t_choice t) n ||
                        existsb (fun e => (e_package e =? pkg)%string && (e_name e =? n)%string && Bool.eqb (t_choice (e_template e)) (t_choice t)) (s_made st2))%bool
                    then finish st2
                    else
                      match collect (instantiateField (instantiateType f S pkg None) (bound (t_params t) types)) (t_fields t) st2 with
                      | Good (fields, st3) => finish (mkS (s_heap st3) (s_made st3 ++ [mkE pkg n t fields]))
                      | Bad => Bad
                      | Deep => Deep
                      end
                | Bad => Bad
                | Deep => Deep
                end
              else Bad
          end
      end
  end.

(** A type reference outside of templates: in a declaration with the keyword
    instantiate, which has a name, in a subtype or as the type of a field. *)
Record use := mkU { u_package : string; u_name : option string; u_type : pointer }.
(** InstantiateTemplates, transform.go:193-309, in the order [l]: the orders of the maps
    of packages and types are arbitrary.  The results are assigned to the fields. *)
Fixpoint InstantiateTemplates (fuel : nat) (S : schema) (l : list use) (st : state) : out (list pointer * state) :=
  match l with
  | [] => Good ([], st)
  | u :: l' =>
      match instantiateType fuel S (u_package u) (u_name u) (u_type u) (c_targs (at_ (s_heap st) (u_type u))) st with
      | Good (q, st1) => match InstantiateTemplates fuel S l' st1 with Good (qs, st2) => Good (q :: qs, st2) | Bad => Bad | Deep => Deep end
      | Bad => Bad
      | Deep => Deep
      end
  end.
