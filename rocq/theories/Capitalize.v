(** Fields of template instances, and CapitalizeNames, internal/model/transform.go. *)

Require Import ZArith String List Bool Arith.
From Verif Require Import Members.
Import ListNotations.
Open Scope string_scope.

(** ** Fields *)

(** A type reference of a field, type_reference.go: of the template arguments only
    the names. *)
Record ftype := mkFT { ft_builtin : bool; ft_package : string; ft_name : string; ft_args : list string }.

(** A field, field.go:8-32: the name, the name in the schema, the type. *)
Record field := mkF { f_name : string; f_zserio : string; f_type : ftype }.

(** Fields are used through pointers, and two types can have the same field. *)
Definition heap := list field.

(** A struct, choice or union in the maps of all packages of a model: its package
    and name, template parameters, fields (of a choice: those of the cases) and the
    field of the default case.  Type parameters and functions are left out. *)
Record compound := mkC { c_id : string * string; c_templates : list string; c_fields : list nat; c_default : option nat }.
Definition model := (heap * list compound)%type.

(** ** Instances *)

Fixpoint lookup {A} (n : string) (l : list (string * A)) : option A :=
  match l with [] => None | (k, v) :: l' => if k =? n then Some v else lookup n l' end.

(** instantiateField, transform.go:303-338. [inst] stands for instantiateType, which
    gives the type of a field with template arguments. None is a nil pointer. *)
Definition instantiateField (inst : ftype -> ftype) (T : list (string * ftype)) (h : heap) (p : nat) : option (heap * nat) :=
  match nth_error h p with
  | None => None
  | Some f =>
      match ft_args (f_type f) with
      | _ :: _ => Some ((h ++ [mkF (f_name f) (f_zserio f) (inst (f_type f))])%list, length h)
      | [] =>
          match lookup (ft_name (f_type f)) T with
          | Some t => if ft_package (f_type f) =? "" then Some ((h ++ [mkF (f_name f) (f_zserio f) t])%list, length h) else Some (h, p)
          | None => Some (h, p)
          end
      end
  end.
Fixpoint instantiate_fields (inst : ftype -> ftype) (T : list (string * ftype)) (h : heap) (l : list nat) : option (heap * list nat) :=
  match l with
  | [] => Some (h, [])
  | p :: l' =>
      match instantiateField inst T h p with
      | None => None
      | Some (h1, p') => match instantiate_fields inst T h1 l' with None => None | Some (h2, r) => Some (h2, p' :: r) end
      end
  end.
Definition instantiate_default (inst : ftype -> ftype) (T : list (string * ftype)) (h : heap) (d : option nat) : option (heap * option nat) :=
  match d with
  | None => Some (h, None)
  | Some p => match instantiateField inst T h p with None => None | Some (h', p') => Some (h', Some p') end
  end.

(** An instance that is wanted: of a type of the model, with arguments, to have a
    package and name. *)
Record request := mkR { q_template : nat; q_arguments : list ftype; q_id : string * string; q_inst : ftype -> ftype }.
Definition same_id (a b : string * string) : bool := (fst a =? fst b) && (snd a =? snd b).

(** instantiateStruct and instantiateChoice, transform.go:340-507: the new type is
    entered into the map of the package, unless it is there. None is an error. *)
Definition instantiate (m : model) (q : request) : option model :=
  let '(h, cs) := m in
  match nth_error cs (q_template q) with
  | None => None
  | Some c =>
      match q_arguments q with
      | [] => None
      | _ :: _ =>
          if negb (length (c_templates c) =? length (q_arguments q))%nat then None
          else if existsb (fun c' => same_id (c_id c') (q_id q)) cs then Some m
          else
            let T := combine (c_templates c) (q_arguments q) in
            match instantiate_fields (q_inst q) T h (c_fields c) with
            | None => None
            | Some (h1, fs) =>
                match instantiate_default (q_inst q) T h1 (c_default c) with
                | None => None
                | Some (h2, d) => Some (h2, (cs ++ [mkC (q_id q) [] fs d])%list)
                end
            end
      end
  end.
Fixpoint instantiate_all (m : model) (l : list request) : option model :=
  match l with
  | [] => Some m
  | q :: l' => match instantiate m q with None => None | Some m' => instantiate_all m' l' end
  end.

(** ** CapitalizeNames *)

Fixpoint assign {A} (l : list A) (p : nat) (x : A) : list A :=
  match l, p with
  | [], _ => []
  | _ :: l', O => x :: l'
  | y :: l', S p' => y :: assign l' p' x
  end.

(** The type of a field, transform.go:67-69. *)
Definition title_type (t : ftype) : ftype := if ft_builtin t then t else mkFT false (ft_package t) (title (ft_name t)) (ft_args t).
(** A field of a struct, union or case, transform.go:64-70, 87-93, 104-112. *)
Definition visit_case (f : field) : field := mkF (title (f_name f)) (f_name f) (title_type (f_type f)).
(** The field of the default case, transform.go:113-118. *)
Definition visit_default (f : field) : field := mkF (title (f_name f)) (f_zserio f) (title_type (f_type f)).

(** What the loop does to the field at [p]. *)
Definition visit (h : heap) (v : nat * bool) : heap :=
  match nth_error h (fst v) with
  | None => h
  | Some f => assign h (fst v) (if snd v then visit_default f else visit_case f)
  end.
(** The fields of a type, in order; the flag is for the default case. *)
Definition visits_of (c : compound) : list (nat * bool) :=
  (map (fun p => (p, false)) (c_fields c) ++ match c_default c with Some p => [(p, true)] | None => [] end)%list.
(** CapitalizeNames, transform.go:39-124, on the fields of the types, given in the
    order in which the loops over the maps come across them. *)
Definition CapitalizeNames (h : heap) (order : list compound) : heap := fold_left visit (flat_map visits_of order) h.

(** ** JSON *)

(** An identifier is exported if it starts with an upper case letter (ASCII). *)
Definition exported (n : string) : bool :=
  match n with
  | EmptyString => false
  | String c _ => let k := Ascii.nat_of_ascii c in ((65 <=? k) && (k <=? 90))%nat
  end.
(** The key that encoding/json uses for a field declared by field_declaration.go.tmpl:6,
    with the tag json:"...": an empty name in the tag means the name of the field. *)
Definition json_key (f : field) : option string :=
  if exported (f_name f) then Some (if f_zserio f =? "" then f_name f else f_zserio f) else None.
