(** Template instantiation: internal/model/transform.go:193-582. *)

Require Import ZArith String Ascii List Bool.
From Verif Require Import Files.
Import ListNotations.
Open Scope Z_scope.

(** strings.Title on an identifier (letters, digits and underscores, so that there
    is one word). *)
Definition upper_char (c : ascii) : ascii :=
  let n := nat_of_ascii c in if ((97 <=? n)%nat && (n <=? 122)%nat) then ascii_of_nat (n - 32) else c.
Definition Title (s : text) : text := match s with [] => [] | c :: s' => upper_char c :: s' end.

(** ast.TypeReference with its template arguments, type_reference.go:3-20. *)
Inductive ty := Ty (builtin : bool) (package name : text) (bits : Z) (args : list ty).
Definition ty_package (t : ty) : text := match t with Ty _ p _ _ _ => p end.
Definition ty_name (t : ty) : text := match t with Ty _ _ n _ _ => n end.
Definition ty_args (t : ty) : list ty := match t with Ty _ _ _ _ a => a end.

(** ast.Struct: template parameters and fields; the other parts are left out. *)
Record struct_def := mkS { s_params : list text; s_fields : list (text * ty) }.
(** pkgScope: its name and its Structs, of which the first entry with a name counts.
    Choices are treated in the same way by the code and left out. *)
Definition structs := list (text * struct_def).
Definition eq_text (a b : text) : bool := if list_eq_dec ascii_dec a b then true else false.
Fixpoint find_struct (n : text) (sc : structs) : option struct_def :=
  match sc with [] => None | (m, s) :: sc' => if eq_text m n then Some s else find_struct n sc' end.

(** templateTypes, transform.go:363-373: m[param] = type in order. *)
Fixpoint type_of_param (n : text) (ps : list text) (ts : list ty) (r : option ty) : option ty :=
  match ps, ts with
  | p :: ps', t :: ts' => type_of_param n ps' ts' (if eq_text p n then Some t else r)
  | _, _ => r
  end.

(** generateInstantiatedName, transform.go:540-546. *)
Definition generateInstantiatedName (tr : ty) (args : list ty) : text :=
  concat (Title (ty_name tr) :: map (fun a => Title (ty_name a)) args).

(** [Deep]: the recursion is deeper than the fuel. *)
Inductive inst (A : Type) := Done (a : A) (sc : structs) | Error | Deep.
Arguments Done {A} a sc. Arguments Error {A}. Arguments Deep {A}.

(** A loop that threads the scope. *)
Fixpoint each {A B} (f : structs -> A -> inst B) (sc : structs) (l : list A) : inst (list B) :=
  match l with
  | [] => Done [] sc
  | x :: l' =>
      match f sc x with
      | Done y sc1 => match each f sc1 l' with Done ys sc2 => Done (y :: ys) sc2 | Error => Error | Deep => Deep end
      | Error => Error
      | Deep => Deep
      end
  end.

(** instantiateField, transform.go:311-348, given instantiateType.  TypeArguments
    are treated below. *)
Definition instantiateField (inst_type : structs -> ty -> list ty -> inst ty) (params : list text) (types : list ty)
    (sc : structs) (f : text * ty) : inst (text * ty) :=
  let t := snd f in
  match ty_args t with
  | _ :: _ =>
      let args := map (fun a => match type_of_param (ty_name a) params types None with Some x => x | None => a end) (ty_args t) in
      match inst_type sc t args with
      | Done t' sc' => Done (fst f, t') sc'
      | Error => Error
      | Deep => Deep
      end
  | [] =>
      match type_of_param (ty_name t) params types None, ty_package t with
      | Some x, [] => Done (fst f, x) sc
      | _, _ => Done f sc
      end
  end.

(** instantiateStruct, transform.go:350-431, given instantiateType: the number of
    arguments, the arguments, the check for an existing struct, the fields, the
    entry in the scope. *)
Definition instantiateStruct (inst_type : structs -> ty -> list ty -> inst ty) (pkg : text)
    (sc : structs) (s : struct_def) (args : list ty) (name : text) : inst ty :=
  if negb (length (s_params s) =? length args)%nat then Error
  else
    match each (fun sc a => inst_type sc a (ty_args a)) sc args with
    | Done types sc1 =>
        let new := Ty false pkg name 0 [] in
        match find_struct name sc1 with
        | Some _ => Done new sc1
        | None =>
            match each (instantiateField inst_type (s_params s) types) sc1 (s_fields s) with
            | Done fields sc2 => Done new ((name, mkS [] fields) :: sc2)
            | Error => Error
            | Deep => Deep
            end
        end
    | Error => Error
    | Deep => Deep
    end.

(** instantiateType with an automatic name, transform.go:548-582.  GetSymbol is
    the lookup in the structs of the package. *)
Fixpoint instantiateType (fuel : nat) (pkg : text) (sc : structs) (tr : ty) (args : list ty) : inst ty :=
  match fuel with
  | O => Deep
  | S f =>
      match args with
      | [] => Done tr sc
      | _ =>
          match find_struct (ty_name tr) sc with
          | None => Error
          | Some s => instantiateStruct (instantiateType f pkg) pkg sc s args (generateInstantiatedName tr args)
          end
      end
  end.

(** ** Arguments of parameterised types *)

(** A field whose type is a template parameter, with the expressions it passes to
    the type: transform.go:337-344.  The type reference of the template argument
    is shared by all such fields, and each assigns its own expressions to it.
    [last]: the TypeArguments of that type reference. *)
Fixpoint assign_arguments {E} (p : text) (fields : list (text * (text * list E))) (last : list E) : list E :=
  match fields with
  | [] => last
  | (_, (t, es)) :: fields' => assign_arguments p fields' (if eq_text t p then es else last)
  end.
(** The expressions that a field passes in the instance. *)
Definition instance_arguments {E} (p : text) (fields : list (text * (text * list E))) (initial : list E) (f : text * (text * list E)) : list E :=
  if eq_text (fst (snd f)) p then assign_arguments p fields initial else snd (snd f).
