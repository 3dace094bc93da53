(** Identifiers of generated Go code: internal/generator/templates, CapitalizeNames
    of internal/model/transform.go, internal/ast/enum.go. *)

Require Import ZArith String Ascii List Bool Arith.
From Verif Require Import Packages Members.
Import ListNotations.
Open Scope string_scope.

(** ** Items of enums *)

Definition is_lower (c : ascii) : bool := let k := nat_of_ascii c in ((97 <=? k) && (k <=? 122))%nat.
Definition is_upper (c : ascii) : bool := let k := nat_of_ascii c in ((65 <=? k) && (k <=? 90))%nat.
Definition is_digit (c : ascii) : bool := let k := nat_of_ascii c in ((48 <=? k) && (k <=? 57))%nat.

(** strings.ToLower, for ASCII. *)
Definition lower (c : ascii) : ascii := if is_upper c then ascii_of_nat (nat_of_ascii c + 32) else c.
Fixpoint lowered (s : string) : string := match s with EmptyString => EmptyString | String c r => String (lower c) (lowered r) end.

(** strcase.ToCamel v0.3.0 of an identifier without upper case letters: letters after
    an underscore or a digit, and the first one, become upper case; underscores
    are dropped. *)
Fixpoint camel_from (next : bool) (s : string) : string :=
  match s with
  | EmptyString => EmptyString
  | String c r =>
      if is_lower c then String (if next then upper c else c) (camel_from false r)
      else if is_digit c then String c (camel_from true r)
      else camel_from true r
  end.
Definition ToCamel (s : string) : string := camel_from true s.

(** EnumItem.GoName, enum.go:66-68, without the name of the enum. *)
Definition item_name (i : string) : string := ToCamel (lowered i).

(** ** Declarations *)

(** The declarations of a package that lead to Go code, with the names of the
    schema: templates do not. *)
Inductive declaration :=
| DConst (n : string)
| DSubtype (n : string)
| DStruct (n : string) (params fields functions : list string)
| DChoice (n : string) (params fields : list string)
| DUnion (n : string) (params fields functions : list string)
| DEnum (n : string) (items : list string)
| DBitmask (n : string) (values : list string).

Definition schema_name (d : declaration) : string :=
  match d with
  | DConst n | DSubtype n | DStruct n _ _ _ | DChoice n _ _ | DUnion n _ _ _ | DEnum n _ | DBitmask n _ => n
  end.

(** The name in Go: CapitalizeNames, transform.go:39-124, changes those of constants,
    enums, unions and bitmasks. *)
Definition go_name (d : declaration) : string :=
  match d with
  | DConst n | DUnion n _ _ _ | DEnum n _ | DBitmask n _ => title n
  | DSubtype n | DStruct n _ _ _ | DChoice n _ _ => n
  end.

(** What the templates declare at the top level, after the name: union.go.tmpl:4-15,
    enum.go.tmpl:7-58, bitmask.go.tmpl:9-17, package.go.tmpl, struct.go.tmpl:5,
    choice.go.tmpl:6. *)
Definition suffixes (d : declaration) : list string :=
  match d with
  | DConst _ | DSubtype _ | DStruct _ _ _ _ | DChoice _ _ _ => [""]
  | DUnion _ _ fs _ => "UnionChoiceType" :: "ChoiceUndefined" :: map (fun f => ("Choice" ++ title f)%string) fs ++ [""]
  | DEnum _ items => "" :: map item_name items ++ ["Values"; "Strings"; "String"]
  | DBitmask _ values => "" :: map title values
  end%list.
(** The variables of an enum, enum.go.tmpl:20-43, between "_" and which the name of
    the enum stands. *)
Definition hidden (d : declaration) : list string :=
  match d with DEnum _ _ => ["Names"; "Values"; "Name"; "NameToValue"] | _ => [] end.

(** All identifiers that a declaration adds to the Go package. *)
Definition identifiers (d : declaration) : list string :=
  (map (fun s => (go_name d ++ s)%string) (suffixes d) ++ map (fun s => ("_" ++ go_name d ++ s)%string) (hidden d))%list.

(** ** Members *)

(** The methods in struct.go.tmpl, choice.go.tmpl and union.go.tmpl. *)
Definition methods : list string :=
  ["LoadDefaultValues"; "MarshalZserio"; "UnmarshalZserio"; "ZserioBitSize"; "ZserioCreatePackingContext"; "ZserioInitPackingContext";
   "UnmarshalZserioPacked"; "MarshalZserioPacked"; "ZserioInitializeOffsetsPacked"; "ZserioBitSizePacked"].
(** The fields and methods of a Go type; functions of choices are not generated. *)
Definition members (d : declaration) : list string :=
  match d with
  | DStruct _ ps fs gs => map title ps ++ map title fs ++ methods ++ map title gs
  | DChoice _ ps fs => map title ps ++ map title fs ++ methods
  | DUnion _ ps fs gs => "UnionChoice" :: map title ps ++ map title fs ++ methods ++ map title gs
  | _ => []
  end%list.

(** ** References *)

(** The type of a field after CapitalizeNames, transform.go:67-69: the entries of the
    symbol tables keep their names. *)
Definition capitalised (t : tyref) : tyref := if tr_builtin t then t else mkTR false (tr_package t) (title (tr_name t)) (tr_bits t).
