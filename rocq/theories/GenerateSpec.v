(** What a run of the generator should leave behind. *)

Require Import ZArith String Ascii List Bool Permutation.
From Verif Require Import Files FilesSpec Generate.
Import ListNotations.
Open Scope Z_scope.

(** The types a file is written for, by kind: those without template parameters;
    enums and bitmasks have none. *)
Definition concrete (p : package) (k : kind) : list decl :=
  match k with
  | KEnum => p_enums p
  | KBitmask => p_bitmasks p
  | KUnion => filter (fun d => negb (d_templated d)) (p_unions p)
  | KChoice => filter (fun d => negb (d_templated d)) (p_choices p)
  | KStruct => filter (fun d => negb (d_templated d)) (p_structs p)
  end.

(** Two types of a package that are of the same kind have different names, also
    in snake case. *)
Definition names_differ (p : package) : Prop := forall k, NoDup (map d_name (concrete p k)).

(** The names of packages and types are no paths. *)
Definition plain_names (p : package) : Prop :=
  ~ In "/"%char (p_name p) /\ forall k d, In d (concrete p k) -> ~ In "/"%char (d_name d).

(** The names of the packages differ, also when written in lower case. *)
Definition packages_differ (m : list package) : Prop := ForallOrdPairs (fun p q => ~ same_up_to_case (p_name p) (p_name q)) m.

(** No name of a type has an underscore followed by a digit. *)
Definition no_numbers (p : package) : Prop := forall k d, In d (concrete p k) -> ~ has_number (d_name d).

(** A thing a file is written for: the constants and subtypes of a package, or a
    type. *)
Inductive item := Main | Type_ (k : kind) (d : decl).
Definition items (p : package) : list item :=
  Main :: flat_map (fun k => map (Type_ k) (concrete p k)) [KEnum; KUnion; KBitmask; KChoice; KStruct].

(** The contents of its file: the preamble and its own code, formatted. *)
Definition contents (c : config) (p : package) (i : item) : option text :=
  match p_preamble p, match i with Main => p_code p | Type_ _ d => d_code d end with
  | Some a, Some b => c_source c (a ++ b)
  | _, _ => None
  end.

(** The path is that of a .go file in the directory of the package. *)
Definition belongs (c : config) (p : package) (path : text) : Prop :=
  exists x, ~ In "/"%char x /\ path = c_root c ++ str "/" ++ package_dir (p_name p) ++ str "/" ++ x ++ str ".go".
