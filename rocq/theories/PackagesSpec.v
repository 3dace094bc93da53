(** Import graphs, and what names and type references should mean. *)

Require Import ZArith String List Bool Permutation.
From Verif Require Import Packages.
From Verif Require AstTypes.
Import ListNotations.
Open Scope Z_scope.

(** ** Import graphs *)

(** Package [q] is imported (with "*") by [p]. *)
Definition edge (w : world) (p q : package) : Prop := In q (imported w p).

(** [p], or a package imported by it, directly or indirectly. *)
Inductive reach (w : world) (p : package) : package -> Prop :=
| reach_self : reach w p p
| reach_step : forall q r, reach w p q -> edge w q r -> reach w p r.

(** Imported by [p], directly or indirectly; [p] itself only on a cycle. *)
Definition reach1 (w : world) (p r : package) : Prop := exists q, reach w p q /\ edge w q r.

(** No package that [p] can reach imports itself. *)
Definition acyclic (w : world) (p : package) : Prop := forall q, reach w p q -> ~ reach1 w q q.
(** [p] can reach a package that imports itself. *)
Definition cyclic (w : world) (p : package) : Prop := exists q, reach w p q /\ reach1 w q q.

(** Packages have different names, and no empty ones. *)
Definition distinct (w : world) : Prop := NoDup (map p_name w) /\ ~ In ""%string (map p_name w).

(** ** Symbols *)

(** [p] declares the type [n]; [n] is an item of an enum of [p]. *)
Definition declares (p : package) (n : string) (s : sym) : Prop := get n (p_types p) = Some s.
Definition has_item (p : package) (n : string) (s : sym) : Prop := get n (p_others p) = Some s.
Definition undeclared (p : package) (n : string) : Prop := get n (p_types p) = None.
(** [n] is a field, parameter or function of the type of [p] that is being looked at. *)
Definition has_member (p : package) (n : string) (s : sym) : Prop :=
  exists fs, p_current p = Some fs /\ get n fs = Some s.
Definition no_member (p : package) (n : string) : Prop :=
  forall fs, p_current p = Some fs -> get n fs = None.

(** [n] is neither a type that [p] sees nor a member of the current types. *)
Definition no_name (w : world) (p : package) (n : string) : Prop :=
  undeclared p n /\ (forall q, edge w p q -> undeclared q n) /\ no_member p n /\ (forall q, edge w p q -> no_member q n).

(** ** Subtypes *)

(** The type [t] names is declared, as [s], in a package that [p] can reach. *)
Definition refers_to (w : world) (p : package) (t : tyref) (s : sym) : Prop :=
  exists q, reach w p q /\ p_name q = tr_package t /\ declares q (tr_name t) s.

(** From [t] it takes [k] subtype declarations to get to [e]. *)
Inductive chain (w : world) (p : package) : tyref -> nat -> tyref -> Prop :=
| chain_end : forall t, chain w p t 0 t
| chain_link : forall t t' k e, tr_builtin t = false -> refers_to w p t (SySubtype t') ->
    chain w p t' k e -> chain w p t (S k) e.

(** A type that is not a subtype: a builtin one, or a declared one, which is
    written and read by its own methods. *)
Definition final (w : world) (p : package) (e : tyref) (own_methods : bool) : Prop :=
  (tr_builtin e = true /\ own_methods = false) \/
  (tr_builtin e = false /\ own_methods = true /\
   exists s, refers_to w p e s /\
     match s with SyStruct _ | SyChoice _ | SyUnion _ | SyEnum _ | SyBitmask _ => True | _ => False end).

(** How the elements of an array of type [e], which is no subtype, are written:
    with the array traits [traits], and delta packed in a packed array if [packable]. *)
Definition array_kind (w : world) (p : package) (e : tyref) (traits : string) (packable : bool) : Prop :=
  (tr_builtin e = true /\ AstTypes.GoArrayTraits (builtin e) = Some traits /\ packable = AstTypes.IsDeltaPackable (builtin e)) \/
  (tr_builtin e = false /\ traits = "ztype.ObjectArrayTraits"%string /\
   exists s, refers_to w p e s /\
     match s with
     | SyStruct _ | SyChoice _ | SyUnion _ => packable = false
     | SyEnum _ | SyBitmask _ => packable = true
     | _ => False
     end).

(** ** Files *)

(** The model of a list of files, each with one package. *)
Definition load (files : list package) : option world := ResolveImports (parse_files files).

(** Nothing is resolved in the files yet. *)
Definition fresh (files : list package) : Prop := forall p, In p files -> p_imported p = [].

(** [a] and [b] are the same declarations, ranged over in different orders. *)
Definition reordered (a b : decls) : Prop :=
  Permutation (d_subtypes a) (d_subtypes b) /\ Permutation (d_instantiated a) (d_instantiated b) /\
  Permutation (d_consts a) (d_consts b) /\ Permutation (d_structs a) (d_structs b) /\
  Permutation (d_enums a) (d_enums b) /\ Permutation (d_unions a) (d_unions b) /\
  Permutation (d_bitmasks a) (d_bitmasks b) /\ Permutation (d_choices a) (d_choices b).
(** Within each kind of declaration the names are different, as they are the keys
    of a map. *)
Definition keyed (d : decls) : Prop :=
  NoDup (map fst (d_subtypes d)) /\ NoDup (map fst (d_instantiated d)) /\ NoDup (map fst (d_consts d)) /\
  NoDup (map fst (d_structs d)) /\ NoDup (map fst (d_enums d)) /\ NoDup (map fst (d_unions d)) /\
  NoDup (map fst (d_bitmasks d)) /\ NoDup (map fst (d_choices d)).
Definition all_items (d : decls) : list (string * nat) := flat_map (fun e => snd (snd e)) (d_enums d).
