(** Packages, imports and name lookup: internal/model/model.go,
    internal/model/transform.go, internal/ast/package.go,
    internal/ast/scope.go and internal/generator/funcs.go. *)

Require Import ZArith String List Bool.
From Verif Require AstExpr AstTypes.
Import ListNotations.
Open Scope Z_scope.

(** ** Data *)

(** ast.TypeReference, type_reference.go:3-20.  The template arguments are in
    Templates.v; LengthExpression and TypeArguments are left out. *)
Record tyref := mkTR { tr_builtin : bool; tr_package : string; tr_name : string; tr_bits : Z }.

(** What a name can stand for: the pointer types that package.go switches over.
    [id] tells declarations of the same kind apart. *)
Inductive sym :=
| SySubtype (t : tyref)
| SyInstantiate (t : tyref)
| SyConst (t : tyref)
| SyStruct (id : nat)
| SyEnum (id : nat)
| SyUnion (id : nat)
| SyBitmask (id : nat)
| SyChoice (id : nat)
| SyField (t : tyref) (array : bool)
| SyParameter (t : tyref)
| SyFunction (id : nat)
| SyEnumItem (id : nat).

(** An import declaration: the package and the type, or "*"
    (internal/ast/model.go, Import). *)
Record import := mkI { i_package : string; i_type : string }.

(** The declarations of a package (package.go:9-26), each map as a list of its
    entries in the order in which Go happens to range over it. *)
Record decls := mkD {
  d_subtypes : list (string * tyref);
  d_instantiated : list (string * tyref);
  d_consts : list (string * tyref);
  d_structs : list (string * nat);
  d_enums : list (string * (nat * list (string * nat)));
  d_unions : list (string * nat);
  d_bitmasks : list (string * nat);
  d_choices : list (string * nat)
}.

(** ast.Package after CollectSymbols.  A Go map is a list of entries of which the
    first one with the key counts.  [p_current]: the fields, parameters and
    functions of the CurrentCompoundScope, None when it is nil.
    [p_imported] is ImportedPackages: positions in the list of all packages. *)
Record package := mkP {
  p_name : string;
  p_imports : list import;
  p_types : list (string * sym);
  p_current : option (list (string * sym));
  p_others : list (string * sym);
  p_imported : list nat
}.

Fixpoint get {A} (n : string) (l : list (string * A)) : option A :=
  match l with
  | [] => None
  | (k, v) :: l' => if (k =? n)%string then Some v else get n l'
  end.

(** ** Reading a package *)

(** m[k] = v for each entry in order: the last one with a key stays. *)
Definition put_all {A B} (f : A -> B) (l : list (string * A)) (m : list (string * B)) : list (string * B) :=
  fold_left (fun m e => (fst e, f (snd e)) :: m) l m.

(** CollectSymbols, package.go:63-106. *)
Definition type_scope (d : decls) : list (string * sym) :=
  put_all SyChoice (d_choices d)
  (put_all SyBitmask (d_bitmasks d)
  (put_all SyUnion (d_unions d)
  (put_all (fun e => SyEnum (fst e)) (d_enums d)
  (put_all SyStruct (d_structs d)
  (put_all SyConst (d_consts d)
  (put_all SyInstantiate (d_instantiated d)
  (put_all SySubtype (d_subtypes d) []))))))).
Definition other_scope (d : decls) : list (string * sym) :=
  fold_left (fun m e => put_all SyEnumItem (snd (snd e)) m) (d_enums d) [].
Definition CollectSymbols (name : string) (imports : list import) (d : decls) : package :=
  mkP name imports (type_scope d) None (other_scope d) [].

(** m.Packages[pkg.Name] = pkg, model.go:87-100; the packages are listed in the
    order of their first file. *)
Fixpoint put_package (p : package) (l : list package) : list package :=
  match l with
  | [] => [p]
  | q :: l' => if (p_name q =? p_name p)%string then p :: l' else q :: put_package p l'
  end.
Definition parse_files (files : list package) : list package := fold_left (fun l p => put_package p l) files [].

(** m.Packages[name]. *)
Fixpoint position (n : string) (l : list package) (i : nat) : option nat :=
  match l with
  | [] => None
  | p :: l' => if (p_name p =? n)%string then Some i else position n l' (S i)
  end.

(** ResolveImports, transform.go:585-598; None is an UnknownPackage error.  An
    import of a single type adds no package. *)
Fixpoint resolve_imports (all : list package) (l : list import) : option (list nat) :=
  match l with
  | [] => Some []
  | i :: l' =>
      match position (i_package i) all 0, resolve_imports all l' with
      | Some k, Some r => Some (if (i_type i =? "*")%string then k :: r else r)
      | _, _ => None
      end
  end.
Definition resolve_package (all : list package) (p : package) : option package :=
  match resolve_imports all (p_imports p) with
  | Some l => Some (mkP (p_name p) (p_imports p) (p_types p) (p_current p) (p_others p) (p_imported p ++ l))
  | None => None
  end.
Fixpoint all_some {A B} (f : A -> option B) (l : list A) : option (list B) :=
  match l with
  | [] => Some []
  | x :: l' => match f x, all_some f l' with Some y, Some r => Some (y :: r) | _, _ => None end
  end.
Definition ResolveImports (all : list package) : option (list package) := all_some (resolve_package all) all.

(** ** Looking up names *)

(** All the packages after ResolveImports. *)
Definition world := list package.

(** [Unknown]: the error that nothing was found.  [Runs]: the recursion is deeper
    than the fuel. *)
Inductive answer (A : Type) := Found (a : A) | Unknown | Runs.
Arguments Found {A} a. Arguments Unknown {A}. Arguments Runs {A}.

(** The first answer of a loop over packages that is not an error. *)
Fixpoint first_of {A B} (f : A -> answer B) (l : list A) : answer B :=
  match l with
  | [] => Unknown
  | x :: l' => match f x with Unknown => first_of f l' | r => r end
  end.

(** SymbolReference, package.go:199-204: the package and the symbol. *)
Definition ref := (string * sym)%type.
Definition in_package (p : package) (s : option sym) : answer ref :=
  match s with Some s => Found (p_name p, s) | None => Unknown end.
(** The imported packages of [p]; the positions are always valid. *)
Definition imported (w : world) (p : package) : list package :=
  flat_map (fun j => match nth_error w j with Some q => [q] | None => [] end) (p_imported p).

(** GetType, package.go:230-247. *)
Definition GetType (w : world) (p : package) (n : string) : answer ref :=
  match in_package p (get n (p_types p)) with
  | Unknown => first_of (fun q => in_package q (get n (p_types q))) (imported w p)
  | r => r
  end.

(** GetCurrentCompoundType, package.go:249-268. *)
Definition in_compound (p : package) (n : string) : answer ref :=
  match p_current p with Some fs => in_package p (get n fs) | None => Unknown end.
Definition GetCurrentCompoundType (w : world) (p : package) (n : string) : answer ref :=
  match in_compound p n with
  | Unknown => first_of (fun q => in_compound q n) (imported w p)
  | r => r
  end.

(** GetOtherType, package.go:285-298: also the imports of the imports. *)
Fixpoint GetOtherType (fuel : nat) (w : world) (p : package) (n : string) : answer ref :=
  match fuel with
  | O => Runs
  | S f =>
      match in_package p (get n (p_others p)) with
      | Unknown => first_of (fun q => GetOtherType f w q n) (imported w p)
      | r => r
      end
  end.

(** GetSymbol, package.go:209-228. *)
Definition GetSymbol (fuel : nat) (w : world) (p : package) (n : string) : answer ref :=
  match GetType w p n with
  | Unknown =>
      match GetCurrentCompoundType w p n with
      | Unknown => GetOtherType fuel w p n
      | r => r
      end
  | r => r
  end.

(** GetImportedScope, package.go:459-479. *)
Fixpoint GetImportedScope (fuel : nat) (w : world) (p : package) (n : string) : answer package :=
  match fuel with
  | O => Runs
  | S f =>
      if (n =? "")%string then Unknown
      else if (n =? p_name p)%string then Found p
      else match find (fun q => (p_name q =? n)%string) (imported w p) with
           | Some q => Found q
           | None => first_of (fun q => GetImportedScope f w q n) (imported w p)
           end
  end.

(** OriginalTypeReference, package.go:30-34. *)
Record original := mkO { o_type : tyref; o_cast : bool; o_marshaler : bool }.

(** The loop of GetOriginalType, package.go:352-419, with [left] more rounds
    before the error "circular lookup".  The variable currentScope of the loop
    body hides the outer one, so every round starts from [p].  The error for a
    symbol that is no type is [Unknown], too. *)
Fixpoint original_loop (left : nat) (fuel : nat) (w : world) (p : package) (cast : bool) (t : tyref) : answer original :=
  if tr_builtin t then Found (mkO t cast false)
  else match GetImportedScope fuel w p (tr_package t) with
  | Found q =>
      match GetSymbol fuel w q (tr_name t) with
      | Found (_, s) =>
          match s with
          | SyEnum _ | SyUnion _ | SyBitmask _ | SyChoice _ | SyStruct _ => Found (mkO t cast true)
          | SyField t' _ | SyParameter t' | SySubtype t' =>
              match left with
              | O => Unknown
              | S l => original_loop l fuel w p true t'
              end
          | _ => Unknown
          end
      | Unknown => Unknown
      | Runs => Runs
      end
  | Unknown => Unknown
  | Runs => Runs
  end.
Definition GetOriginalType (fuel : nat) (w : world) (p : package) (t : tyref) : answer original :=
  original_loop 100 fuel w p false t.

(** A builtin reference as RootScope sees it. *)
Definition builtin (t : tyref) : AstExpr.tref := AstExpr.mkT (tr_name t) (tr_bits t) false.

(** Package.GoArrayTraits, package.go:139-165; [depth] bounds the recursion over
    subtypes. *)
Fixpoint PackageGoArrayTraits (depth fuel : nat) (w : world) (p : package) (t : tyref) : answer string :=
  match depth with
  | O => Runs
  | S d =>
      if tr_builtin t then match AstTypes.GoArrayTraits (builtin t) with Some s => Found s | None => Unknown end
      else match GetImportedScope fuel w p (tr_package t) with
      | Found q =>
          match GetSymbol fuel w q (tr_name t) with
          | Found (_, s) =>
              match s with
              | SyConst t' | SySubtype t' => PackageGoArrayTraits d fuel w p t'
              | SyInstantiate _ | SyStruct _ | SyEnum _ | SyUnion _ | SyBitmask _ | SyChoice _ => Found "ztype.ObjectArrayTraits"%string
              | _ => Unknown
              end
          | Unknown => Unknown
          | Runs => Runs
          end
      | Unknown => Unknown
      | Runs => Runs
      end
  end.

(** Package.IsDeltaPackable, package.go:169-199. *)
Fixpoint PackageIsDeltaPackable (depth fuel : nat) (w : world) (p : package) (t : tyref) : answer bool :=
  match depth with
  | O => Runs
  | S d =>
      if tr_builtin t then Found (AstTypes.IsDeltaPackable (builtin t))
      else match GetImportedScope fuel w p (tr_package t) with
      | Found q =>
          match GetSymbol fuel w q (tr_name t) with
          | Found (_, s) =>
              match s with
              | SyConst t' | SySubtype t' | SyInstantiate t' => PackageIsDeltaPackable d fuel w p t'
              | SyStruct _ | SyUnion _ | SyChoice _ => Found false
              | SyEnum _ | SyBitmask _ => Found true
              | _ => Unknown
              end
          | Unknown => Unknown
          | Runs => Runs
          end
      | Unknown => Unknown
      | Runs => Runs
      end
  end.

(** ** Resolving type references *)

(** HasType, package.go:56-59. *)
Definition HasType (p : package) (n : string) : bool := match get n (p_types p) with Some _ => true | None => false end.

(** The loop over the imports of resolveTypeReference, transform.go:840-850; None
    is an UnknownPackage error, [Some ""] that no import has the type. *)
Fixpoint import_of (w : world) (l : list import) (n : string) : option string :=
  match l with
  | [] => Some ""%string
  | i :: l' =>
      match position (i_package i) w 0 with
      | None => None
      | Some k =>
          if ((i_type i =? "*") || (i_type i =? n))%string && match nth_error w k with Some q => HasType q n | None => false end
          then Some (i_package i) else import_of w l' n
      end
  end.

(** resolveTypeReference, transform.go:818-862, without the template arguments:
    None is an error. *)
Definition resolveTypeReference (w : world) (p : package) (t : tyref) : option tyref :=
  if tr_builtin t then Some t
  else if negb (tr_package t =? "")%string then
    match position (tr_package t) w 0 with
    | None => None
    | Some k => match nth_error w k with Some q => if HasType q (tr_name t) then Some t else None | None => None end
    end
  else
    let found := if HasType p (tr_name t) then Some (p_name p) else import_of w (p_imports p) (tr_name t) in
    match found with
    | None => None
    | Some pkg => if (pkg =? "")%string then None else Some (mkTR false pkg (tr_name t) (tr_bits t))
    end.

(** ** Imports of a generated file *)

(** The loop over pkg.ImportedPackages in GoGetAllImports, funcs.go:38-46. *)
Fixpoint add_imports (l : list package) (seen : list string) (out : list string) (todo : list package)
  : list string * list string * list package :=
  match l with
  | [] => (seen, out, todo)
  | q :: l' =>
      if existsb (fun m => (m =? p_name q)%string) seen then add_imports l' seen out todo
      else add_imports l' (p_name q :: seen) (out ++ [p_name q]) (todo ++ [q])
  end.

(** GoGetAllImports, funcs.go:32-54.  The stack grows at its end and is popped
    there. *)
Fixpoint all_imports (fuel : nat) (w : world) (p : package) (seen out : list string) (todo : list package) : option (list string) :=
  match fuel with
  | O => None
  | S f =>
      match add_imports (imported w p) seen out todo with
      | (seen', out', todo') =>
          match rev todo' with
          | [] => Some out'
          | q :: rest => all_imports f w q seen' out' (rev rest)
          end
      end
  end.
Definition GoGetAllImports (fuel : nat) (w : world) (p : package) : option (list string) := all_imports fuel w p [] [] [].
