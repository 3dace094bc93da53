(** From parse trees to the model of a package: internal/visitor/visitor.go.  The
    parse trees are those of internal/parser/ZserioParser.g4 for files without
    syntax errors.  Comments are left out. *)

Require Import ZArith String Ascii List Bool.
From Verif Require AstExpr AstTypes Literals Files.
From Verif Require Import Packages.
Import ListNotations.
Open Scope string_scope.

(** ** Parse trees *)

(** expression, ZserioParser.g4:349-373. *)
Inductive uop := UPlus | UMinus | UBang | UTilde.
Inductive bop :=
| BMul | BDiv | BMod | BPlus | BMinus | BShl | BShr | BLt | BLe | BGt | BGe | BEq | BNe | BAnd | BXor | BOr | BLogAnd | BLogOr.
Inductive cexpr :=
| CParen (e : cexpr)
| CCall (e : cexpr)
| CArray (e i : cexpr)
| CDot (e : cexpr) (name : string)
| CIsSet (a b : cexpr)
| CLengthof (e : cexpr)
| CValueof (e : cexpr)
| CNumbits (e : cexpr)
| CUnary (op : uop) (e : cexpr)
| CBinary (op : bop) (a b : cexpr)
| CTernary (c a b : cexpr)
| CLiteral (k : Literals.token) (t : string)
| CIndex
| CId (name : string).

(** typeReference, g4:393-396; builtinType, g4:402-412: a keyword, or bit or int with
    an optional width. *)
Inductive ctype :=
| CKeyword (name : string)
| CBitField (signed : bool) (width : option nat)
| CNamed (names : list string) (args : list ctype).

(** typeArgument, g4:422-425. *)
Inductive carg := CExplicit (name : string) | CArg (e : cexpr).
(** typeInstantiation, g4:398-400. *)
Inductive cparams := CNone | CArgs (l : list carg) | CLength (e : cexpr).
Record cinst := mkCI { ci_type : ctype; ci_params : cparams }.

(** fieldTypeId, g4:117-123. *)
Record cfieldtype := mkCFT {
  ft_packed : bool; ft_implicit : bool; ft_inst : cinst; ft_name : string; ft_range : option (option cexpr)
}.
(** structureFieldDefinition, g4:97-107. *)
Record cfield := mkCF {
  cf_align : option cexpr; cf_offset : option cexpr; cf_extend : bool; cf_optional : bool;
  cf_type : cfieldtype; cf_init : option cexpr; cf_if : option cexpr; cf_constraint : option cexpr
}.
(** choiceFieldDefinition, g4:162-164. *)
Record cchoicefield := mkCCF { ccf_type : cfieldtype; ccf_constraint : option cexpr }.
(** parameterDefinition, g4:323-325; functionDefinition, g4:296-314. *)
Definition cparam := (ctype * string)%type.
Record cfunction := mkCFn { cfn_type : ctype; cfn_name : string; cfn_body : cexpr }.
(** structureDeclaration, g4:88-95; unionDeclaration, g4:169-180; choiceDeclaration,
    g4:140-160. *)
Record cstruct := mkCS {
  cs_name : string; cs_templates : list string; cs_params : list cparam; cs_fields : list cfield; cs_functions : list cfunction
}.
Record cunion := mkCU {
  cu_name : string; cu_templates : list string; cu_params : list cparam; cu_fields : list cchoicefield; cu_functions : list cfunction
}.
Record cchoice := mkCC {
  cc_name : string; cc_templates : list string; cc_params : list cparam; cc_on : cexpr;
  cc_cases : list (list cexpr * option cchoicefield); cc_default : option (option cchoicefield); cc_functions : list cfunction
}.
(** enumDeclaration and bitmaskDeclaration, g4:185-210. *)
Inductive mark := Deprecated | Removed.
Record cenum := mkCE { ce_type : cinst; ce_name : string; ce_items : list (option mark * string * option cexpr) }.
Record cbitmask := mkCB { cb_type : cinst; cb_name : string; cb_values : list (string * option cexpr) }.
(** languageDirective, g4:33-56.  Rule groups, SQL tables and databases, services and
    pubsubs are kept as their text. *)
Inductive cdirective :=
| CConst (t : cinst) (name : string) (e : cexpr)
| CRules (text : string)
| CSubtype (t : ctype) (name : string)
| CStruct (s : cstruct)
| CChoice (c : cchoice)
| CUnion (u : cunion)
| CEnum (e : cenum)
| CBitmask (b : cbitmask)
| COther (text : string)
| CInstantiate (t : ctype) (name : string).
(** importDeclaration, g4:29-31: the names before the last dot, and the name after
    it, None for "*". *)
Record cimport := mkCIm { cim_names : list string; cim_symbol : option string }.
(** packageDeclaration, g4:13-27. *)
Record cfile := mkCFile {
  cfl_compat : option string; cfl_package : option (list string); cfl_imports : list cimport; cfl_directives : list cdirective
}.

(** ** The syntax tree of internal/ast *)

(** The token types that Expression.Type holds. *)
Inductive tok :=
| TkLParen | TkRParen | TkLBracket | TkDot | TkIsSet | TkLengthof | TkValueof | TkNumbits
| TkPlus | TkMinus | TkBang | TkTilde | TkMultiply | TkDivide | TkModulo | TkLShift | TkRShift
| TkLT | TkLE | TkGT | TkGE | TkEQ | TkNE | TkAnd | TkXor | TkOr | TkLogicalAnd | TkLogicalOr | TkQuestion
| TkLiteral (k : Literals.token) | TkIndex | TkId | TkUnevaluatable.
(** ast.Expression, expression.go, before evaluation. *)
Inductive expr := Expr (type : tok) (text : string) (o1 o2 o3 : option expr).
(** ast.TypeReference, type_reference.go:3-20: [tref] without TypeArguments and
    LengthExpression, which only [tinst] has. *)
Inductive tref := TRef (builtin : bool) (package name : string) (bits : Z) (args : list tref).
Record tinst := mkTI { ti_ref : tref; ti_args : list expr; ti_length : option expr }.
(** ast.Field and ast.Array, field.go. *)
Record array := mkArray { a_length : option expr; a_packed : bool }.
Record field := mkField {
  f_name : string; f_type : tinst; f_array : option array; f_optional : bool; f_alignment : Z;
  f_init : option expr; f_if : option expr; f_constraint : option expr
}.
Record function := mkFunction { fn_name : string; fn_result : expr; fn_type : tref }.
Definition param := (string * tref)%type.
Record struct_decl := mkStruct {
  s_name : string; s_templates : list string; s_params : list param; s_fields : list field; s_functions : list function
}.
Record union_decl := mkUnion {
  u_name : string; u_templates : list string; u_params : list param; u_fields : list field; u_functions : list function
}.
(** ast.Choice, choice.go; a case: its conditions and its field, which may be nil. *)
Definition case := (list expr * option field)%type.
Record choice_decl := mkChoice {
  c_name : string; c_templates : list string; c_params : list param; c_selector : expr;
  c_cases : list case; c_default : option case; c_functions : list function
}.
Record enum_decl := mkEnum { e_name : string; e_type : tinst; e_items : list (string * option expr) }.
Record bitmask_decl := mkBitmask { b_name : string; b_type : tinst; b_values : list (string * option expr) }.
Record const_decl := mkConst { k_name : string; k_type : tinst; k_value : expr }.

(** ast.Package, package.go:9-26, as the visitor fills it.  A map is a list of entries
    of which the first one with a key counts. *)
Record pkg := mkPkg {
  vp_name : string; vp_imports : list import;
  vp_consts : list (string * const_decl); vp_subtypes : list (string * tref); vp_instantiated : list (string * tref);
  vp_structs : list (string * struct_decl); vp_enums : list (string * enum_decl); vp_unions : list (string * union_decl);
  vp_bitmasks : list (string * bitmask_decl); vp_choices : list (string * choice_decl)
}.

(** ** Expressions *)

(** GetTokenType and GetText of the operator of a parse tree; for ">>" it is the first
    ">", g4:361. *)
Definition uop_token (o : uop) : tok * string :=
  match o with UPlus => (TkPlus, "+") | UMinus => (TkMinus, "-") | UBang => (TkBang, "!") | UTilde => (TkTilde, "~") end.
Definition bop_token (o : bop) : tok * string :=
  match o with
  | BMul => (TkMultiply, "*") | BDiv => (TkDivide, "/") | BMod => (TkModulo, "%")
  | BPlus => (TkPlus, "+") | BMinus => (TkMinus, "-") | BShl => (TkLShift, "<<") | BShr => (TkGT, ">")
  | BLt => (TkLT, "<") | BLe => (TkLE, "<=") | BGt => (TkGT, ">") | BGe => (TkGE, ">=") | BEq => (TkEQ, "==") | BNe => (TkNE, "!=")
  | BAnd => (TkAnd, "&") | BXor => (TkXor, "^") | BOr => (TkOr, "|") | BLogAnd => (TkLogicalAnd, "&&") | BLogOr => (TkLogicalOr, "||")
  end.
(** Which of the rules of the grammar a binary operator belongs to: shiftExpression or
    another one. *)
Definition is_shift (o : bop) : bool := match o with BShl | BShr => true | _ => false end.
Definition is_gt (t : tok) : bool := match t with TkGT => true | _ => false end.

(** The methods of the visitor for expressions, visitor.go:418-616. *)
Fixpoint visit_expr (e : cexpr) : expr :=
  match e with
  | CParen a => Expr TkLParen "(" (Some (visit_expr a)) None None
  | CCall a => Expr TkRParen ")" (Some (visit_expr a)) None None
  | CArray a b => Expr TkLBracket "[" (Some (visit_expr a)) (Some (visit_expr b)) None
  | CDot a n => Expr TkDot "." (Some (visit_expr a)) (Some (Expr TkUnevaluatable n None None None)) None
  | CIsSet a b => Expr TkIsSet "isset" (Some (visit_expr a)) (Some (visit_expr b)) None
  | CLengthof a => Expr TkLengthof "lengthof" (Some (visit_expr a)) None None
  | CValueof a => Expr TkValueof "valueof" (Some (visit_expr a)) None None
  | CNumbits a => Expr TkNumbits "numbits" (Some (visit_expr a)) None None
  | CUnary o a => Expr (fst (uop_token o)) (snd (uop_token o)) (Some (visit_expr a)) None None
  | CBinary o a b =>
      let '(t, s) := bop_token o in
      Expr (if is_shift o && is_gt t then TkRShift else t) s (Some (visit_expr a)) (Some (visit_expr b)) None
  | CTernary c a b => Expr TkQuestion "?" (Some (visit_expr c)) (Some (visit_expr a)) (Some (visit_expr b))
  | CLiteral k t => Expr (TkLiteral k) t None None None
  | CIndex => Expr TkIndex "@index" None None None
  | CId n => Expr TkId n None None None
  end.
Definition visit_opt (e : option cexpr) : option expr := option_map visit_expr e.

(** ** Types *)

(** strings.Join(l, sep). *)
Fixpoint join (sep : string) (l : list string) : string :=
  match l with [] => "" | [s] => s | s :: l' => s ++ sep ++ join sep l' end.
(** strings.LastIndex(s, ".") and the slices around it. *)
Fixpoint last_dot (s : string) : option (string * string) :=
  match s with
  | EmptyString => None
  | String c s' =>
      match last_dot s' with
      | Some (a, b) => Some (String c a, b)
      | None => if (c =? ".")%char then Some (EmptyString, s') else None
      end
  end.
Definition text_of_width (w : option nat) : string :=
  match w with None => "" | Some n => ":" ++ string_of_list_ascii (Files.decimal n) end.
(** VisitTypeReference, visitor.go:641-682, and VisitQualifiedName, 743-745. *)
Fixpoint visit_type (t : ctype) : tref :=
  match t with
  | CKeyword n => let r := AstTypes.VisitTypeReference n in TRef true "" (AstExpr.t_name r) (AstExpr.t_bits r) []
  | CBitField signed w =>
      let r := AstTypes.VisitTypeReference ((if signed then "int" else "bit") ++ text_of_width w) in
      TRef true "" (AstExpr.t_name r) (AstExpr.t_bits r) []
  | CNamed names args =>
      let name := join "." names in
      match last_dot name with
      | Some (p, n) => TRef false p n 0 (map visit_type args)
      | None => TRef false "" name 0 (map visit_type args)
      end
  end.
(** VisitTypeArgument, visitor.go:706-716. *)
Definition visit_arg (a : carg) : expr :=
  match a with CExplicit n => Expr TkId n None None None | CArg e => visit_expr e end.
(** VisitTypeInstantiation, visitor.go:687-696. *)
Definition visit_inst (i : cinst) : tinst :=
  match ci_params i with
  | CNone => mkTI (visit_type (ci_type i)) [] None
  | CArgs l => mkTI (visit_type (ci_type i)) (map visit_arg l) None
  | CLength e => mkTI (visit_type (ci_type i)) [] (Some (visit_expr e))
  end.

(** ** Declarations *)

(** None: a type assertion on an error value, which panics.  A loop stops at the
    first panic. *)
Fixpoint visit_all {A B} (f : A -> option B) (l : list A) : option (list B) :=
  match l with
  | [] => Some []
  | x :: l' => match f x with Some y => match visit_all f l' with Some r => Some (y :: r) | None => None end | None => None end
  end.

(** VisitFieldTypeId, visitor.go:618-639: the parts of a field that it sets.  Callers
    assert that the result is a field. *)
Definition visit_field_type (t : cfieldtype) : option (string * tinst * option array) :=
  match ft_range t with
  | None => Some (ft_name t, visit_inst (ft_inst t), None)
  | Some len =>
      if ft_implicit t then None
      else Some (ft_name t, visit_inst (ft_inst t), Some (mkArray (visit_opt len) (ft_packed t)))
  end.
(** VisitFieldAlignment, visitor.go:209-226: None is an error. *)
Definition visit_alignment (e : cexpr) : option Z :=
  match e with
  | CLiteral k t => Literals.visit_alignment k (list_ascii_of_string t)
  | _ => None
  end.
(** VisitStructureFieldDefinition, visitor.go:184-207; the caller asserts that the
    result is a field.  Offsets and "extend" are not looked at. *)
Definition visit_field (f : cfield) : option field :=
  match visit_field_type (cf_type f) with
  | None => None
  | Some (n, t, a) =>
      match match cf_align f with None => Some 0%Z | Some e => visit_alignment e end with
      | None => None
      | Some al => Some (mkField n t a (cf_optional f) al (visit_opt (cf_init f)) (visit_opt (cf_if f)) (visit_opt (cf_constraint f)))
      end
  end.
(** VisitChoiceFieldDefinition, visitor.go:296-298: the constraint is not looked at. *)
Definition visit_choice_field (f : cchoicefield) : option field :=
  match visit_field_type (ccf_type f) with
  | None => None
  | Some (n, t, a) => Some (mkField n t a false 0 None None None)
  end.
(** VisitParameterDefinition, visitor.go:240-245; VisitFunctionDefinition, 251-258. *)
Definition visit_param (p : cparam) : param := (snd p, visit_type (fst p)).
Definition visit_function (f : cfunction) : function := mkFunction (cfn_name f) (visit_expr (cfn_body f)) (visit_type (cfn_type f)).

(** VisitStructureDeclaration, visitor.go:159-182. *)
Definition visit_struct (s : cstruct) : option struct_decl :=
  match visit_all visit_field (cs_fields s) with
  | Some fs => Some (mkStruct (cs_name s) (cs_templates s) (map visit_param (cs_params s)) fs (map visit_function (cs_functions s)))
  | None => None
  end.
(** VisitUnionDeclaration, visitor.go:332-356. *)
Definition visit_union (u : cunion) : option union_decl :=
  match visit_all visit_choice_field (cu_fields u) with
  | Some fs => Some (mkUnion (cu_name u) (cu_templates u) (map visit_param (cu_params u)) fs (map visit_function (cu_functions u)))
  | None => None
  end.
(** VisitChoiceCases and VisitChoiceDefault, visitor.go:275-294. *)
Definition visit_case (c : list cexpr * option cchoicefield) : option case :=
  match snd c with
  | None => Some (map visit_expr (fst c), None)
  | Some f => match visit_choice_field f with Some f' => Some (map visit_expr (fst c), Some f') | None => None end
  end.
(** VisitChoiceDeclaration, visitor.go:300-330. *)
Definition visit_choice (c : cchoice) : option choice_decl :=
  match visit_all visit_case (cc_cases c),
        match cc_default c with None => Some None | Some f => option_map Some (visit_case ([], f)) end with
  | Some cases, Some d =>
      Some (mkChoice (cc_name c) (cc_templates c) (map visit_param (cc_params c)) (visit_expr (cc_on c)) cases d
              (map visit_function (cc_functions c)))
  | _, _ => None
  end.
(** VisitEnumDeclaration and VisitEnumItem, visitor.go:358-383; VisitBitmaskDeclaration
    and VisitBitmaskValue, 393-416. *)
Definition visit_enum (e : cenum) : enum_decl :=
  mkEnum (ce_name e) (visit_inst (ce_type e)) (map (fun '(_, n, v) => (n, visit_opt v)) (ce_items e)).
Definition visit_bitmask (b : cbitmask) : bitmask_decl :=
  mkBitmask (cb_name b) (visit_inst (cb_type b)) (map (fun '(n, v) => (n, visit_opt v)) (cb_values b)).
(** VisitConstDefinition, visitor.go:142-149. *)
Definition visit_const (t : cinst) (n : string) (e : cexpr) : const_decl := mkConst n (visit_inst t) (visit_expr e).

(** ** Packages *)

(** The children of an importDeclaration, and VisitImportDeclaration,
    visitor.go:110-125. *)
Definition import_children (i : cimport) : list string :=
  "import" :: flat_map (fun n => [n; "."]) (cim_names i) ++ [match cim_symbol i with Some n => n | None => "*" end; ";"].
Definition visit_import (i : cimport) : import :=
  let children := import_children i in
  let parts := firstn (length children - 3) (skipn 1 children) in
  let symbolName := last parts "" in
  mkI (join "" (removelast parts)) (match cim_symbol i with None => "*" | Some _ => symbolName end).

(** The loop over the directives of VisitPackageDeclaration, visitor.go:58-78. *)
Definition visit_directive (p : pkg) (d : cdirective) : option pkg :=
  match d with
  | CConst t n e => Some (mkPkg (vp_name p) (vp_imports p) ((n, visit_const t n e) :: vp_consts p) (vp_subtypes p) (vp_instantiated p)
      (vp_structs p) (vp_enums p) (vp_unions p) (vp_bitmasks p) (vp_choices p))
  | CSubtype t n => Some (mkPkg (vp_name p) (vp_imports p) (vp_consts p) ((n, visit_type t) :: vp_subtypes p) (vp_instantiated p)
      (vp_structs p) (vp_enums p) (vp_unions p) (vp_bitmasks p) (vp_choices p))
  | CInstantiate t n => Some (mkPkg (vp_name p) (vp_imports p) (vp_consts p) (vp_subtypes p) ((n, visit_type t) :: vp_instantiated p)
      (vp_structs p) (vp_enums p) (vp_unions p) (vp_bitmasks p) (vp_choices p))
  | CStruct s =>
      match visit_struct s with
      | Some x => Some (mkPkg (vp_name p) (vp_imports p) (vp_consts p) (vp_subtypes p) (vp_instantiated p)
          ((s_name x, x) :: vp_structs p) (vp_enums p) (vp_unions p) (vp_bitmasks p) (vp_choices p))
      | None => None
      end
  | CEnum e => let x := visit_enum e in
      Some (mkPkg (vp_name p) (vp_imports p) (vp_consts p) (vp_subtypes p) (vp_instantiated p)
      (vp_structs p) ((e_name x, x) :: vp_enums p) (vp_unions p) (vp_bitmasks p) (vp_choices p))
  | CUnion u =>
      match visit_union u with
      | Some x => Some (mkPkg (vp_name p) (vp_imports p) (vp_consts p) (vp_subtypes p) (vp_instantiated p)
          (vp_structs p) (vp_enums p) ((u_name x, x) :: vp_unions p) (vp_bitmasks p) (vp_choices p))
      | None => None
      end
  | CBitmask b => let x := visit_bitmask b in
      Some (mkPkg (vp_name p) (vp_imports p) (vp_consts p) (vp_subtypes p) (vp_instantiated p)
      (vp_structs p) (vp_enums p) (vp_unions p) ((b_name x, x) :: vp_bitmasks p) (vp_choices p))
  | CChoice c =>
      match visit_choice c with
      | Some x => Some (mkPkg (vp_name p) (vp_imports p) (vp_consts p) (vp_subtypes p) (vp_instantiated p)
          (vp_structs p) (vp_enums p) (vp_unions p) (vp_bitmasks p) ((c_name x, x) :: vp_choices p))
      | None => None
      end
  | CRules _ | COther _ => Some p
  end.
Fixpoint visit_directives (p : pkg) (l : list cdirective) : option pkg :=
  match l with [] => Some p | d :: l' => match visit_directive p d with Some q => visit_directives q l' | None => None end end.
(** VisitPackageDeclaration and VisitPackageNameDefinition, visitor.go:47-91; without
    a package name the type assertion on nil panics. *)
Definition visit_file (f : cfile) : option pkg :=
  match cfl_package f with
  | None => None
  | Some ids => visit_directives (mkPkg (join "." ids) (map visit_import (cfl_imports f)) [] [] [] [] [] [] [] []) (cfl_directives f)
  end.
