(** Expressions in structs, choices and unions, which can refer to members:
    internal/ast/expression.go, choice.go, union.go, struct.go and package.go, and
    what the generator needs to print them (internal/generator/expression.go and
    choice.go.tmpl). *)

Require Import ZArith String Ascii List Bool.
From Verif Require Import AstExpr ExprPrint Packages.
From Verif Require AstTypes.
Import ListNotations.
Open Scope Z_scope.

(** ** Expressions *)

(** As [AstExpr.expr], with members.  [MDot a id n]: the right side of a dot is not
    an expression (visitor.go:443-452), except in the label of a choice, where it is
    an identifier that is evaluated, too ([id]; choice.go:66-75). *)
Inductive mexpr :=
| MNum (z : Z)
| MBool (b : bool)
| MStr (text : string)
| MFloat (single : bool) (f : f64)
| MIndex
| MName (n : string)
| MDot (a : mexpr) (id : bool) (n : string)
| MElem (a i : mexpr)
| MCall (a : mexpr)
| MLengthof (a : mexpr)
| MParen (a : mexpr)
| MUnary (minus : bool) (a : mexpr)
| MArith (op : aop) (a b : mexpr)
| MNot (a : mexpr)
| MLogic (both : bool) (a b : mexpr)
| MCompare (op : cop) (a b : mexpr)
| MTernary (a b c : mexpr)
| MTilde (a : mexpr)
| MBitwise (op : bop) (a b : mexpr)
| MValueof (a : mexpr)
| MNumbits (a : mexpr)
| MIsset (a b : mexpr).

(** ** What they refer to *)

(** The packages after ResolveImports, and what is known about their declarations
    when structs, choices and unions are evaluated.  Constants and enum items have
    been evaluated ([me_const] by package and name, the others by the number in the
    symbol); a value of a bitmask may not have an expression yet (None), as
    bitmasks are evaluated after unions (model.go:115-137).  [me_members]: the
    CompoundScopes of a package.  [me_type_yet]: the ResultType of the result of a
    function, which depends on whether it has been evaluated already.  [me_camel]:
    strcase.ToCamel of an enum item, which is not modelled.  [me_depth] bounds the
    recursion of searches and of calls. *)
Record menv := mkME {
  me_world : world;
  me_depth : nat;
  me_const : string -> string -> result;
  me_item : nat -> result;
  me_enum : nat -> list (string * result);
  me_mask : nat -> list (string * option result);
  me_under : sym -> tyref;                          (* Type of an enum or bitmask *)
  me_members : string -> string -> option (list (string * sym));
  me_function : nat -> mexpr;                       (* Function.Result *)
  me_return : nat -> tyref;                         (* Function.ReturnType *)
  me_type_yet : nat -> ety;
  me_camel : string -> string
}.

(** CurrentCompoundScope of each package. *)
Definition current := string -> option string.
Definition nowhere : current := fun _ => None.
Definition enter (pkg c : string) (cur : current) : current := fun q => if (q =? pkg)%string then Some c else cur q.

(** The packages with the members that [cur] selects: GetCurrentCompoundType looks
    them up by the name of the compound type (package.go:249-268). *)
Definition package_at (E : menv) (cur : current) (p : package) : package :=
  mkP (p_name p) (p_imports p) (p_types p)
    (match cur (p_name p) with Some c => me_members E (p_name p) c | None => None end) (p_others p) (p_imported p).
Definition world_at (E : menv) (cur : current) : world := map (package_at E cur) (me_world E).

(** SymbolReference, package.go:200-205. *)
Record sref := mkSR { sr_sym : sym; sr_name : string; sr_package : string; sr_compound : string }.

(** GetSymbol with all of SymbolReference.  CompoundName is set for members
    (scope.go:281-292), which are members of the current compound type. *)
Definition find_symbol (E : menv) (cur : current) (p : package) (n : string) : answer sref :=
  match GetSymbol (me_depth E) (world_at E cur) p n with
  | Found (pkg, s) =>
      let compound := match s with
                      | SyField _ _ | SyParameter _ | SyFunction _ => match cur pkg with Some c => c | None => ""%string end
                      | _ => ""%string
                      end in
      Found (mkSR s n pkg compound)
  | Unknown => Unknown
  | Runs => Runs
  end.

(** GetCompoundType, package.go:270-283. *)
Definition member_in (E : menv) (c n : string) (q : package) : answer sref :=
  match me_members E (p_name q) c with
  | Some l => match get n l with Some s => Found (mkSR s n (p_name q) c) | None => Unknown end
  | None => Unknown
  end.
Definition GetCompoundType (E : menv) (cur : current) (p : package) (c n : string) : answer sref :=
  match member_in E c n p with
  | Unknown => first_of (member_in E c n) (imported (world_at E cur) p)
  | r => r
  end.

(** GetOriginalSymbol, package.go:300-349: [inr t] is a new reference to the builtin
    type [t].  [left] more rounds before the error "symbol lookup failed".  The scope
    moves along. *)
Fixpoint GetOriginalSymbol (left : nat) (f : nat) (w : world) (p : package) (s : sym) : answer (sym + tyref) :=
  let follow t :=
    if tr_builtin t then Found (inr t)
    else match GetImportedScope f w p (tr_package t) with
    | Found q =>
        match GetSymbol f w q (tr_name t) with
        | Found (_, s') => match left with O => Unknown | S l => GetOriginalSymbol l f w q s' end
        | Unknown => Unknown
        | Runs => Runs
        end
    | Unknown => Unknown
    | Runs => Runs
    end in
  match s with
  | SyEnum _ | SyEnumItem _ | SyUnion _ | SyStruct _ | SyChoice _ | SyFunction _ | SyBitmask _ => Found (inl s)
  | SyField t _ | SyParameter t | SySubtype t => follow t
  | SyInstantiate _ | SyConst _ => Unknown
  end.

(** The type of an expression whose type is a builtin one, expression.go:115-129:
    by the name of the reference. *)
Definition name_type (n : string) : ety :=
  if (n =? "bool")%string then TyBool else if (n =? "string")%string then TyString
  else if ((n =? "float16") || (n =? "float32") || (n =? "float64"))%string then TyFloat else TyInt.

(** evaluateSymbolType, expression.go:143-168. *)
Definition symbol_type (E : menv) (w : world) (p : package) (s : sym) : answer (ety * option tref) :=
  match GetOriginalSymbol 100 (me_depth E) w p s with
  | Found (inr t) => Found (name_type (tr_name t), Some (builtin t))
  | Found (inl s') =>
      match s' with
      | SyEnum _ => Found (TyEnum, None)
      | SyEnumItem _ => Found (TyInt, None)
      | SyUnion _ | SyStruct _ | SyChoice _ => Found (TyCompound, None)
      | SyFunction f => Found (me_type_yet E f, None)
      | SyBitmask _ => Found (TyBitmask, None)
      | _ => Unknown
      end
  | Unknown => Unknown
  | Runs => Runs
  end.

(** evaluateExpressionType, expression.go:106-141.  For a subtype of a builtin type
    the name in [r_native] is the one of the subtype, and nothing says that it is no
    builtin type. *)
Definition reference_type (E : menv) (w : world) (p : package) (t : tyref) : answer (ety * option tref) :=
  match GetOriginalType (me_depth E) w p t with
  | Found o =>
      if tr_builtin (o_type o) then Found (name_type (tr_name t), Some (builtin t))
      else match GetImportedScope (me_depth E) w p (tr_package t) with
      | Found q =>
          match GetSymbol (me_depth E) w q (tr_name t) with
          | Found (_, s) => symbol_type E w p s
          | Unknown => Unknown
          | Runs => Runs
          end
      | Unknown => Unknown
      | Runs => Runs
      end
  | Unknown => Unknown
  | Runs => Runs
  end.

(** ** Go names *)

(** strings.Title of an identifier: the first letter. *)
Definition upper (c : ascii) : ascii :=
  let k := nat_of_ascii c in if ((97 <=? k) && (k <=? 122))%nat then ascii_of_nat (k - 32) else c.
Definition title (s : string) : string := match s with EmptyString => EmptyString | String c r => String (upper c) r end.
(** GoPackageAlias, package.go:421-423. *)
Fixpoint alias (s : string) : string :=
  match s with EmptyString => EmptyString | String c r => String (if Ascii.eqb c "." then "_" else c)%char (alias r) end.

(** Package.GoType, package.go:112-130. *)
Definition PackageGoType (here : string) (t : tyref) : option string :=
  if tr_builtin t then AstTypes.GoType (builtin t)
  else if (tr_package t =? "")%string then None
  else if (tr_package t =? here)%string then Some (title (tr_name t))
  else Some (alias (tr_package t) ++ "." ++ title (tr_name t))%string.

(** getSymbolType and GoType, generator/expression.go:107-131; None: panic. *)
Definition symbol_go_type (E : menv) (here : string) (s : sref) : option string :=
  match sr_sym s with
  | SyEnum _ | SyBitmask _ => PackageGoType here (me_under E (sr_sym s))
  | SyField t _ | SyParameter t => PackageGoType here t
  | SySubtype _ => PackageGoType here (mkTR false (sr_package s) (sr_name s) 0)
  | SyFunction f => PackageGoType here (me_return E f)
  | _ => None
  end.

(** IdentifierToGoString, generator/expression.go:14-41.  The names of members are
    capitalised by then (transform.go:39-123). *)
Definition go_ident (here : string) (s : sref) : ident :=
  match PackageGoType here (mkTR false (sr_package s) (sr_name s) 0) with
  | None => IOther
  | Some name =>
      match sr_sym s with
      | SyField _ _ | SyParameter _ | SyFunction _ => IMember (title (sr_name s))
      | SyEnum _ | SyBitmask _ | SySubtype _ => IType name
      | _ => IOther
      end
  end.

(** dotOperatorToGoString for an enum, generator/expression.go:61-95. *)
Definition go_item (E : menv) (w : world) (p : package) (s : sref) (n : string) : dot :=
  match GetOriginalType (me_depth E) w p (mkTR false (sr_package s) (sr_name s) 0) with
  | Found o =>
      match PackageGoType (p_name p) (o_type o) with
      | Some go => DEnum (go ++ me_camel E n) (o_cast o)
      | None => DEnum "ENUM_GO_TYPE_DEDUCTION_FAILED" false
      end
  | _ => DEnum "ENUM_TYPE_LOOKUP_FAILED" false
  end.

(** ** Evaluation *)

(** Expression.Evaluate: the expression with its results and its ResultSymbol, or
    how it fails. *)
Inductive mout := MOk (a : aexpr) (s : option sref) | MFail (x : status).

Definition operator1 (mk : aexpr -> result -> aexpr) (op : bool -> result -> result * status) (a : mout) : mout :=
  match a with
  | MOk ea _ =>
      match op (r_full (res ea)) (res ea) with
      | (r, SOk) => MOk (mk ea r) None
      | (_, x) => MFail x
      end
  | MFail x => MFail x
  end.
Definition operator2 (mk : aexpr -> aexpr -> result -> aexpr) (op : bool -> result -> result -> result * status) (a b : mout) : mout :=
  match a, b with
  | MOk ea _, MOk eb _ =>
      match op (r_full (res ea) && r_full (res eb)) (res ea) (res eb) with
      | (r, SOk) => MOk (mk ea eb r) None
      | (_, x) => MFail x
      end
  | MFail x, _ => MFail x
  | _, MFail x => MFail x
  end.

Definition failed {A} (a : answer A) : status := match a with Runs => SNoFuel | _ => SErr end.

(** evaluateIdentifier, expression.go:178-202. *)
Definition eval_ident (E : menv) (cur : current) (p : package) (n : string) : mout :=
  match find_symbol E cur p n with
  | Found s =>
      match sr_sym s with
      | SyConst _ => MOk (AConst (copy_result true (me_const E (sr_package s) n))) None
      | SyEnumItem i => MOk (AConst (copy_result true (me_item E i))) None
      | _ =>
          match symbol_type E (world_at E cur) p (sr_sym s) with
          | Found (ty, native) =>
              MOk (AIdent (go_ident (p_name p) s) (symbol_go_type E (p_name p) s) (mkRes ty 0 f64_zero "" false native false)) (Some s)
          | x => MFail (failed x)
          end
      end
  | x => MFail (failed x)
  end.

(** The loop over subtypes of evaluateCompoundDotExpression, expression.go:243-266:
    the name and kind of the compound type, and the last scope.  The name is looked
    up in the scope of the expression, whatever package the reference names. *)
Fixpoint compound_of (rounds : nat) (E : menv) (cur : current) (p scope : package) (t : tyref) : answer (string * sym * package) :=
  match rounds with
  | O => Runs
  | S k =>
      match find_symbol E cur p (tr_name t) with
      | Found s =>
          match GetImportedScope (me_depth E) (world_at E cur) scope (sr_package s) with
          | Found scope' =>
              match sr_sym s with
              | SySubtype t' =>
                  match GetImportedScope (me_depth E) (world_at E cur) scope' (tr_package t') with
                  | Found scope'' => compound_of k E cur p scope'' t'
                  | Unknown => Unknown
                  | Runs => Runs
                  end
              | k => Found (sr_name s, k, scope')
              end
          | Unknown => Unknown
          | Runs => Runs
          end
      | Unknown => Unknown
      | Runs => Runs
      end
  end.

(** evaluateCompoundDotExpression, expression.go:231-288. *)
Definition eval_member (E : menv) (cur : current) (p : package) (ea : aexpr) (s : sref) (full : bool) (n : string) : mout :=
  let w := world_at E cur in
  match sr_sym s with
  | SyField t _ | SyParameter t =>
      match compound_of (me_depth E) E cur p p t with
      | Found (c, SyStruct _, scope) | Found (c, SyChoice _, scope) =>
          match GetCompoundType E cur p c n with
          | Found m =>
              match symbol_type E w scope (sr_sym m) with
              | Found (ty, native) =>
                  MOk (ADot ea (DField (title n)) (Some (symbol_go_type E (p_name p) m)) (mkRes ty 0 f64_zero "" false native full)) (Some m)
              | x => MFail (failed x)
              end
          | x => MFail (failed x)
          end
      | Found _ => MFail SErr
      | x => MFail (failed x)
      end
  | _ => MFail SErr
  end.

(** evaluateDotExpression, expression.go:369-411.  Without a ResultSymbol on the left,
    GetOriginalSymbol dereferences a nil pointer. *)
Definition eval_mdot (E : menv) (cur : current) (p : package) (ea : aexpr) (os : option sref) (full : bool) (n : string) : mout :=
  let w := world_at E cur in
  match os with
  | None => MFail SPanic
  | Some s =>
      match GetOriginalSymbol 100 (me_depth E) w p (sr_sym s) with
      | Found o =>
          if ety_eqb (r_type (res ea)) TyEnum then
            match o with
            | inl (SyEnum i) =>
                match get n (me_enum E i) with
                | Some r => MOk (ADot ea (go_item E w p s n) None (copy_result full r)) None
                | None => MFail SErr
                end
            | _ => MFail SErr
            end
          else if ety_eqb (r_type (res ea)) TyBitmask then
            match o with
            | inl (SyBitmask i) =>
                match get n (me_mask E i) with
                | Some (Some r) => MOk (ADot ea (DMask (title n)) None (mkRes TyBitmask (r_int r) f64_zero "" false None full)) None
                | Some None => MFail SPanic
                | None => MFail SErr
                end
            | _ => MFail SErr
            end
          else if ety_eqb (r_type (res ea)) TyCompound then eval_member E cur p ea s full n
          else MFail SErr
      | x => MFail (failed x)
      end
  end.

(** getArrayField, expression.go:330-340. *)
Definition array_field (os : option sref) : status + tyref :=
  match os with
  | None => inl SPanic
  | Some s => match sr_sym s with SyField t true => inr t | _ => inl SErr end
  end.

(** evaluateArrayElement, expression.go:342-355. *)
Definition eval_elem (E : menv) (cur : current) (p : package) (a i : mout) : mout :=
  match a, i with
  | MOk ea os, MOk ei _ =>
      match array_field os with
      | inr t =>
          if ety_eqb (r_type (res ei)) TyInt then
            match reference_type E (world_at E cur) p t with
            | Found (ty, native) => MOk (AElement ea ei (mkRes ty 0 f64_zero "" false native (r_full (res ea) && r_full (res ei)))) None
            | x => MFail (failed x)
            end
          else MFail SErr
      | inl x => MFail x
      end
  | MFail x, _ => MFail x
  | _, MFail x => MFail x
  end.

(** evaluateLengthOfOperator, expression.go:357-365. *)
Definition eval_lengthof (a : mout) : mout :=
  match a with
  | MOk ea os =>
      match array_field os with
      | inr _ => MOk (ALengthof ea (mkRes TyInt 0 f64_zero "" false (Some (builtin_type "int64")) (r_full (res ea)))) None
      | inl x => MFail x
      end
  | MFail x => MFail x
  end.

(** evaluateFunctionCallExpression, expression.go:290-328.  [invoke] evaluates the
    result of a function in the scope of a compound type of a package; it has been
    evaluated before, or is now, with the same outcome.  All but FullyResolved is
    copied from it. *)
Definition eval_call (invoke : current -> package -> mexpr -> mout) (E : menv) (cur : current) (p : package) (a : mout) : mout :=
  match a with
  | MOk ea os =>
      match os with
      | None => MFail SPanic
      | Some s =>
          match sr_sym s with
          | SyFunction f =>
              match GetOriginalType (me_depth E) (world_at E cur) p (mkTR false (sr_package s) (sr_compound s) 0) with
              | Found o =>
                  match GetImportedScope (me_depth E) (world_at E cur) p (tr_package (o_type o)) with
                  | Found q =>
                      let cur' := enter (p_name q) (tr_name (o_type o)) cur in
                      match invoke cur' (package_at E cur' q) (me_function E f) with
                      | MOk eb _ => MOk (ACall ea (symbol_go_type E (p_name p) s) (copy_result (r_full (res ea)) (res eb))) (Some s)
                      | MFail x => MFail x
                      end
                  | x => MFail (failed x)
                  end
              | x => MFail (failed x)
              end
          | _ => MFail SErr
          end
      end
  | MFail x => MFail x
  end.

(** Expression.Evaluate, expression.go:764-917, on an expression that has not been
    evaluated: see [AstExpr.eval_expr]. *)
Fixpoint eval_mexpr (invoke : current -> package -> mexpr -> mout) (E : menv) (cur : current) (p : package) (e : mexpr) : mout :=
  let eval := eval_mexpr invoke E cur p in
  match e with
  | MNum z => if z <=? MaxInt64 then MOk (AConst (mkRes TyInt z f64_zero "" false None true)) None else MFail SErr
  | MBool b => MOk (AConst (mkRes TyBool 0 f64_zero "" b None true)) None
  | MStr t => MOk (AConst (mkRes TyString 0 f64_zero t false None true)) None
  | MFloat single f => MOk (AConst (mkRes TyFloat 0 f "" false (Some (builtin_type (if single then "float32" else "float64"))) true)) None
  | MIndex => MOk (AIndexVar (mkRes TyInt 0 f64_zero "" false None false)) None
  | MName n => eval_ident E cur p n
  | MDot a id n =>
      match eval a with
      | MOk ea os =>
          if id then
            match eval_ident E cur p n with
            | MOk eb _ => eval_mdot E cur p ea os (r_full (res ea) && r_full (res eb)) n
            | MFail x => MFail x
            end
          else eval_mdot E cur p ea os (r_full (res ea)) n
      | MFail x => MFail x
      end
  | MElem a i => eval_elem E cur p (eval a) (eval i)
  | MCall a => eval_call invoke E cur p (eval a)
  | MLengthof a => eval_lengthof (eval a)
  | MParen a => operator1 AParen eval_paren (eval a)
  | MUnary minus a => operator1 (ASign minus) (eval_unary minus) (eval a)
  | MArith op a b => operator2 (AArith op) (eval_arith op) (eval a) (eval b)
  | MNot a => operator1 ANot eval_not (eval a)
  | MLogic both a b => operator2 (ALogic both) (eval_logic both) (eval a) (eval b)
  | MCompare op a b => operator2 (ACompare op) (eval_compare op) (eval a) (eval b)
  | MTernary a b c =>
      match eval a, eval b, eval c with
      | MOk ea _, MOk eb _, MOk ec _ =>
          match eval_ternary (r_full (res ea) && r_full (res eb) && r_full (res ec)) (res ea) (res eb) (res ec) with
          | (r, SOk) => MOk (ATernary ea eb ec r) None
          | (_, x) => MFail x
          end
      | MFail x, _, _ | _, MFail x, _ | _, _, MFail x => MFail x
      end
  | MTilde a => operator1 ATilde eval_tilde (eval a)
  | MBitwise op a b => operator2 (ABitwise op) (eval_bitwise op) (eval a) (eval b)
  | MValueof a => operator1 AValueof eval_valueof (eval a)
  | MNumbits a => operator1 ANumbits eval_numbits (eval a)
  | MIsset a b => operator2 AIsset eval_isset (eval a) (eval b)
  end.

(** Functions that call each other in a cycle end with the error "cyclic expression
    dependency found"; here they run out of fuel. *)
Fixpoint evaluate_in (calls : nat) (E : menv) (cur : current) (p : package) (e : mexpr) : mout :=
  eval_mexpr (match calls with O => fun _ _ _ => MFail SNoFuel | S k => evaluate_in k E end) E cur p e.

(** Evaluate in the compound type [c] of the package [p] of the world: the scope is
    the package with the current compound types. *)
Definition evaluate_member (E : menv) (cur : current) (p : package) (e : mexpr) : mout :=
  evaluate_in (me_depth E) E cur (package_at E cur p) e.

(** ** Compound types *)

(** The expressions of a list of fields, in order, up to the first failure. *)
Fixpoint evaluate_all (E : menv) (cur : current) (p : package) (l : list mexpr) : status :=
  match l with
  | [] => SOk
  | e :: l' => match evaluate_member E cur p e with MOk _ _ => evaluate_all E cur p l' | MFail x => x end
  end.

(** Struct.Evaluate, struct.go:36-61, with the expressions of its parameters,
    fields (Field.Evaluate, field.go:36-62) and functions. *)
Definition EvaluateStruct (E : menv) (cur : current) (p : package) (name : string) (exprs : list mexpr) : status :=
  evaluate_all E (enter (p_name p) name cur) p exprs.

(** Union.Evaluate, union.go:29-50: CurrentCompoundScope is not set. *)
Definition EvaluateUnion (E : menv) (cur : current) (p : package) (exprs : list mexpr) : status :=
  evaluate_all E cur p exprs.

(** Choice, choice.go:20-29: the selector, the labels of the cases (each case with
    at least one) and the other expressions. *)
Record choice := mkCh { ch_selector : mexpr; ch_labels : list (list mexpr); ch_exprs : list mexpr }.

(** fullySpecifyChoiceConditions, choice.go:51-81, on one label. *)
Definition specify (os : option sref) (label : mexpr) : status + mexpr :=
  match label with
  | MName n =>
      match os with
      | None => inl SPanic
      | Some s =>
          match sr_sym s with
          | SyParameter t => inr (MDot (MName (tr_name t)) true n)
          | _ => inl SErr
          end
      end
  | _ => inr label
  end.

Fixpoint evaluate_labels (E : menv) (cur : current) (p : package) (os : option sref) (l : list mexpr) : status + list Z :=
  match l with
  | [] => inr []
  | label :: l' =>
      match specify os label with
      | inl x => inl x
      | inr e =>
          match evaluate_member E cur p e with
          | MFail x => inl x
          | MOk a _ => match evaluate_labels E cur p os l' with inr zs => inr (r_int (res a) :: zs) | inl x => inl x end
          end
      end
  end.
Fixpoint evaluate_cases (E : menv) (cur : current) (p : package) (os : option sref) (l : list (list mexpr)) : status + list (list Z) :=
  match l with
  | [] => inr []
  | labels :: l' =>
      match evaluate_labels E cur p os labels with
      | inl x => inl x
      | inr zs => match evaluate_cases E cur p os l' with inr zss => inr (zs :: zss) | inl x => inl x end
      end
  end.

(** Choice.Evaluate, choice.go:82-125, and what choice.go.tmpl makes of the selector
    and the labels: switch (v.NAME) and the integers after case.  The order of the
    failures of labels and other expressions is simplified.  A selector without a
    ResultSymbol is an error of the template. *)
Definition EvaluateChoice (E : menv) (cur : current) (p : package) (name : string) (c : choice) : status + (string * list (list Z)) :=
  let cur' := enter (p_name p) name cur in
  match evaluate_member E cur' p (ch_selector c) with
  | MFail x => inl x
  | MOk _ os =>
      match evaluate_all E cur' p (ch_exprs c), evaluate_cases E cur' p os (ch_labels c) with
      | SOk, inr zs => match os with Some s => inr (title (sr_name s), zs) | None => inl SErr end
      | SOk, inl x => inl x
      | x, _ => inl x
      end
  end.
