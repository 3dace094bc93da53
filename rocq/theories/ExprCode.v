(** What the expressions of a schema file compute in the code that is generated for
    it: Members.v (Evaluate), ExprPrint.v (goExpression) and GoTypes.v (Go), put
    together for the package of a file, as the [meaning] that Compile.v leaves open.

    Left out, and answered by None or false: imports, templates, calls of functions,
    initializers, constants other than integer literals with or without a minus sign, items of enums other than as
    labels and in comparisons, values of bitmasks, members of type bit<e>, int<e> and bitmasks, optional
    members, members of members, members of the type itself in choices and unions, labels
    that are neither literals nor names, and the operators for which there is no case in
    [to_mexpr].  The values of enums and bitmasks, which can fail to be evaluated, are not
    looked at, except for labels and in comparisons with items, where those of the enum have
    to be integer literals, with a minus sign or without. *)

Require Import ZArith String Ascii List Bool.
From Verif Require Import Bits Traits Schema.
From Verif Require AstExpr AstTypes Literals GoSyntax ExprPrint ExprPrintSpec ExprPrintFacts GoTypes GoTypesSpec Members MembersSpec Names.
From Verif Require Import Packages Visitor Parser FileParser Compile.
Import ListNotations.
Open Scope string_scope.
Open Scope list_scope.

(** ** Expressions *)

(** Evaluate on the tree of the visitor, internal/ast/expression.go:764-917: the switch
    over the type of the token. *)
Definition literal_mexpr (k : Literals.token) (t : string) : option Members.mexpr :=
  match Literals.eval_literal k (list_ascii_of_string t) with
  | Some (Literals.VInt z) => Some (Members.MNum z)
  | Some (Literals.VBool b) => Some (Members.MBool b)
  | _ => None
  end.
Definition arith_of (k : tok) : option AstExpr.aop :=
  match k with
  | TkPlus => Some AstExpr.Plus | TkMinus => Some AstExpr.Minus | TkMultiply => Some AstExpr.Multiply
  | TkDivide => Some AstExpr.Divide | TkModulo => Some AstExpr.Modulo
  | _ => None
  end.
Definition compare_of (k : tok) : option AstExpr.cop :=
  match k with
  | TkLT => Some AstExpr.Lt | TkLE => Some AstExpr.Le | TkGT => Some AstExpr.Gt | TkGE => Some AstExpr.Ge
  | TkEQ => Some AstExpr.Eq | TkNE => Some AstExpr.Ne
  | _ => None
  end.
Definition logic_of (k : tok) : option bool :=
  match k with TkLogicalAnd => Some true | TkLogicalOr => Some false | _ => None end.
Definition lift1 (f : Members.mexpr -> Members.mexpr) (a : option Members.mexpr) : option Members.mexpr := option_map f a.
Definition lift2 (f : Members.mexpr -> Members.mexpr -> Members.mexpr) (a b : option Members.mexpr) : option Members.mexpr :=
  match a, b with Some x, Some y => Some (f x y) | _, _ => None end.
Definition binary_of (k : tok) : option (Members.mexpr -> Members.mexpr -> Members.mexpr) :=
  match arith_of k, compare_of k, logic_of k with
  | Some op, _, _ => Some (Members.MArith op)
  | None, Some op, _ => Some (Members.MCompare op)
  | None, None, Some both => Some (Members.MLogic both)
  | None, None, None => None
  end.
Definition unary_of (k : tok) : option (Members.mexpr -> Members.mexpr) :=
  match k with
  | TkLParen => Some Members.MParen
  | TkLengthof => Some Members.MLengthof
  | TkNumbits => Some Members.MNumbits
  | TkBang => Some Members.MNot
  | TkPlus => Some (Members.MUnary false)
  | TkMinus => Some (Members.MUnary true)
  | _ => None
  end.
Fixpoint to_mexpr (e : Visitor.expr) : option Members.mexpr :=
  match e with
  | Visitor.Expr k t None None None =>
      match k with
      | TkLiteral l => literal_mexpr l t
      | TkId => Some (Members.MName t)
      | TkIndex => Some Members.MIndex
      | _ => None
      end
  | Visitor.Expr k _ (Some a) None None => match unary_of k with Some f => lift1 f (to_mexpr a) | None => None end
  | Visitor.Expr TkDot _ (Some (Visitor.Expr TkId t None None None)) (Some (Visitor.Expr TkUnevaluatable n None None None)) None =>
      Some (Members.MDot (Members.MName t) false n)
  | Visitor.Expr k _ (Some a) (Some b) None => match binary_of k with Some f => lift2 f (to_mexpr a) (to_mexpr b) | None => None end
  | _ => None
  end.
Fixpoint uses_index (e : Members.mexpr) : bool :=
  match e with
  | Members.MIndex => true
  | Members.MParen a | Members.MLengthof a | Members.MNumbits a | Members.MNot a | Members.MUnary _ a => uses_index a
  | Members.MArith _ a b | Members.MCompare _ a b | Members.MLogic _ a b => uses_index a || uses_index b
  | _ => false
  end.

(** ** The package *)

(** ResolveTypes, transform.go: a name without a package is one of this package. *)
Definition tyref_of (p : pkg) (t : Visitor.tref) : tyref :=
  match t with Visitor.TRef b _ n bits _ => if b then mkTR true "" n bits else mkTR false (vp_name p) n bits end.
Definition plain_ref (t : Visitor.tref) : bool :=
  match t with
  | Visitor.TRef true _ _ _ _ => true
  | Visitor.TRef false package _ _ args => (package =? "")%string && match args with [] => true | _ => false end
  end.

Definition entries {A B} (f : A -> B) (l : list (string * A)) : list (string * B) := map (fun e => (fst e, f (snd e))) l.
Definition numbered {A B} (f : nat -> B) (l : list (string * A)) : list (string * B) := map (fun x => (fst (snd x), f (fst x))) (combine (seq 0 (length l)) l).
(** CollectSymbols, internal/ast/package.go:63-108: of entries with the same key the
    first one counts here.  The number of an enum is its place in the table, the numbers
    of other declarations are not used. *)
Definition type_symbols (p : pkg) : list (string * sym) :=
  entries (fun _ => SyChoice 0) (vp_choices p) ++ entries (fun _ => SyBitmask 0) (vp_bitmasks p) ++
  entries (fun _ => SyUnion 0) (vp_unions p) ++ numbered SyEnum (vp_enums p) ++
  entries (fun _ => SyStruct 0) (vp_structs p) ++ entries (fun k => SyConst (tyref_of p (ti_ref (k_type k)))) (vp_consts p) ++
  entries (fun t => SyInstantiate (tyref_of p t)) (vp_instantiated p) ++ entries (fun t => Packages.SySubtype (tyref_of p t)) (vp_subtypes p).
Definition item_symbols (p : pkg) : list (string * sym) :=
  flat_map (fun e => map (fun i => (fst i, SyEnumItem 0)) (e_items (snd e))) (vp_enums p).
Definition package_of (p : pkg) : package := mkP (vp_name p) [] (type_symbols p) None (item_symbols p) [].

Definition int_result (z : Z) : AstExpr.result := AstExpr.mkRes AstExpr.TyInt z AstExpr.f64_zero "" false None true.
(** The value of an item or constant that is an integer literal, or one with a minus sign
    (evaluateUnaryArithmeticExpression, internal/ast/expression.go:445-462). *)
Definition item_value (e : Visitor.expr) : option AstExpr.result :=
  match e with
  | Visitor.Expr (TkLiteral k) t None None None =>
      match Literals.eval_literal k (list_ascii_of_string t) with Some (Literals.VInt z) => Some (int_result z) | _ => None end
  | Visitor.Expr TkMinus _ (Some (Visitor.Expr (TkLiteral k) t None None None)) None None =>
      match Literals.eval_literal k (list_ascii_of_string t) with Some (Literals.VInt z) => Some (fst (AstExpr.eval_unary true true (int_result z))) | _ => None end
  | _ => None
  end.
(** A constant whose value is as in [item_value]. *)
Definition const_value (p : pkg) (n : string) : option Z :=
  match get n (vp_consts p) with
  | Some k => option_map AstExpr.r_int (item_value (k_value k))
  | None => None
  end.

(** Enum.Evaluate, internal/ast/enum.go:31-57, which comes before all structs and choices
    (transform.go:125-195), for items whose values, where they are given, are as in
    [item_value]; [prev]: the item before. *)
Fixpoint item_values (prev : option AstExpr.result) (l : list (string * option Visitor.expr)) : option (list (string * AstExpr.result)) :=
  match l with
  | [] => Some []
  | (n, None) :: l' =>
      match AstExpr.enum_next prev with
      | Some r => option_map (cons (n, r)) (item_values (Some r) l')
      | None => None
      end
  | (n, Some e) :: l' =>
      match item_value e with
      | Some r => option_map (cons (n, r)) (item_values (Some r) l')
      | None => None
      end
  end.
Definition enum_values (p : pkg) (i : nat) : list (string * AstExpr.result) :=
  match nth_error (vp_enums p) i with
  | Some (_, e) => match item_values None (e_items e) with Some l => l | None => [] end
  | None => []
  end.
(** enum.go.tmpl:9-13: the constants for the items, with the type of the enum.  The name
    of an item in Go is ToCamel(ToLower(name)), enum.go:66-68. *)
Definition item_consts (p : pkg) : list (string * (string * Z)) :=
  flat_map (fun e => match item_values None (e_items (snd e)) with
    | Some l => map (fun v => (Members.title (fst e) ++ Names.item_name (fst v), (Members.title (fst e), AstExpr.r_int (snd v)))%string) l
    | None => []
    end) (vp_enums p).
Definition enum_under (p : pkg) (s : sym) : tyref :=
  match s with
  | SyEnum i => match nth_error (vp_enums p) i with Some (_, e) => tyref_of p (ti_ref (e_type e)) | None => mkTR true "" "" 0 end
  | _ => mkTR true "" "" 0
  end.

Definition param_symbols (p : pkg) (l : list param) : list (string * sym) := rev (map (fun x => (fst x, SyParameter (tyref_of p (snd x)))) l).
Definition field_symbols (p : pkg) (l : list Visitor.field) : list (string * sym) :=
  rev (map (fun f => (f_name f, SyField (tyref_of p (ti_ref (f_type f))) (match f_array f with Some _ => true | None => false end))) l).
Definition function_symbols (l : list Visitor.function) : list (string * sym) := rev (map (fun f => (fn_name f, SyFunction 0)) l).
Definition case_fields (c : choice_decl) : list Visitor.field := flat_map (fun k => match snd k with Some f => [f] | None => [] end) (c_cases c).
(** BuildScope, struct.go:23-34 and choice.go:31-48: a later entry overwrites an
    earlier one.  Union.Evaluate does not enter its scope (union.go:29-50). *)
Definition members_of (p : pkg) (c : string) : option (list (string * sym)) :=
  match get c (vp_choices p) with
  | Some ch => Some (field_symbols p (case_fields ch) ++ param_symbols p (c_params ch))
  | None =>
      match get c (vp_structs p) with
      | Some s => Some (function_symbols (s_functions s) ++ field_symbols p (s_fields s) ++ param_symbols p (s_params s))
      | None => None
      end
  end.
Definition menv_of (p : pkg) : Members.menv :=
  Members.mkME [package_of p] 101
    (fun _ n => match const_value p n with Some z => int_result z | None => AstExpr.blank false end)
    (fun _ => AstExpr.blank false) (enum_values p) (fun _ => []) (enum_under p)
    (fun q c => if (q =? vp_name p)%string then members_of p c else None)
    (fun _ => Members.MNum 0) (fun _ => mkTR true "" "" 0) (fun _ => AstExpr.TyNone) Names.item_name.

(** ** The Go program *)

(** A parameter or a field of the receiver: its place among the parameters (inl) or
    the fields (inr), its type, and whether it is an array. *)
Record slot := mkSlot { sl_name : string; sl_type : Visitor.tref; sl_place : nat + nat; sl_array : bool }.
Definition param_slots (l : list param) : list slot := map (fun x => mkSlot (fst (snd x)) (snd (snd x)) (inl (fst x)) false) (combine (seq 0 (length l)) l).
Definition field_slots (l : list Visitor.field) : list slot :=
  flat_map (fun x =>
    let f := snd x in
    if f_optional f || match ti_length (f_type f) with Some _ => true | None => false end then []
    else [mkSlot (f_name f) (ti_ref (f_type f)) (inr (fst x)) (match f_array f with Some _ => true | None => false end)])
    (combine (seq 0 (length l)) l).
(** struct.go.tmpl and choice.go.tmpl: the fields of the Go struct. *)
Definition slots (p : pkg) (c : string) : list slot :=
  match get c (vp_choices p) with
  | Some ch => param_slots (c_params ch)
  | None => match get c (vp_structs p) with Some s => param_slots (s_params s) ++ field_slots (s_fields s) | None => [] end
  end.
Definition go_slot (p : pkg) (c : string) (n : string) : option slot := find (fun s => (Members.title (sl_name s) =? n)%string) (slots p c).
Definition at_v {A} (f : string -> option A) (t : GoSyntax.gtree) : option A :=
  match t with
  | GoSyntax.GSelect (GoSyntax.GName v) n => if (v =? "v")%string then f n else None
  | _ => None
  end.
(** subtype.go.tmpl: "type {{ .Name }} {{ goType .Type }}": the kind of a subtype;
    enum.go.tmpl:7 is the same for an enum. *)
Definition builtin_kind (n : string) (bits : Z) : option GoTypes.kind :=
  match AstTypes.GoType (AstExpr.mkT n bits false) with Some go => GoTypes.find_name go GoTypes.predeclared | None => None end.
Definition enum_kind (p : pkg) (e : enum_decl) : option GoTypes.kind :=
  match GetOriginalType 101 p (ti_ref (e_type e)) false with
  | Some (Visitor.TRef true _ n bits _, _) => builtin_kind n bits
  | _ => None
  end.
Definition named_kind (p : pkg) (go : string) : option GoTypes.kind :=
  match find (fun s => (Members.title (fst s) =? go)%string) (vp_subtypes p) with
  | Some s =>
      match GetOriginalType 101 p (Visitor.TRef false "" (fst s) 0 []) false with
      | Some (Visitor.TRef true _ n bits _, _) => builtin_kind n bits
      | Some (Visitor.TRef false _ n _ _, _) => match get n (vp_enums p) with Some e => enum_kind p e | None => None end
      | None => None
      end
  | None =>
      match find (fun e => (Members.title (fst e) =? go)%string) (vp_enums p) with
      | Some e => enum_kind p (snd e)
      | None => None
      end
  end.
Definition go_type_of (p : pkg) (t : Visitor.tref) : option string := Members.PackageGoType (vp_name p) (tyref_of p t).
Definition genv_of (p : pkg) (c : string) : GoTypes.genv :=
  GoTypes.mkG (named_kind p) (fun n => get n (item_consts p))
    (at_v (fun n => match go_slot p c n with Some s => if sl_array s then None else go_type_of p (sl_type s) | None => None end))
    (at_v (fun n => match go_slot p c n with Some s => if sl_array s then go_type_of p (sl_type s) else None | None => None end)).

(** The values of the receiver's fields, from those of the model of generated code.  A
    Go variable holds a value of its type, and 0 or false before it is set. *)
Definition slot_value (s : slot) (E : env) : option (option value) :=
  match sl_place s with
  | inl i => option_map Some (nth_error (e_params E) i)
  | inr i => nth_error (e_slots E) i
  end.
Definition go_value (k : option GoTypes.kind) (v : option (option value)) : option GoTypes.gval :=
  match k, v with
  | Some (GoTypes.KInt g), Some (Some (VInt z)) => if GoTypes.representable g z then Some (GoTypes.GI z) else None
  | Some (GoTypes.KInt _), Some None => Some (GoTypes.GI 0)
  | Some GoTypes.KBool, Some (Some (VBool b)) => Some (GoTypes.GB b)
  | Some GoTypes.KBool, Some None => Some (GoTypes.GB false)
  | _, _ => None
  end.
Definition array_size (v : option (option value)) : Z := match v with Some (Some (VArr l)) => Z.of_nat (length l) | _ => 0 end.
Definition gstate_of (p : pkg) (c : string) (E : env) (i : nat) : GoTypes.gstate :=
  GoTypes.mkGS
    (fun t => at_v (fun n => match go_slot p c n with
       | Some s => match go_type_of p (sl_type s) with Some go => go_value (GoTypes.kind_of (genv_of p c) go) (slot_value s E) | None => None end
       | None => None end) t)
    (fun _ _ => None)
    (fun t => match at_v (go_slot p c) t with Some s => array_size (slot_value s E) | None => 0%Z end)
    (Z.of_nat i).

(** ** The generated expression *)

(** A name that the model knows: an integer constant, an enum or a subtype (for its
    items), or a member with a Go field. *)
Definition known_name (p : pkg) (c : string) (n : string) : bool :=
  match get n (type_symbols p) with
  | Some (SyConst _) => match const_value p n with Some _ => true | None => false end
  | Some (SyEnum _) | Some (Packages.SySubtype _) => true
  | Some _ => false
  | None => existsb (fun s => (sl_name s =? n)%string) (slots p c)
  end.
(** The text of an evaluated expression is a Go expression that is read as the tree
    [raw] of it: see [C106_text]. *)
Definition knownb (e : ExprPrint.aexpr) : bool :=
  match ExprPrint.symbol e with
  | Some (Some _) => true
  | Some None => false
  | None => match AstExpr.r_native (ExprPrint.res e) with
            | Some t => match AstTypes.GoType t with Some _ => true | None => false end
            | None => true
            end
  end.
Definition operandsb (o : GoSyntax.gop) (a b : ExprPrint.aexpr) (freea freeb : bool) : bool :=
  (freea || (GoSyntax.prec o <=? ExprPrintSpec.strength a)%nat) && (freeb || (GoSyntax.prec o <? ExprPrintSpec.strength b)%nat).
Definition typedb (r : AstExpr.result) : bool :=
  match AstExpr.r_native r with Some t => match AstTypes.GoType t with Some _ => true | None => false end | None => true end.
Fixpoint readable (e : ExprPrint.aexpr) : bool :=
  if AstExpr.r_full (ExprPrint.res e) then
    match AstExpr.r_type (ExprPrint.res e) with AstExpr.TyInt | AstExpr.TyBool => true | _ => false end
  else match e with
  | ExprPrint.AIndexVar _ => true
  | ExprPrint.AIdent (ExprPrint.IMember _) _ _ => true
  | ExprPrint.ADot (ExprPrint.AIdent (ExprPrint.IType t) _ r) (ExprPrint.DEnum _ _) _ _ =>
      negb (AstExpr.r_full r) && negb ((t =? "len") || (t =? "ztype.NumBits"))%string
  | ExprPrint.AParen a _ | ExprPrint.ALengthof a _ | ExprPrint.ANumbits a _ => readable a
  | ExprPrint.ANot a _ => readable a && (6 <=? ExprPrintSpec.strength a)%nat
  | ExprPrint.AArith op a b r =>
      readable a && readable b && knownb a && knownb b && typedb r &&
      operandsb (ExprPrintSpec.arith_op op) a b (ExprPrintSpec.converted r a) (ExprPrintSpec.converted r b)
  | ExprPrint.ACompare op a b r =>
      readable a && readable b && knownb a && knownb b && typedb r &&
      operandsb (ExprPrintSpec.relation_op op) a b (ExprPrintSpec.converted r a) (ExprPrintSpec.converted r b)
  | ExprPrint.ALogic both a b _ => readable a && readable b && operandsb (ExprPrintSpec.logic_op both) a b false false
  | _ => false
  end.

(** goExpression of an expression of the type [c]; [idx]: there is a variable index. *)
Definition evaluated (p : pkg) (c : string) (e : Members.mexpr) : option ExprPrint.aexpr :=
  match Members.evaluate_member (menv_of p) (Members.enter (vp_name p) c Members.nowhere) (package_of p) e with
  | Members.MOk a _ => Some a
  | Members.MFail _ => None
  end.
Definition go_tree (p : pkg) (c : string) (idx : bool) (x : Visitor.expr) : option GoSyntax.gtree :=
  match to_mexpr x with
  | None => None
  | Some e =>
      if forallb (known_name p c) (MembersSpec.names e) && (idx || negb (uses_index e)) then
        match evaluated p c e with
        | Some a => if readable a then Some (ExprPrintFacts.raw a) else None
        | None => None
        end
      else None
  end.
Definition go_run (p : pkg) (c : string) (idx : bool) (x : Visitor.expr) (E : env) (i : nat) : option GoTypes.gval :=
  match go_tree p c idx x with
  | Some t => GoTypes.geval (genv_of p c) (gstate_of p c E i) t
  | None => None
  end.

(** A label of a choice: Choice.Evaluate with the selector and this label. *)
Definition label_of (p : pkg) (c : string) (x : Visitor.expr) : option Z :=
  match to_mexpr x, get c (vp_choices p) with
  | Some (Members.MNum z), _ => Some z
  | Some (Members.MName n), Some ch =>
      match to_mexpr (c_selector ch) with
      | Some sel =>
          match Members.EvaluateChoice (menv_of p) Members.nowhere (package_of p) c (Members.mkCh sel [[Members.MName n]] []) with
          | inr (_, [[z]]) => Some z
          | _ => None
          end
      | None => None
      end
  | _, _ => None
  end.

(** encode.go.tmpl, decode.go.tmpl and array_init.go.tmpl convert lengths to uint8 and
    int (see Schema.v); encode_compound_parameters.go.tmpl:14 converts arguments to the
    types of the parameters. *)
Definition go_meaning (p : pkg) : meaning Visitor.expr param :=
  mkM _ _
    (fun c x E => match go_run p c false x E 0 with Some (GoTypes.GI z) => Some z | _ => None end)
    (fun c x E => match go_run p c false x E 0 with Some (GoTypes.GB b) => Some b | _ => None end)
    (fun c t x E i =>
       match go_run p c true x E i, go_type_of p (snd t) with
       | Some v, Some go =>
           match GoTypes.eval_convert (genv_of p c) go v with
           | Some (GoTypes.GI z) => Some (VInt z)
           | Some (GoTypes.GB b) => Some (VBool b)
           | None => None
           end
       | _, _ => None
       end)
    (fun c x => match label_of p c x with Some z => z | None => 0%Z end).

(** ** What compiles *)

Definition converts (p : pkg) (c : string) (idx : bool) (x : Visitor.expr) (go : string) : bool :=
  match go_tree p c idx x with
  | Some t =>
      match GoTypes.check (genv_of p c) t with
      | Some k => match GoTypes.convert (genv_of p c) go k with Some _ => true | None => false end
      | None => false
      end
  | None => false
  end.
(** A condition of an if statement. *)
Definition condition_ok (p : pkg) (c : string) (x : Visitor.expr) : bool := converts p c false x "bool".
Definition whole {A} (f : A -> bool) (o : option A) : bool := match o with Some x => f x | None => true end.
Definition arg_ok (p : pkg) (c : string) (idx : bool) (t : param) (x : Visitor.expr) : bool :=
  match go_type_of p (snd t) with Some go => converts p c idx x go | None => false end.
Definition args_ok (p : pkg) (c : string) (idx : bool) (t : tinst) : bool :=
  match ti_args t with
  | [] => true
  | args =>
      match GetOriginalType 101 p (ti_ref t) false with
      | Some (Visitor.TRef false _ n _ _, _) =>
          match params_of p n with
          | Some params => forallb (fun x => arg_ok p c idx (fst x) (snd x)) (combine params args)
          | None => false
          end
      | _ => false
      end
  end.
(** A field.  A constraint is evaluated, but there is no code for it. *)
Definition field_ok (p : pkg) (c : string) (f : Visitor.field) : bool :=
  whole (fun x => converts p c false x "uint8") (ti_length (f_type f)) &&
  whole (fun a => whole (fun x => converts p c false x "int") (a_length a)) (f_array f) &&
  whole (condition_ok p c) (f_if f) &&
  args_ok p c (match f_array f with Some _ => true | None => false end) (f_type f) &&
  whole (fun x => match go_tree p c false x with Some _ => true | None => false end) (f_constraint f) &&
  match f_init f with None => true | Some _ => false end.
Definition label_ok (p : pkg) (c : string) (x : Visitor.expr) : bool := match label_of p c x with Some _ => true | None => false end.
Definition case_ok (p : pkg) (c : string) (k : case) : bool := forallb (label_ok p c) (fst k) && whole (field_ok p c) (snd k).
Definition none_of {A} (l : list A) : bool := match l with [] => true | _ => false end.
Fixpoint distinctb (l : list string) : bool := match l with [] => true | x :: l' => negb (existsb (String.eqb x) l') && distinctb l' end.
(** functions.go.tmpl, for struct.go.tmpl:45: "retVal := e" and "return T(retVal)".  A
    constant becomes a variable of its default type, int or bool, so that the conversion
    need not be of a representable value. *)
Definition variable_of (a : GoTypes.class) : option GoTypes.class :=
  match a with
  | GoTypes.CInt z => if GoTypes.representable (GS 64) z then Some (GoTypes.CTyped "int" None) else None
  | GoTypes.CTest => Some (GoTypes.CTyped "bool" None)
  | GoTypes.CTyped t _ => Some (GoTypes.CTyped t None)
  end.
Definition function_ok (p : pkg) (c : string) (f : Visitor.function) : bool :=
  match go_tree p c false (fn_result f), go_type_of p (fn_type f) with
  | Some t, Some go =>
      match GoTypes.check (genv_of p c) t with
      | Some k =>
          match variable_of k with
          | Some k' => match GoTypes.convert (genv_of p c) go k' with Some _ => true | None => false end
          | None => false
          end
      | None => false
      end
  | _, _ => false
  end.
(** A call of the method on a value whose members are those of [E]. *)
Definition call_method (p : pkg) (c : string) (f : Visitor.function) (E : env) : option value :=
  match go_run p c false (fn_result f) E 0, go_type_of p (fn_type f) with
  | Some v, Some go =>
      match GoTypes.eval_convert (genv_of p c) go v with
      | Some (GoTypes.GI z) => Some (VInt z)
      | Some (GoTypes.GB b) => Some (VBool b)
      | None => None
      end
  | _, _ => None
  end.
(** The methods for the functions of a type, struct.go.tmpl:45 and union.go.tmpl:64;
    choice.go.tmpl has none. *)
Definition method_of (p : pkg) (c : string) (n : string) : option Visitor.function :=
  let among := find (fun f => (Members.title (fn_name f) =? n)%string) in
  match get c (vp_choices p), get c (vp_structs p), get c (vp_unions p) with
  | Some _, _, _ => None
  | None, Some s, _ => among (s_functions s)
  | None, None, Some u => among (u_functions u)
  | None, None, None => None
  end.
Definition method_call (p : pkg) (c n : string) (E : env) : option value := match method_of p c n with Some f => call_method p c f E | None => None end.
(** A Go struct has no field and method of the same name.  The return types of functions
    of unions are not resolved (transform.go:662-675 is for structs): a type of the
    schema is an error of goType there.  Choice.BuildScope and Choice.Evaluate,
    choice.go:31-48 and 81-124, do not look at functions. *)
Definition builtin_ref (t : Visitor.tref) : bool := match t with Visitor.TRef b _ _ _ _ => b end.
Definition struct_ok (p : pkg) (s : struct_decl) : bool :=
  forallb (fun f => plain_ref (fn_type f) && function_ok p (s_name s) f) (s_functions s) && forallb (fun x => plain_ref (snd x)) (s_params s) && forallb (fun f => plain_ref (ti_ref (f_type f))) (s_fields s) &&
  distinctb (map Members.title ((map fst (s_params s) ++ map f_name (s_fields s)) ++ map fn_name (s_functions s))) && forallb (field_ok p (s_name s)) (s_fields s).
Definition choice_ok (p : pkg) (c : choice_decl) : bool :=
  forallb (fun x => plain_ref (snd x)) (c_params c) &&
  distinctb (map Members.title (map fst (c_params c) ++ map f_name (case_fields c ++ match c_default c with Some (_, Some f) => [f] | _ => [] end))) &&
  forallb (case_ok p (c_name c)) (c_cases c) && whole (case_ok p (c_name c)) (c_default c).
Definition union_ok (p : pkg) (u : union_decl) : bool :=
  forallb (fun f => builtin_ref (fn_type f) && function_ok p (u_name u) f) (u_functions u) && forallb (fun x => plain_ref (snd x)) (u_params u) &&
  distinctb (map Members.title ((map fst (u_params u) ++ map f_name (u_fields u)) ++ map fn_name (u_functions u))) && forallb (field_ok p (u_name u)) (u_fields u).
(** const.go.tmpl: a typed constant. *)
Definition const_ok (p : pkg) (n : string) (k : const_decl) : bool :=
  match const_value p n, go_type_of p (ti_ref (k_type k)) with
  | Some z, Some go => match GoTypes.int_kind (genv_of p "") go with Some g => GoTypes.representable g z | None => false end
  | _, _ => false
  end.
(** A constant of the package has a name of its own, and its value fits. *)
Definition item_fits (p : pkg) (c : string * (string * Z)) : bool :=
  match named_kind p (fst (snd c)) with Some (GoTypes.KInt g) => GoTypes.representable g (snd (snd c)) | _ => false end.
Definition code_ok (p : pkg) : bool :=
  distinctb (map fst (item_consts p) ++ map Members.title (map fst (type_symbols p))) && forallb (item_fits p) (item_consts p) &&
  none_of (vp_imports p) && none_of (vp_instantiated p) && negb (vp_name p =? "")%string &&
  distinctb (map Members.title (map fst (type_symbols p))) &&
  forallb (fun s => plain_ref (snd s)) (vp_subtypes p) && forallb (fun k => plain_ref (ti_ref (k_type (snd k))) && const_ok p (fst k) (snd k)) (vp_consts p) &&
  forallb (fun s => struct_ok p (snd s)) (vp_structs p) && forallb (fun c => choice_ok p (snd c)) (vp_choices p) &&
  forallb (fun u => union_ok p (snd u)) (vp_unions p).

(** The code for a text, if there is one that compiles. *)
Definition generate_code (names : list string) (s : list ascii) : option schema :=
  match parse_file (stream s) with
  | Some f => match visit_file f with Some p => if code_ok p then compile (go_meaning p) p names else None | None => None end
  | None => None
  end.
