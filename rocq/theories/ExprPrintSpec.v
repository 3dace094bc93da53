(** What the Go text of an expression should say. *)

Require Import ZArith String List Bool SpecFloat.
From Verif Require Import Bits AstExpr AstTypes GoSyntax ExprPrint.
Import ListNotations.
Open Scope Z_scope.

(** ** The tree that is meant *)

(** A constant value; a float is given with six decimals. *)
Definition value_tree (r : result) : gtree :=
  match r_type r with
  | TyInt => GLit (LInt (r_int r))
  | TyBool => GLit (LBool (r_bool r))
  | TyString => GLit (LText (r_str r))
  | TyFloat =>
      match r_float r with
      | S754_finite s m e => GLit (LDecimal (if s then - micro (Zpos m) e else micro (Zpos m) e))
      | _ => GLit (LDecimal 0)
      end
  | _ => GName "UNSUPPORTED_TYPE"
  end.

(** The operators of schemas in Go. *)
Definition arith_op (op : aop) : gop :=
  match op with Plus => Add | Minus => Sub | Multiply => Mul | Divide => Div | Modulo => Rem end.
Definition relation_op (op : cop) : gop :=
  match op with Lt => LtE | Le => LeE | Gt => GtE | Ge => GeE | Eq => EqE | Ne => NeE end.
Definition bits_op (op : bop) : gop :=
  match op with LShift => Shl | RShift => Shr | And => BAnd | Or => BOr | Xor => BXor end.
Definition logic_op (both : bool) : gop := if both then LAnd else LOr.
Definition shifts (op : bop) : bool := match op with LShift | RShift => true | _ => false end.

(** The operators and operands of the expression in the schema; parentheses and the
    operator valueof are transparent, isset(a, b) means (a & b) != 0. *)
Fixpoint source (e : aexpr) : gtree :=
  if r_full (res e) then value_tree (res e)
  else match e with
  | AConst _ | ASign _ _ _ | ATilde _ _ | ATernary _ _ _ _ => GName "UNSUPPORTED"
  | AIndexVar _ => GName "index"
  | AIdent (IMember n) _ _ => GSelect (GName "v") n
  | AIdent (IType go) _ _ => GName go
  | AIdent IOther _ _ => GName "UNSUPPORTED_TYPE"
  | AParen a _ | AValueof a _ => source a
  | ACall a _ _ => GInvoke (source a)
  | AElement a i _ => GIndex (source a) (source i)
  | ADot _ (DEnum item _) _ _ => GName item
  | ADot a (DMask item) _ _ => match source a with GName t => GName (t ++ item) | _ => GName item end
  | ADot a (DField n) _ _ => GSelect (source a) n
  | AIsset a b _ => GBin NeE (GBin BAnd (source a) (source b)) (GLit (LInt 0))
  | ALengthof a _ => GCall (GName "len") (source a)
  | ANumbits a _ => GCall (GName "ztype.NumBits") (source a)
  | ANot a _ => GNot (source a)
  | AArith op a b _ => GBin (arith_op op) (source a) (source b)
  | ACompare op a b _ => GBin (relation_op op) (source a) (source b)
  | ABitwise op a b _ => GBin (bits_op op) (source a) (source b)
  | ALogic both a b _ => GBin (logic_op both) (source a) (source b)
  end.

(** A Go tree without parentheses and conversions.  The functions that generated
    expressions call with an argument are len and ztype.NumBits. *)
Fixpoint strip (t : gtree) : gtree :=
  match t with
  | GName n => GName n
  | GLit l => GLit l
  | GParen a => strip a
  | GCall (GName f) a => if ((f =? "len") || (f =? "ztype.NumBits"))%string then GCall (GName f) (strip a) else strip a
  | GCall _ a => strip a
  | GInvoke f => GInvoke (strip f)
  | GIndex a i => GIndex (strip a) (strip i)
  | GSelect a n => GSelect (strip a) n
  | GNot a => GNot (strip a)
  | GNeg (GLit (LInt z)) => GLit (LInt (- z))
  | GNeg (GLit (LDecimal z)) => GLit (LDecimal (- z))
  | GNeg a => GNeg (strip a)
  | GBin o a b => GBin o (strip a) (strip b)
  end.

(** ** Expressions that can be printed *)

(** Constants are numbers, bools or strings, floats are finite; a sign in front of
    something that is not constant, the operator ~ and conditions do not occur; the
    Go types of operands are known; the name of a type is not that of a function; what is called or selected from is a name, a
    field, a call or an element. *)
Definition known (e : aexpr) : Prop :=
  match symbol e with
  | Some go => go <> None
  | None => match r_native (res e) with Some t => GoType t <> None | None => True end
  end.
Definition finite (r : result) : Prop :=
  match r_type r with
  | TyInt | TyBool | TyString => True
  | TyFloat => match r_float r with S754_zero _ | S754_finite _ _ _ => True | _ => False end
  | _ => False
  end.
Definition place (e : aexpr) : Prop :=
  r_full (res e) = false /\
  match e with
  | AIndexVar _ | AIdent _ _ _ | AParen _ _ | ACall _ _ _ | AElement _ _ _ => True
  | ADot _ (DField _) _ _ => True
  | _ => False
  end.
Fixpoint printable (e : aexpr) : Prop :=
  if r_full (res e) then finite (res e)
  else match e with
  | AIndexVar _ => True
  | AIdent i _ _ => i <> IOther
  | AParen a _ | AValueof a _ | ALengthof a _ | ANumbits a _ | ANot a _ => printable a
  | ACall a _ _ => printable a /\ place a
  | AElement a i _ => printable a /\ place a /\ printable i
  | ADot a (DField _) _ _ => printable a /\ place a
  | ADot a _ _ _ => match a with
                    | AIdent (IType t) _ r => r_full r = false /\ ((t =? "len") || (t =? "ztype.NumBits"))%string = false
                    | _ => False
                    end
  | AIsset a b _ | ALogic _ a b _ => printable a /\ printable b
  | AArith _ a b r | ACompare _ a b r =>
      printable a /\ printable b /\ known a /\ known b /\ match r_native r with Some t => GoType t <> None | None => True end
  | ABitwise op a b r =>
      printable a /\ printable b /\
      (shifts op = true -> r_full (res a) = true -> match r_native r with Some t => GoType t <> None | None => False end)
  | AConst _ | ASign _ _ _ | ATilde _ _ | ATernary _ _ _ _ => False
  end.

(** ** Precedence *)

(** The Go type of an operand; [None] for a constant without a type. *)
Definition operand_type (r : result) (e : aexpr) : option string :=
  match symbol e with
  | Some go => go
  | None => if ety_eqb (r_type (res e)) (r_type r) then match r_native (res e) with Some t => GoType t | None => None end else None
  end.
(** The operands of arithmetic are converted to the Go type of the result if they
    do not have it.  (Comparisons have the result type bool.) *)
Definition converted (r : result) (e : aexpr) : bool :=
  (ety_eqb (r_type r) TyInt || ety_eqb (r_type r) TyFloat) &&
  match r_native r with
  | None => false
  | Some t =>
      match GoType t, operand_type r e with
      | Some goal, Some go => negb (go =? goal)%string
      | _, _ => true
      end
  end.

(** How strongly the text of an expression binds in Go: 7 for an operand, 6 for one
    with a sign, otherwise the precedence of its last operator. *)
Definition negative (r : result) : bool :=
  match r_type r with
  | TyInt => r_int r <? 0
  | TyFloat => match r_float r with S754_zero s | S754_infinity s | S754_finite s _ _ => s | S754_nan => false end
  | _ => false
  end.
Fixpoint strength (e : aexpr) : nat :=
  if r_full (res e) then (if negative (res e) then 6 else 7)
  else match e with
  | AIsset _ _ _ => prec NeE
  | AValueof a _ => strength a
  | ANot _ _ => 6
  | AArith op _ _ _ => prec (arith_op op)
  | ACompare op _ _ _ => prec (relation_op op)
  | ABitwise op _ _ _ => prec (bits_op op)
  | ALogic both _ _ _ => prec (logic_op both)
  | _ => 7
  end.

(** Everywhere in the expression, the operands bind in Go as strongly as needed
    where they are: the left one at least like its operator, the right one more
    strongly, the operand of ! at least like !. *)
Fixpoint agree (e : aexpr) : Prop :=
  if r_full (res e) then True
  else
    let operands (o : gop) (a b : aexpr) (freea freeb : bool) :=
      (freea = true \/ (prec o <= strength a)%nat) /\ (freeb = true \/ (prec o < strength b)%nat) in
    match e with
    | AParen a _ | AValueof a _ | ALengthof a _ | ANumbits a _ | ACall a _ _ | ADot a _ _ _ => agree a
    | AElement a i _ => agree a /\ agree i
    | AIsset a b _ => agree a /\ agree b /\ operands BAnd a b false false
    | ANot a _ => agree a /\ (6 <= strength a)%nat
    | AArith op a b r => agree a /\ agree b /\ operands (arith_op op) a b (converted r a) (converted r b)
    | ACompare op a b r => agree a /\ agree b /\ operands (relation_op op) a b (converted r a) (converted r b)
    | ABitwise op a b r =>
        agree a /\ agree b /\
        operands (bits_op op) a b (shifts op && ety_eqb (r_type (res a)) TyInt && r_full (res a)) false
    | ALogic both a b _ => agree a /\ agree b /\ operands (logic_op both) a b false false
    | ATernary c a b _ => agree c /\ agree a /\ agree b
    | _ => True
    end.

(** ** Where the two languages differ *)

(** The precedence in zserio (internal/parser/ZserioParser.g4:349-373): the order of
    the alternatives, from weak to strong; all associate to the left. *)
Definition zserio_prec (o : gop) : nat :=
  match o with
  | LOr => 1 | LAnd => 2 | BOr => 3 | BXor => 4 | BAnd => 5
  | EqE | NeE => 6 | LtE | LeE | GtE | GeE => 7 | Shl | Shr => 8 | Add | Sub => 9 | Mul | Div | Rem => 10
  end.
Inductive side := OnLeft | OnRight.
(** Without parentheses, an expression with operator [o] can be an operand of [p] in
    a schema; its text is an operand of [p] in Go. *)
Definition written (p : gop) (s : side) (o : gop) : Prop :=
  match s with OnLeft => (zserio_prec p <= zserio_prec o)%nat | OnRight => (zserio_prec p < zserio_prec o)%nat end.
Definition understood (p : gop) (s : side) (o : gop) : Prop :=
  match s with OnLeft => (prec p <= prec o)%nat | OnRight => (prec p < prec o)%nat end.

(** The combinations that Go reads differently: sums in shifts and in &, products on
    the right of shifts, products, shifts on the right of &, sums on the right of ^
    and |, ^ on the right of |, and comparisons as operands of &, ^, | and on the
    right of == and !=. *)
Definition is_sum (o : gop) := match o with Add | Sub => true | _ => false end.
Definition is_product (o : gop) := match o with Mul | Div | Rem => true | _ => false end.
Definition is_shift_op (o : gop) := match o with Shl | Shr => true | _ => false end.
Definition is_comparison (o : gop) := match o with EqE | NeE | LtE | LeE | GtE | GeE => true | _ => false end.
Definition misread (p : gop) (s : side) (o : gop) : bool :=
  match p, s with
  | (Shl | Shr), OnLeft => is_sum o
  | (Shl | Shr), OnRight => is_sum o || is_product o
  | BAnd, OnLeft => is_sum o || is_comparison o
  | BAnd, OnRight => is_sum o || is_product o || is_shift_op o || is_comparison o
  | BXor, OnLeft => is_comparison o
  | BXor, OnRight => is_sum o || is_comparison o
  | BOr, OnLeft => is_comparison o
  | BOr, OnRight => is_sum o || is_comparison o || match o with BXor => true | _ => false end
  | (EqE | NeE), OnRight => match o with LtE | LeE | GtE | GeE => true | _ => false end
  | _, _ => false
  end.

(** ** Expressions that crash the generator *)

(** The sub-expressions whose text is asked for when the text of [e] is: [e] itself
    and, below operators that are not constant, those of the operands. *)
Inductive visited : aexpr -> aexpr -> Prop :=
| V_self : forall e, visited e e
| V_paren : forall x a r, r_full r = false -> visited x a -> visited x (AParen a r)
| V_call : forall x a go r, r_full r = false -> visited x a -> visited x (ACall a go r)
| V_element : forall x a i r, r_full r = false -> visited x a \/ visited x i -> visited x (AElement a i r)
| V_dot : forall x a d go r, r_full r = false -> visited x a -> visited x (ADot a d go r)
| V_isset : forall x a b r, r_full r = false -> visited x a \/ visited x b -> visited x (AIsset a b r)
| V_lengthof : forall x a r, r_full r = false -> visited x a -> visited x (ALengthof a r)
| V_valueof : forall x a r, r_full r = false -> visited x a -> visited x (AValueof a r)
| V_numbits : forall x a r, r_full r = false -> visited x a -> visited x (ANumbits a r)
| V_not : forall x a r, r_full r = false -> visited x a -> visited x (ANot a r)
| V_arith : forall x op a b r, r_full r = false -> visited x a \/ visited x b -> visited x (AArith op a b r)
| V_compare : forall x op a b r, r_full r = false -> visited x a \/ visited x b -> visited x (ACompare op a b r)
| V_bitwise : forall x op a b r, r_full r = false -> visited x a \/ visited x b -> visited x (ABitwise op a b r)
| V_logic : forall x both a b r, r_full r = false -> visited x a \/ visited x b -> visited x (ALogic both a b r)
| V_ternary : forall x c a b r, r_full r = false -> visited x c \/ visited x a \/ visited x b -> visited x (ATernary c a b r).

(** A sign, a sum whose type or operands have no Go type, and a shift of a constant
    without a Go type. *)
Definition typeless (t : option tref) : Prop := match t with Some t => GoType t = None | None => False end.
Definition no_type (r : result) (e : aexpr) : Prop :=
  match symbol e with
  | Some go => go = None
  | None => r_type (res e) = r_type r /\ typeless (r_native (res e))
  end.
Definition crash (e : aexpr) : Prop :=
  r_full (res e) = false /\
  match e with
  | ASign _ _ _ => True
  | AArith _ a b r | ACompare _ a b r =>
      (r_type r = TyInt \/ r_type r = TyFloat) /\
      (typeless (r_native r) \/ (r_native r <> None /\ (no_type r a \/ no_type r b)))
  | ABitwise (LShift | RShift) a _ r =>
      r_type (res a) = TyInt /\ r_full (res a) = true /\ (r_native r = None \/ typeless (r_native r))
  | _ => False
  end.

(** What is left of a dot is the name of a type if what is right of it is an item of
    an enum or a bitmask. *)
Definition items_of_types (e : aexpr) : Prop :=
  forall a d go r, visited (ADot a d go r) e ->
  match d with DField _ => True | _ => exists i g r', a = AIdent i g r' /\ r_full r' = false end.

(** ** Expressions of the schema language *)

(** The operator of an expression without brackets around it. *)
Definition operator (e : aexpr) : option gop :=
  if r_full (res e) then None
  else match e with
  | AArith op _ _ _ => Some (arith_op op)
  | ACompare op _ _ _ => Some (relation_op op)
  | ABitwise op _ _ _ => Some (bits_op op)
  | ALogic both _ _ _ => Some (logic_op both)
  | _ => None
  end.
(** Whether an operand is put in the brackets of a conversion. *)
Definition enclosed (p : aexpr) (s : side) : bool :=
  match p, s with
  | (AArith _ a _ r | ACompare _ a _ r), OnLeft => converted r a
  | (AArith _ _ b r | ACompare _ _ b r), OnRight => converted r b
  | ABitwise op a _ _, OnLeft => shifts op && ety_eqb (r_type (res a)) TyInt && r_full (res a)
  | _, _ => false
  end.
Definition operand (p : aexpr) (s : side) : option aexpr :=
  match p, s with
  | (AArith _ a _ _ | ACompare _ a _ _ | ABitwise _ a _ _ | ALogic _ a _ _), OnLeft => Some a
  | (AArith _ _ b _ | ACompare _ _ b _ | ABitwise _ _ b _ | ALogic _ _ b _), OnRight => Some b
  | _, _ => None
  end.
(** What the grammar of zserio makes of a text: operands of operators bind as
    strongly as needed, that of ! has no operator. *)
Definition grammatical (e : aexpr) : Prop :=
  (forall p s x o o', visited p e -> operator p = Some o -> operand p s = Some x -> operator x = Some o' -> written o s o') /\
  (forall x r, visited (ANot x r) e -> r_full r = false -> operator x = None).
(** isset and valueof are printed without brackets. *)
Definition bracketless (e : aexpr) : Prop := r_full (res e) = false /\ match e with AIsset _ _ _ | AValueof _ _ => True | _ => False end.

(** ** Float constants *)

Require Import QArith Qabs Qpower.
Definition float_value (f : f64) : Q :=
  match f with S754_finite s m e => inject_Z (if s then Zneg m else Zpos m) * (2 # 1) ^ e | _ => 0 end.
