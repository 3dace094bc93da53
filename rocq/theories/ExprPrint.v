(** How expressions become Go text: internal/generator/expression.go. *)

Require Import ZArith String List Bool SpecFloat.
From Verif Require Import Bits AstExpr AstTypes GoSyntax.
Import ListNotations.
Open Scope Z_scope.

(** ** Expressions after evaluation *)

(** What an identifier stands for, as IdentifierToGoString (lines 14-41) tells
    apart: a field, a parameter or a function of the compound type; an enum, a
    bitmask or a subtype, with the Go name that GoType returns; anything else. *)
Inductive ident := IMember (n : string) | IType (go : string) | IOther.

(** What is on the left of a dot (dotOperatorToGoString, lines 61-101): an enum
    type, with the Go name of the constant (the Go name of the original type and
    strcase.ToCamel of the item, which is not modelled) and whether the original
    type has another name; a bitmask type; a compound. *)
Inductive dot := DEnum (item : string) (cast : bool) | DMask (item : string) | DField (n : string).

(** ast.Expression after Evaluate, expression.go:35-86.  The last argument of every
    node has the results.  A node that has a ResultSymbol has also the Go type of
    the symbol (getSymbolType and GoType, lines 107-131), [None] if there is none
    and the code panics when it asks for it.  TypeReferences are those of builtin
    types. *)
Inductive aexpr :=
| AConst (r : result)                                (* a literal, or the name of a constant *)
| AIndexVar (r : result)                             (* @index *)
| AIdent (i : ident) (go : option string) (r : result)
| AParen (a : aexpr) (r : result)
| ACall (a : aexpr) (go : option string) (r : result)
| AElement (a i : aexpr) (r : result)                (* a[i] *)
| ADot (a : aexpr) (d : dot) (go : option (option string)) (r : result)
| AIsset (a b : aexpr) (r : result)
| ALengthof (a : aexpr) (r : result)
| AValueof (a : aexpr) (r : result)
| ANumbits (a : aexpr) (r : result)
| ASign (minus : bool) (a : aexpr) (r : result)
| ANot (a : aexpr) (r : result)
| ATilde (a : aexpr) (r : result)
| AArith (op : aop) (a b : aexpr) (r : result)
| ACompare (op : cop) (a b : aexpr) (r : result)
| ABitwise (op : bop) (a b : aexpr) (r : result)
| ALogic (both : bool) (a b : aexpr) (r : result)
| ATernary (c a b : aexpr) (r : result).

Definition res (e : aexpr) : result :=
  match e with
  | AConst r | AIndexVar r | AIdent _ _ r | AParen _ r | ACall _ _ r | AElement _ _ r | ADot _ _ _ r | AIsset _ _ r
  | ALengthof _ r | AValueof _ r | ANumbits _ r | ASign _ _ r | ANot _ r | ATilde _ r | AArith _ _ _ r | ACompare _ _ _ r
  | ABitwise _ _ _ r | ALogic _ _ _ r | ATernary _ _ _ r => r
  end.

(** ResultSymbol: not nil, and then its Go type. *)
Definition symbol (e : aexpr) : option (option string) :=
  match e with
  | AIdent _ go _ | ACall _ go _ => Some go
  | ADot _ _ go _ => go
  | _ => None
  end.

(** ** Text of values *)

(** fmt.Sprintf("%v") of an int64. *)
Definition int_text (z : Z) : list tok := if z <? 0 then [TOp Sub; TLit (LInt (- z))] else [TLit (LInt z)].

(** fmt.Sprintf("%f") of a float64: six decimals, rounded to nearest, ties to even
    (package strconv). *)
Definition micro (m e : Z) : Z :=
  if 0 <=? e then m * 2 ^ e * 1000000
  else let d := 2 ^ (- e) in
       let q := m * 1000000 / d in
       let r := m * 1000000 mod d in
       if (2 * r <? d) || ((2 * r =? d) && Z.even q) then q else q + 1.
Definition sign_text (negative : bool) (ts : list tok) : list tok := if negative then TOp Sub :: ts else ts.
Definition float_text (f : f64) : list tok :=
  match f with
  | S754_zero s => sign_text s [TLit (LDecimal 0)]
  | S754_infinity s => [TOp (if s then Sub else Add); TName "Inf"]
  | S754_nan => [TName "NaN"]
  | S754_finite s m e => sign_text s [TLit (LDecimal (micro (Zpos m) e))]
  end.

(** The FullyResolved case of ExpressionToGoString, lines 332-344. *)
Definition value_text (r : result) : list tok :=
  match r_type r with
  | TyInt => int_text (r_int r)
  | TyBool => [TLit (LBool (r_bool r))]
  | TyString => [TLit (LText (r_str r))]
  | TyFloat => float_text (r_float r)
  | _ => [TName "UNSUPPORTED_TYPE"]
  end.

(** ** Text of operators *)

Definition arith_token (op : aop) : gop :=
  match op with Plus => Add | Minus => Sub | Multiply => Mul | Divide => Div | Modulo => Rem end.
Definition compare_token (op : cop) : gop :=
  match op with Lt => LtE | Le => LeE | Gt => GtE | Ge => GeE | Eq => EqE | Ne => NeE end.
Definition bitwise_token (op : bop) : gop :=
  match op with LShift => Shl | RShift => Shr | And => BAnd | Or => BOr | Xor => BXor end.
Definition logic_token (both : bool) : gop := if both then LAnd else LOr.

(** fmt.Sprintf("%s(%s)"): a conversion. *)
Definition conversion (t : string) (ts : list tok) : list tok := [TName t] ++ [TLeft] ++ ts ++ [TRight].

(** The decision about one operand in twoOperatorEqualTypesToGoString, lines
    190-238: whether it is converted to the Go type [goal] of the result.  [None]:
    a panic. *)
Definition needs_cast (goal : string) (r : result) (operand : aexpr) : option bool :=
  match symbol operand with
  | Some None => None
  | Some (Some go) => Some (negb (go =? goal)%string)
  | None =>
      if negb (ety_eqb (r_type (res operand)) (r_type r)) then
        (* the Go type of the operand stays "", which differs from [goal] *)
        Some true
      else match r_native (res operand) with
           | None => Some true
           | Some t => match GoType t with Some go => Some (negb (go =? goal)%string) | None => None end
           end
  end.

Definition obind {A B} (a : option A) (f : A -> option B) : option B := match a with Some x => f x | None => None end.

(** twoOperatorEqualTypesToGoString, lines 133-255, after the operands have been
    printed. *)
Definition equal_types_text (op : gop) (r : result) (a b : aexpr) (ta tb : list tok) : option (list tok) :=
  let join x y := x ++ [TOp op] ++ y in
  if (ety_eqb (r_type r) TyInt || ety_eqb (r_type r) TyFloat) then
    match r_native r with
    | None => Some (join ta tb)
    | Some native =>
        obind (GoType native) (fun goal =>
        obind (needs_cast goal r a) (fun ca =>
        obind (needs_cast goal r b) (fun cb =>
          Some (join (if (ca : bool) then conversion goal ta else ta) (if (cb : bool) then conversion goal tb else tb)))))
    end
  else Some (join ta tb).

(** twoOperatorToGoString, lines 257-297: the left operand of a shift is converted
    if it is a constant integer. *)
Definition is_shift (op : bop) : bool := match op with LShift | RShift => true | _ => false end.
Definition bitwise_text (op : bop) (r : result) (a : aexpr) (ta tb : list tok) : option (list tok) :=
  let join x := x ++ [TOp (bitwise_token op)] ++ tb in
  if is_shift op && ety_eqb (r_type (res a)) TyInt && r_full (res a) then
    match r_native r with
    | None => None
    | Some native => obind (GoType native) (fun goal => Some (join (conversion goal ta)))
    end
  else Some (join ta).

(** IdentifierToGoString. *)
Definition ident_text (i : ident) : list tok :=
  match i with
  | IMember n => [TName "v"; TDot; TName n]
  | IType go => [TName go]
  | IOther => [TName "UNSUPPORTED_TYPE"]
  end.

(** dotOperatorToGoString.  For a bitmask the left text is the name of its type and
    the item follows without a space. *)
Definition dot_text (d : dot) (left : list tok) : list tok :=
  match d with
  | DEnum item cast => if cast then left ++ [TLeft] ++ [TName item] ++ [TRight] else [TName item]
  | DMask item => match left with [TName t] => [TName (t ++ item)] | _ => left ++ [TName item] end
  | DField n => left ++ [TDot; TName n]
  end.

(** ExpressionToGoString, lines 331-421.  [None]: a panic. *)
Fixpoint print (e : aexpr) : option (list tok) :=
  if r_full (res e) then Some (value_text (res e))
  else match e with
  | AConst _ => Some [TName "UNSUPPORTED"]
  | AIndexVar _ => Some [TName "index"]
  | AIdent i _ _ => Some (ident_text i)
  | AParen a _ => obind (print a) (fun ta => Some ([TLeft] ++ ta ++ [TRight]))
  | ACall a _ _ => obind (print a) (fun ta => Some (ta ++ [TLeft; TRight]))
  | AElement a i _ => obind (print a) (fun ta => obind (print i) (fun ti => Some (ta ++ [TOpen] ++ ti ++ [TClose])))
  | ADot a d _ _ => obind (print a) (fun ta => Some (dot_text d ta))
  | AIsset a b _ =>
      obind (print a) (fun ta => obind (print b) (fun tb => Some (ta ++ [TOp BAnd] ++ tb ++ [TOp NeE; TLit (LInt 0)])))
  | ALengthof a _ =>
      obind (print a) (fun ta => Some ([TLeft; TName "int64"; TRight; TLeft] ++ ([TName "len"] ++ [TLeft] ++ ta ++ [TRight]) ++ [TRight]))
  | AValueof a _ => print a
  | ANumbits a _ => obind (print a) (fun ta => Some (conversion "ztype.NumBits" (conversion "uint64" ta)))
  | ASign _ a _ =>
      (* twoOperatorEqualTypesToGoString prints Operand2, which is nil *)
      None
  | ANot a _ => obind (print a) (fun ta => Some (TBang :: ta))
  | ATilde _ _ => Some [TName "UNSUPPORTED"]
  | AArith op a b r =>
      obind (print a) (fun ta => obind (print b) (fun tb => equal_types_text (arith_token op) r a b ta tb))
  | ACompare op a b r =>
      obind (print a) (fun ta => obind (print b) (fun tb => equal_types_text (compare_token op) r a b ta tb))
  | ABitwise op a b r =>
      obind (print a) (fun ta => obind (print b) (fun tb => bitwise_text op r a ta tb))
  | ALogic both a b _ =>
      obind (print a) (fun ta => obind (print b) (fun tb => Some (ta ++ [TOp (logic_token both)] ++ tb)))
  | ATernary c a b r =>
      (* lines 299-317: statements *)
      obind (print c) (fun tc => obind (print a) (fun ta => obind (print b) (fun tb =>
        let cast ts := if ety_eqb (r_type r) TyInt then conversion "int" ts else ts in
        Some (cast tb ++ [TOther "if"] ++ tc ++ [TOther "{ retVal ="] ++ cast ta ++ [TOther "}"]))))
  end.
