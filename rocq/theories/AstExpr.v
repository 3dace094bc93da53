(** Evaluation of schema expressions: internal/ast/expression.go,
    internal/ast/mixing_native_types.go, internal/ast/enum.go,
    internal/ast/bitmask.go and internal/ast/const.go. *)

Require Import ZArith List Bool String SpecFloat.
From Verif Require Import Bits.
Import ListNotations.
Open Scope Z_scope.

(** ** Results *)

(** ExpressionType, expression.go:13-24.  [TyNone] is the empty string. *)
Inductive ety := TyNone | TyInt | TyFloat | TyString | TyBool | TyBitmask | TyEnum | TyCompound.

Definition ety_eqb (a b : ety) : bool :=
  match a, b with
  | TyNone, TyNone | TyInt, TyInt | TyFloat, TyFloat | TyString, TyString | TyBool, TyBool
  | TyBitmask, TyBitmask | TyEnum, TyEnum | TyCompound, TyCompound => true
  | _, _ => false
  end.

(** The part of ast.TypeReference that matters here (type_reference.go:3-20): the
    name, the width of a bit field (0: none), and whether it has a
    LengthExpression.  Package, IsBuiltin and the arguments are left out. *)
Record tref := mkT { t_name : string; t_bits : Z; t_dynamic : bool }.
Definition builtin_type (n : string) : tref := mkT n 0 false.

(** float64: the standard library's executable IEEE 754 model with 53 bits of
    precision. *)
Definition f64 := spec_float.
Definition f64_zero : f64 := S754_zero false.
Definition f64_of_int (z : Z) : f64 := binary_normalize 53 1024 z 0 false.
Definition f64_one : f64 := f64_of_int 1.

(** The result fields of ast.Expression, expression.go:35-86.  ResultSymbol is
    left out: the evaluator uses it for field access and calls only. *)
Record result := mkRes {
  r_type : ety;
  r_int : Z;
  r_float : f64;
  r_str : string;
  r_bool : bool;
  r_native : option tref;
  r_full : bool
}.

(** A new ast.Expression whose FullyResolved is [full]. *)
Definition blank (full : bool) : result := mkRes TyNone 0 f64_zero "" false None full.

(** [SPanic]: a Go run-time panic.  [SNoFuel]: the model's bound on the recursion
    was reached, see [eval_root]. *)
Inductive status := SOk | SErr | SPanic | SNoFuel.

(** ** Types of arithmetic, mixing_native_types.go *)

(** zserioIntegerTypeRank, lines 5-25. *)
Definition type_rank (n : string) : option Z :=
  if (n =? "int8")%string then Some 8 else if (n =? "int16")%string then Some 16
  else if (n =? "int32")%string then Some 32 else if (n =? "int64")%string then Some 64
  else if (n =? "uint8")%string then Some 8 else if (n =? "uint16")%string then Some 16
  else if (n =? "uint32")%string then Some 32 else if (n =? "uint64")%string then Some 64
  else if (n =? "varint")%string then Some 64 else if (n =? "varint16")%string then Some 15
  else if (n =? "varint32")%string then Some 29 else if (n =? "varint64")%string then Some 57
  else if (n =? "varuint")%string then Some 64 else if (n =? "varsize")%string then Some 31
  else if (n =? "varuint16")%string then Some 15 else if (n =? "varuint32")%string then Some 29
  else if (n =? "varuint64")%string then Some 64 else None.

(** zserioSignedToUnsigned, lines 27-39. *)
Definition to_unsigned (n : string) : option string :=
  if (n =? "int8")%string then Some "uint8"%string else if (n =? "int16")%string then Some "uint16"%string
  else if (n =? "int32")%string then Some "uint32"%string else if (n =? "int64")%string then Some "uint64"%string
  else if (n =? "int")%string then Some "bit"%string
  else if (n =? "varint")%string then Some "varuint"%string else if (n =? "varint16")%string then Some "varuint16"%string
  else if (n =? "varint32")%string then Some "varuint32"%string else if (n =? "varint64")%string then Some "varuint64"%string
  else None.
Definition is_signed (n : string) : bool := match to_unsigned n with Some _ => true | None => false end.

(** compareNativeTypeReferences, lines 66-77. *)
Definition same_native (a b : option tref) : bool :=
  match a, b with
  | None, None => true
  | Some x, Some y => (t_name x =? t_name y)%string && (t_bits x =? t_bits y) && negb (t_dynamic x) && negb (t_dynamic y)
  | _, _ => false
  end.

(** evaluateMixingFloatTypes, lines 79-106.  The inner option: nil; the outer: an
    error. *)
Definition mix_float (a b : option tref) : option (option tref) :=
  if same_native a b then Some a
  else match a, b with
  | None, _ => Some b
  | _, None => Some a
  | Some x, Some y =>
      let is n := ((t_name x =? n) || (t_name y =? n))%string in
      if is "float64"%string then Some (Some (builtin_type "float64"))
      else if is "float32"%string then Some (Some (builtin_type "float32"))
      else if is "float16"%string then Some (Some (builtin_type "float16"))
      else None
  end.

(** getIntegerTypeRank, lines 108-121. *)
Definition rank_of (t : tref) : option Z :=
  if t_dynamic t then Some 64
  else if negb (t_bits t =? 0) then Some (t_bits t)
  else type_rank (t_name t).

(** evaluateMixingIntegerTypes, lines 123-176. *)
Definition mix_int (a b : option tref) : option (option tref) :=
  if same_native a b then Some a
  else match a, b with
  | None, _ => Some b
  | _, None => Some a
  | Some x, Some y =>
      let signed := is_signed (t_name x) && is_signed (t_name y) in
      match rank_of x, rank_of y with
      | Some rx, Some ry =>
          let '(t, s) := if ry <=? rx then (x, is_signed (t_name x)) else (y, is_signed (t_name y)) in
          if Bool.eqb s signed then Some (Some t)
          else match to_unsigned (t_name t) with
               | Some n => Some (Some (mkT n (t_bits t) (t_dynamic t)))
               | None => None
               end
      | _, _ => None
      end
  end.

(** DetermineArithmeticOperationResultType, lines 41-64. *)
Definition arithmetic_type (a b : result) : option (ety * option tref) :=
  if ety_eqb (r_type a) (r_type b) && same_native (r_native a) (r_native b) then Some (r_type a, r_native a)
  else if ety_eqb (r_type a) TyFloat || ety_eqb (r_type b) TyFloat then
    match mix_float (r_native a) (r_native b) with Some t => Some (TyFloat, t) | None => None end
  else if negb (ety_eqb (r_type a) TyInt) || negb (ety_eqb (r_type b) TyInt) then None
  else match mix_int (r_native a) (r_native b) with Some t => Some (TyInt, t) | None => None end.

(** ** Operators *)

Inductive aop := Plus | Minus | Multiply | Divide | Modulo.
Inductive bop := LShift | RShift | And | Or | Xor.
Inductive cop := Lt | Le | Gt | Ge | Eq | Ne.

Definition int_type (t : ety) : bool := ety_eqb t TyInt || ety_eqb t TyBitmask.

(** Each operator gets the results of its operands, which have been evaluated
    before, and [full]: whether all of them are fully resolved.  It returns the
    fields of the expression also with an error, as the code leaves them. *)

(** evaluateValueOfOperator, lines 204-216. *)
Definition eval_valueof (full : bool) (a : result) : result * status :=
  if ety_eqb (r_type a) TyEnum || ety_eqb (r_type a) TyBitmask then
    (mkRes TyInt (r_int a) f64_zero "" false None full, SOk)
  else (blank full, SErr).

(** math/bits.Len64 of the value as uint64. *)
Definition len64 (z : Z) : Z := if u64 z =? 0 then 0 else Z.log2 (u64 z) + 1.

(** evaluateNumBitsOperator, lines 218-229. *)
Definition eval_numbits (full : bool) (a : result) : result * status :=
  if ety_eqb (r_type a) TyInt then (mkRes TyInt (len64 (r_int a)) f64_zero "" false None full, SOk)
  else (blank full, SErr).

(** evaluateIsSetOperator, lines 413-427. *)
Definition eval_isset (full : bool) (a b : result) : result * status :=
  if ety_eqb (r_type a) TyBitmask && ety_eqb (r_type b) TyBitmask then
    (mkRes TyBool 0 f64_zero "" (negb (Z.land (r_int a) (r_int b) =? 0)) None full, SOk)
  else (blank full, SErr).

(** evaluateParenthesizedExpression, lines 429-440: ResultFloatValue is not
    copied. *)
Definition eval_paren (full : bool) (a : result) : result * status :=
  (mkRes (r_type a) (r_int a) f64_zero (r_str a) (r_bool a) (r_native a) full, SOk).

(** evaluateUnaryArithmeticExpression, lines 442-462: ResultFloatValue is not
    set. *)
Definition eval_unary (minus : bool) (full : bool) (a : result) : result * status :=
  if ety_eqb (r_type a) TyInt then
    (mkRes TyInt (if minus then i64 (- r_int a) else r_int a) f64_zero "" false (r_native a) full, SOk)
  else if ety_eqb (r_type a) TyFloat then (mkRes TyFloat 0 f64_zero "" false (r_native a) full, SOk)
  else (blank full, SErr).

(** The integer operators of evaluateArithmeticExpression, lines 508-521.  Go's
    division truncates and wraps for the smallest integer by -1; dividing by 0
    panics ([None]). *)
Definition int_arith (op : aop) (x y : Z) : option Z :=
  match op with
  | Plus => Some (i64 (x + y))
  | Minus => Some (i64 (x - y))
  | Multiply => Some (i64 (x * y))
  | Divide => if y =? 0 then None else Some (i64 (Z.quot x y))
  | Modulo => if y =? 0 then None else Some (Z.rem x y)
  end.

(** The float operators, lines 545-556; there is no modulo. *)
Definition float_arith (op : aop) (x y : f64) : option f64 :=
  match op with
  | Plus => Some (SFadd 53 1024 x y)
  | Minus => Some (SFsub 53 1024 x y)
  | Multiply => Some (SFmul 53 1024 x y)
  | Divide => Some (SFdiv 53 1024 x y)
  | Modulo => None
  end.

Definition as_float (r : result) : f64 := if ety_eqb (r_type r) TyInt then f64_of_int (r_int r) else r_float r.

(** evaluateArithmeticExpression with two operands, lines 464-560.  Operands that
    are not fully resolved count as 1. *)
Definition eval_arith (op : aop) (full : bool) (a b : result) : result * status :=
  let number t := ety_eqb t TyInt || ety_eqb t TyFloat in
  if ety_eqb (r_type a) TyString && ety_eqb (r_type b) TyString then
    match op with
    | Plus => (mkRes TyString 0 f64_zero (r_str a ++ r_str b) false None full, SOk)
    | _ => (blank full, SErr)
    end
  else if negb (number (r_type a) && number (r_type b)) then (blank full, SErr)
  else match arithmetic_type a b with
  | None => (blank full, SErr)
  | Some (ty, native) =>
      let resolved := r_full a && r_full b in
      if ety_eqb (r_type a) TyInt && ety_eqb (r_type b) TyInt then
        let '(x, y) := if resolved then (r_int a, r_int b) else (1, 1) in
        let res z := mkRes ty z f64_zero "" false native (full && resolved) in
        match int_arith op x y with
        | Some z => (res z, SOk)
        | None => (res 0, SPanic)
        end
      else
        let '(x, y) := if resolved then (as_float a, as_float b) else (f64_one, f64_one) in
        let res z := mkRes ty 0 z "" false native (full && resolved) in
        match float_arith op x y with
        | Some z => (res z, SOk)
        | None => (res f64_zero, SErr)
        end
  end.

(** evaluateLogicalNegation, lines 562-572. *)
Definition eval_not (full : bool) (a : result) : result * status :=
  if ety_eqb (r_type a) TyBool then (mkRes TyBool 0 f64_zero "" (negb (r_bool a)) None full, SOk)
  else (blank full, SErr).

(** evaluateLogicalExpression, lines 574-594. *)
Definition eval_logic (both : bool) (full : bool) (a b : result) : result * status :=
  if ety_eqb (r_type a) TyBool && ety_eqb (r_type b) TyBool then
    (mkRes TyBool 0 f64_zero "" (if both then r_bool a && r_bool b else r_bool a || r_bool b) None full, SOk)
  else (blank full, SErr).

Definition int_compare (op : cop) (x y : Z) : bool :=
  match op with
  | Lt => x <? y | Le => x <=? y | Gt => y <? x | Ge => y <=? x | Eq => x =? y | Ne => negb (x =? y)
  end.
Definition float_compare (op : cop) (x y : f64) : option bool :=
  match op with
  | Lt => Some (SFltb x y) | Le => Some (SFleb x y) | Gt => Some (SFltb y x) | Ge => Some (SFleb y x)
  | Eq | Ne => None
  end.
Definition string_compare (op : cop) (x y : string) : option bool :=
  match op with Eq => Some (x =? y)%string | Ne => Some (negb (x =? y)%string) | _ => None end.

(** evaluateComparisonExpression, lines 596-651.  The type is set before an
    unsupported operator is found; if the first operand is neither a number, a
    bitmask nor a string, the result stays false. *)
Definition eval_compare (op : cop) (full : bool) (a b : result) : result * status :=
  let mixed x y := ety_eqb (r_type a) x && ety_eqb (r_type b) y in
  if negb (ety_eqb (r_type a) (r_type b)) && negb (mixed TyEnum TyInt) && negb (mixed TyInt TyEnum)
     && negb (mixed TyInt TyBitmask) && negb (mixed TyBitmask TyInt) then (blank full, SErr)
  else
    let res v := mkRes TyBool 0 f64_zero "" v None full in
    let finish o := match o with Some v => (res v, SOk) | None => (res false, SErr) end in
    if int_type (r_type a) then finish (Some (int_compare op (r_int a) (r_int b)))
    else if ety_eqb (r_type a) TyFloat then finish (float_compare op (r_float a) (r_float b))
    else if ety_eqb (r_type a) TyString then finish (string_compare op (r_str a) (r_str b))
    else finish (Some false).

(** evaluateTernaryExpression, lines 653-672: ResultFloatValue is not copied. *)
Definition eval_ternary (full : bool) (a b c : result) : result * status :=
  if ety_eqb (r_type a) TyBool then
    let x := if r_bool a then b else c in
    (mkRes (r_type x) (r_int x) f64_zero (r_str x) (r_bool x) (r_native x) full, SOk)
  else (blank full, SErr).

(** evaluateBitwiseNegation, lines 674-686. *)
Definition eval_tilde (full : bool) (a : result) : result * status :=
  if int_type (r_type a) then
    (mkRes (r_type a) (Z.lnot (r_int a)) f64_zero "" false (r_native a) full, SOk)
  else (blank full, SErr).

(** Lines 702-716.  A negative shift count panics; counts of 64 and more shift
    everything out. *)
Definition int_bitwise (op : bop) (x y : Z) : option Z :=
  match op with
  | LShift => if y <? 0 then None else Some (if 64 <=? y then 0 else i64 (x * 2 ^ y))
  | RShift => if y <? 0 then None else Some (if 64 <=? y then (if x <? 0 then -1 else 0) else x / 2 ^ y)
  | And => Some (Z.land x y)
  | Or => Some (Z.lor x y)
  | Xor => Some (Z.lxor x y)
  end.

(** evaluateBitwiseExpression, lines 688-738. *)
Definition is_shift (op : bop) : bool := match op with LShift | RShift => true | _ => false end.
Definition eval_bitwise (op : bop) (full : bool) (a b : result) : result * status :=
  if int_type (r_type a) && int_type (r_type b) then
    let native := match r_native a with
                  | Some t => Some t
                  | None => if is_shift op then Some (builtin_type "uint32") else r_native b
                  end in
    match int_bitwise op (r_int a) (r_int b) with
    | Some z => (mkRes (r_type a) z f64_zero "" false native full, SOk)
    | None => (mkRes (r_type a) 0 f64_zero "" false (r_native a) full, SPanic)
    end
  else (blank full, SErr).

(** ** Expressions and what they refer to *)

(** An integer literal stands for its number, which is not negative; a float
    literal for its value, with the type float32 or float64; reading the digits
    is not modelled.  [EDot t i]: the item [i] of the enum or bitmask [t].  Field
    access, array elements, calls and lengthof are not modelled: like [EName] of a
    field they are never fully resolved. *)
Inductive expr :=
| ENum (z : Z)
| EBool (b : bool)
| EStr (text : string)
| EFloat (single : bool) (f : f64)
| EIndex
| EName (n : string)
| EDot (t i : string)
| EParen (a : expr)
| EUnary (minus : bool) (a : expr)
| EArith (op : aop) (a b : expr)
| ENot (a : expr)
| ELogic (both : bool) (a b : expr)
| ECompare (op : cop) (a b : expr)
| ETernary (a b c : expr)
| ETilde (a : expr)
| EBitwise (op : bop) (a b : expr)
| EValueof (a : expr)
| ENumbits (a : expr)
| EIsset (a b : expr).

(** What a name means in a scope (Package.GetSymbol): a constant, an enum or
    bitmask type, an item of an enum in scope, or something that has a type but no
    value before the program runs (a field, parameter or function).  Constants and
    types are numbered. *)
Inductive symbol :=
| SConst (c : nat)
| SEnum (e : nat)
| SMask (m : nat)
| SItem (e k : nat)
| SVar (t : ety) (native : option tref).
Definition scope := string -> option symbol.

(** Const, EnumItem and BitmaskValue: the expressions that others can refer to.
    An item without a value has a nil expression. *)
Record program := mkP {
  p_consts : list expr;
  p_enums : list (list (string * option expr));
  p_masks : list (list (string * option expr))
}.

Inductive root := RConst (c : nat) | REnum (e k : nat) | RMask (m k : nat).

(** ast.EvaluationState and the result of the expression, or a nil expression. *)
Inductive progress := NotStarted | InProgress | Complete.
Inductive slot := Absent | Slot (p : progress) (r : result).
Definition store := root -> slot.

Definition root_eqb (a b : root) : bool :=
  match a, b with
  | RConst x, RConst y => (x =? y)%nat
  | REnum x i, REnum y j => ((x =? y) && (i =? j))%nat
  | RMask x i, RMask y j => ((x =? y) && (i =? j))%nat
  | _, _ => false
  end.
Definition set (s : store) (r : root) (v : slot) : store := fun r' => if root_eqb r r' then v else s r'.

(** The expression of a root, if it has one in the schema. *)
Definition item_expr (l : list (list (string * option expr))) (i k : nat) : option expr :=
  match nth_error l i with
  | Some items => match nth_error items k with Some (_, e) => e | None => None end
  | None => None
  end.
Definition root_expr (P : program) (r : root) : option expr :=
  match r with
  | RConst c => nth_error (p_consts P) c
  | REnum e k => item_expr (p_enums P) e k
  | RMask m k => item_expr (p_masks P) m k
  end.

(** Before evaluation. *)
Definition initial (P : program) : store := fun r =>
  match root_expr P r with Some _ => Slot NotStarted (blank false) | None => Absent end.

(** ** Evaluation *)

(** The result of the expression of a root. *)
Definition slot_result (v : slot) : result := match v with Absent => blank false | Slot _ r => r end.

(** copyExpressionResult, lines 88-96: all but FullyResolved. *)
Definition copy_result (full : bool) (r : result) : result :=
  mkRes (r_type r) (r_int r) (r_float r) (r_str r) (r_bool r) (r_native r) full.

(** Position of an item by its name (the first one). *)
Fixpoint find_item (n : string) (items : list (string * option expr)) (k : nat) : option nat :=
  match items with
  | [] => None
  | (m, _) :: rest => if (m =? n)%string then Some k else find_item n rest (S k)
  end.

(** Enum.Evaluate, enum.go:31-57, from the [k]-th item on; [todo] counts the items
    that are left.  [deref] is Evaluate on the expression of an item. *)
Fixpoint eval_items (deref : root -> store -> store * status) (mk : nat -> root) (implicit : option result -> option result)
    (todo : nat) (k : nat) (s : store) : store * status :=
  match todo with
  | O => (s, SOk)
  | S todo' =>
      let next s' := eval_items deref mk implicit todo' (S k) s' in
      match s (mk k) with
      | Absent =>
          let previous := match k with O => None | S j => Some (slot_result (s (mk j))) end in
          match implicit previous with
          | Some r => next (set s (mk k) (Slot Complete r))
          | None => (s, SErr)
          end
      | Slot _ _ =>
          match deref (mk k) s with
          | (s', SOk) => next s'
          | (s', e) => (s', e)
          end
      end
  end.

(** The value of an item without an expression, enum.go:33-49: 0 for the first,
    otherwise one more than the item before, which must be an integer. *)
Definition int_result (z : Z) : result := mkRes TyInt z f64_zero "" false None false.
Definition enum_next (previous : option result) : option result :=
  match previous with
  | None => Some (int_result 0)
  | Some p => if ety_eqb (r_type p) TyInt then Some (int_result (i64 (r_int p + 1))) else None
  end.

(** findNextFreeBit, bitmask.go:14-21.  The loop runs at most 63 times. *)
Fixpoint free_bit_loop (fuel : nat) (last : Z) (position : Z) : Z :=
  match fuel with
  | O => position
  | S f => if 0 <? last then free_bit_loop f (last / 2) (position + 1) else position
  end.
Definition findNextFreeBit (last : Z) : Z := i64 (2 ^ free_bit_loop 64 last 0).

(** bitmask.go:23-45: 1 for the first, otherwise the bit above the item before. *)
Definition mask_next (previous : option result) : option result :=
  match previous with
  | None => Some (int_result 1)
  | Some p => if ety_eqb (r_type p) TyInt then Some (int_result (findNextFreeBit (r_int p))) else None
  end.

Definition eval_enum (deref : root -> store -> store * status) (P : program) (e : nat) (s : store) : store * status :=
  match nth_error (p_enums P) e with
  | Some items => eval_items deref (REnum e) enum_next (List.length items) 0 s
  | None => (s, SErr)
  end.
Definition eval_mask (deref : root -> store -> store * status) (P : program) (m : nat) (s : store) : store * status :=
  match nth_error (p_masks P) m with
  | Some items => eval_items deref (RMask m) mask_next (List.length items) 0 s
  | None => (s, SErr)
  end.

(** evaluateIdentifier, lines 177-202: the error of evaluating the referenced
    expression is dropped, a panic is not. *)
Definition eval_name (deref : root -> store -> store * status) (look : scope) (n : string) (s : store) : store * (result * status) :=
  let follow r :=
    match s r with
    | Absent => (s, (blank true, SPanic))
    | Slot _ _ =>
        match deref r s with
        | (s', SPanic) => (s', (blank true, SPanic))
        | (s', SNoFuel) => (s', (blank true, SNoFuel))
        | (s', _) => (s', (copy_result true (slot_result (s' r)), SOk))
        end
    end in
  match look n with
  | None => (s, (blank true, SErr))
  | Some (SConst c) => follow (RConst c)
  | Some (SItem e k) => follow (REnum e k)
  | Some (SEnum _) => (s, (mkRes TyEnum 0 f64_zero "" false None false, SOk))
  | Some (SMask _) => (s, (mkRes TyBitmask 0 f64_zero "" false None false, SOk))
  | Some (SVar t native) => (s, (mkRes t 0 f64_zero "" false native false, SOk))
  end.

(** evaluateDotExpression, lines 365-411, for enums and bitmasks.  The type on the
    left is not fully resolved, so neither is the item.  An enum is evaluated if
    the item is not; a bitmask never is. *)
Definition eval_dot (deref : root -> store -> store * status) (P : program) (look : scope) (t i : string) (s : store) : store * (result * status) :=
  match look t with
  | Some (SEnum e) =>
      match find_item i (nth e (p_enums P) []) 0 with
      | None => (s, (blank false, SErr))
      | Some k =>
          match s (REnum e k) with
          | Absent => (s, (blank false, SPanic))
          | Slot Complete r => (s, (copy_result false r, SOk))
          | Slot _ _ =>
              match eval_enum deref P e s with
              | (s', SOk) => (s', (copy_result false (slot_result (s' (REnum e k))), SOk))
              | (s', x) => (s', (blank false, x))
              end
          end
      end
  | Some (SMask m) =>
      match find_item i (nth m (p_masks P) []) 0 with
      | None => (s, (blank false, SErr))
      | Some k =>
          match s (RMask m k) with
          | Absent => (s, (blank false, SPanic))
          | Slot _ r => (s, (mkRes TyBitmask (r_int r) f64_zero "" false None false, SOk))
          end
      end
  | _ => (s, (blank false, SErr))
  end.

(** Expression.Evaluate, lines 764-917, on an expression that has not been
    evaluated: first the operands from left to right, then the operator.  An
    operand is part of one expression only, so its own EvaluationState is not
    needed. *)
Definition MaxInt64 : Z := 9223372036854775807.

Fixpoint eval_expr (deref : root -> store -> store * status) (P : program) (look : scope) (e : expr) (s : store) : store * (result * status) :=
  let eval := eval_expr deref P look in
  let unary op a :=
    match eval a s with
    | (s1, (ra, SOk)) => (s1, op (r_full ra) ra)
    | (s1, (_, x)) => (s1, (blank true, x))
    end in
  let binary op a b :=
    match eval a s with
    | (s1, (ra, SOk)) =>
        match eval b s1 with
        | (s2, (rb, SOk)) => (s2, op (r_full ra && r_full rb) ra rb)
        | (s2, (_, x)) => (s2, (blank (r_full ra), x))
        end
    | (s1, (_, x)) => (s1, (blank true, x))
    end in
  match e with
  | ENum z => (s, if z <=? MaxInt64 then (mkRes TyInt z f64_zero "" false None true, SOk)
                  else (mkRes TyInt MaxInt64 f64_zero "" false None true, SErr))
  | EBool b => (s, (mkRes TyBool 0 f64_zero "" b None true, SOk))
  | EStr t => (s, (mkRes TyString 0 f64_zero t false None true, SOk))
  | EFloat single f => (s, (mkRes TyFloat 0 f "" false (Some (builtin_type (if single then "float32" else "float64"))) true, SOk))
  | EIndex => (s, (mkRes TyInt 0 f64_zero "" false None false, SOk))
  | EName n => eval_name deref look n s
  | EDot t i => eval_dot deref P look t i s
  | EParen a => unary eval_paren a
  | EUnary minus a => unary (eval_unary minus) a
  | EArith op a b => binary (eval_arith op) a b
  | ENot a => unary eval_not a
  | ELogic both a b => binary (eval_logic both) a b
  | ECompare op a b => binary (eval_compare op) a b
  | ETernary a b c =>
      match eval a s with
      | (s1, (ra, SOk)) =>
          match eval b s1 with
          | (s2, (rb, SOk)) =>
              match eval c s2 with
              | (s3, (rc, SOk)) => (s3, eval_ternary (r_full ra && r_full rb && r_full rc) ra rb rc)
              | (s3, (_, x)) => (s3, (blank (r_full ra && r_full rb), x))
              end
          | (s2, (_, x)) => (s2, (blank (r_full ra), x))
          end
      | (s1, (_, x)) => (s1, (blank true, x))
      end
  | ETilde a => unary eval_tilde a
  | EBitwise op a b => binary (eval_bitwise op) a b
  | EValueof a => unary eval_valueof a
  | ENumbits a => unary eval_numbits a
  | EIsset a b => binary eval_isset a b
  end.

(** Expression.Evaluate on the expression of a root: nothing to do if it is
    complete, an error if it is being evaluated; an error leaves it in progress.
    The scope is the one of the caller, also for a root of another package.
    [fuel] bounds the roots in progress; C33 shows how much is enough. *)
Fixpoint eval_root (fuel : nat) (P : program) (look : scope) (r : root) (s : store) : store * status :=
  match s r with
  | Absent => (s, SPanic)
  | Slot Complete _ => (s, SOk)
  | Slot InProgress _ => (s, SErr)
  | Slot NotStarted _ =>
      match root_expr P r, fuel with
      | None, _ => (s, SErr)
      | Some _, O => (s, SNoFuel)
      | Some e, S f =>
          match eval_expr (eval_root f P look) P look e (set s r (Slot InProgress (blank true))) with
          | (s', (res, SOk)) => (set s' r (Slot Complete res), SOk)
          | (s', (res, x)) => (set s' r (Slot InProgress res), x)
          end
      end
  end.

(** Enough fuel: one for each expression of the program. *)
Definition root_count (P : program) : nat :=
  List.length (p_consts P) + list_sum (map (@List.length _) (p_enums P)) + list_sum (map (@List.length _) (p_masks P)).
Definition evaluate (P : program) (look : scope) (r : root) (s : store) : store * status :=
  eval_root (root_count P) P look r s.
Definition evaluate_expr (P : program) (look : scope) (e : expr) (s : store) : store * (result * status) :=
  eval_expr (eval_root (root_count P) P look) P look e s.

Definition evaluate_enum (P : program) (look : scope) (e : nat) (s : store) : store * status :=
  eval_enum (eval_root (root_count P) P look) P e s.
Definition evaluate_mask (P : program) (look : scope) (m : nat) (s : store) : store * status :=
  eval_mask (eval_root (root_count P) P look) P m s.

(** Model.EvaluateConsts, EvaluateEnums and EvaluateBitmasks
    (model/transform.go:125-190): each in the scope of its package, in any order
    (the code ranges over maps), until the first error. *)
Fixpoint each {A} (f : A -> store -> store * status) (l : list A) (s : store) : store * status :=
  match l with
  | [] => (s, SOk)
  | x :: l' => match f x s with (s', SOk) => each f l' s' | (s', x) => (s', x) end
  end.
Definition EvaluateConsts (P : program) (order : list (scope * nat)) (s : store) : store * status :=
  each (fun x => evaluate P (fst x) (RConst (snd x))) order s.
Definition EvaluateEnums (P : program) (order : list (scope * nat)) (s : store) : store * status :=
  each (fun x => evaluate_enum P (fst x) (snd x)) order s.
Definition EvaluateBitmasks (P : program) (order : list (scope * nat)) (s : store) : store * status :=
  each (fun x => evaluate_mask P (fst x) (snd x)) order s.
