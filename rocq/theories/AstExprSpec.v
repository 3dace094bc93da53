(** What constant expressions, enum items and bitmask values should be. *)

Require Import ZArith List Bool String.
From Verif Require Import Bits AstExpr.
Import ListNotations.
Open Scope Z_scope.

(** ** Integer expressions *)

(** Expressions of type integer and bool made of literals, operators and the
    names of integer constants. *)
Inductive iexpr :=
| INum (z : Z)
| IConst (n : string)
| IParen (a : iexpr)
| IUnary (minus : bool) (a : iexpr)
| IArith (op : aop) (a b : iexpr)
| ITernary (c : bexpr) (a b : iexpr)
| ITilde (a : iexpr)
| IBitwise (op : bop) (a b : iexpr)
| INumbits (a : iexpr)
with bexpr :=
| BBool (b : bool)
| BParen (a : bexpr)
| BNot (a : bexpr)
| BLogic (both : bool) (a b : bexpr)
| BCompare (op : cop) (a b : iexpr)
| BTernary (c a b : bexpr).

Fixpoint int_expr (a : iexpr) : expr :=
  match a with
  | INum z => ENum z
  | IConst n => EName n
  | IParen a => EParen (int_expr a)
  | IUnary m a => EUnary m (int_expr a)
  | IArith op a b => EArith op (int_expr a) (int_expr b)
  | ITernary c a b => ETernary (bool_expr c) (int_expr a) (int_expr b)
  | ITilde a => ETilde (int_expr a)
  | IBitwise op a b => EBitwise op (int_expr a) (int_expr b)
  | INumbits a => ENumbits (int_expr a)
  end
with bool_expr (a : bexpr) : expr :=
  match a with
  | BBool b => EBool b
  | BParen a => EParen (bool_expr a)
  | BNot a => ENot (bool_expr a)
  | BLogic both a b => ELogic both (bool_expr a) (bool_expr b)
  | BCompare op a b => ECompare op (int_expr a) (int_expr b)
  | BTernary c a b => ETernary (bool_expr c) (bool_expr a) (bool_expr b)
  end.

(** The number in [-2^63, 2^63) that differs from [z] by a multiple of 2^64. *)
Definition wrap (z : Z) : Z := (z + 2 ^ 63) mod 2 ^ 64 - 2 ^ 63.

Definition bind {A B} (a : option A) (f : A -> option B) : option B := match a with Some x => f x | None => None end.
Definition when {A} (c : bool) (x : A) : option A := if c then Some x else None.

(** The number of binary digits of [z], 0 for 0. *)
Definition digits (z : Z) : Z := if z =? 0 then 0 else Z.log2 z + 1.

(** 64-bit two's complement arithmetic.  [None]: a division by zero or a negative
    shift count occurs; all operands are evaluated, also those of the branch that
    is not taken and of a logical operator whose first operand decides. *)
Definition arith_value (op : aop) (x y : Z) : option Z :=
  match op with
  | Plus => Some (wrap (x + y))
  | Minus => Some (wrap (x - y))
  | Multiply => Some (wrap (x * y))
  | Divide => when (negb (y =? 0)) (wrap (Z.quot x y))
  | Modulo => when (negb (y =? 0)) (x - y * Z.quot x y)
  end.
Definition bitwise_value (op : bop) (x y : Z) : option Z :=
  match op with
  | LShift => when (0 <=? y) (wrap (x * 2 ^ y))
  | RShift => when (0 <=? y) (x / 2 ^ y)
  | And => Some (Z.land x y)
  | Or => Some (Z.lor x y)
  | Xor => Some (Z.lxor x y)
  end.
Definition compare_value (op : cop) (x y : Z) : bool :=
  match op with
  | Lt => x <? y | Le => x <=? y | Gt => y <? x | Ge => y <=? x | Eq => x =? y | Ne => negb (x =? y)
  end.

Fixpoint int_value (rho : string -> option Z) (a : iexpr) : option Z :=
  match a with
  | INum z => Some z
  | IConst n => rho n
  | IParen a => int_value rho a
  | IUnary m a => bind (int_value rho a) (fun x => Some (if (m : bool) then wrap (- x) else x))
  | IArith op a b => bind (int_value rho a) (fun x => bind (int_value rho b) (fun y => arith_value op x y))
  | ITernary c a b =>
      bind (bool_value rho c) (fun t => bind (int_value rho a) (fun x => bind (int_value rho b) (fun y =>
        Some (if (t : bool) then x else y))))
  | ITilde a => bind (int_value rho a) (fun x => Some (- x - 1))
  | IBitwise op a b => bind (int_value rho a) (fun x => bind (int_value rho b) (fun y => bitwise_value op x y))
  | INumbits a => bind (int_value rho a) (fun x => Some (digits (x mod 2 ^ 64)))
  end
with bool_value (rho : string -> option Z) (a : bexpr) : option bool :=
  match a with
  | BBool b => Some b
  | BParen a => bool_value rho a
  | BNot a => bind (bool_value rho a) (fun x => Some (negb x))
  | BLogic both a b =>
      bind (bool_value rho a) (fun x => bind (bool_value rho b) (fun y => Some (if (both : bool) then x && y else x || y)))
  | BCompare op a b => bind (int_value rho a) (fun x => bind (int_value rho b) (fun y => Some (compare_value op x y)))
  | BTernary c a b =>
      bind (bool_value rho c) (fun t => bind (bool_value rho a) (fun x => bind (bool_value rho b) (fun y =>
        Some (if (t : bool) then x else y))))
  end.

(** The constants that an expression uses; its literals fit into int64. *)
Fixpoint int_names (a : iexpr) : list string :=
  match a with
  | INum _ => []
  | IConst n => [n]
  | IParen a | IUnary _ a | ITilde a | INumbits a => int_names a
  | IArith _ a b | IBitwise _ a b => int_names a ++ int_names b
  | ITernary c a b => bool_names c ++ int_names a ++ int_names b
  end
with bool_names (a : bexpr) : list string :=
  match a with
  | BBool _ => []
  | BParen a | BNot a => bool_names a
  | BLogic _ a b => bool_names a ++ bool_names b
  | BCompare _ a b => int_names a ++ int_names b
  | BTernary c a b => bool_names c ++ bool_names a ++ bool_names b
  end.
Fixpoint int_literals (a : iexpr) : list Z :=
  match a with
  | INum z => [z]
  | IConst _ => []
  | IParen a | IUnary _ a | ITilde a | INumbits a => int_literals a
  | IArith _ a b | IBitwise _ a b => int_literals a ++ int_literals b
  | ITernary c a b => bool_literals c ++ int_literals a ++ int_literals b
  end
with bool_literals (a : bexpr) : list Z :=
  match a with
  | BBool _ => []
  | BParen a | BNot a => bool_literals a
  | BLogic _ a b => bool_literals a ++ bool_literals b
  | BCompare _ a b => int_literals a ++ int_literals b
  | BTernary c a b => bool_literals c ++ bool_literals a ++ bool_literals b
  end.
Definition literals_fit (a : iexpr) : Prop := Forall (fun z => 0 <= z < 2 ^ 63) (int_literals a).

(** ** Programs of integer constants *)

(** [P] has the constants [defs]; the scope [look] knows every name that they
    use, as one of them; [rho] gives each name the value of its definition. *)
Record constants (P : program) (defs : list iexpr) (look : scope) (rho : string -> option Z) : Prop := {
  c_defs : p_consts P = map int_expr defs;
  c_literals : Forall literals_fit defs;
  c_names : forall d n, In d defs -> In n (int_names d) -> exists c, look n = Some (SConst c);
  c_values : forall n c, look n = Some (SConst c) -> exists d, nth_error defs c = Some d /\ rho n = int_value rho d
}.

(** No constant uses itself, directly or through others: each uses only constants
    of lower rank. *)
Definition acyclic (defs : list iexpr) (look : scope) (rank : nat -> nat) : Prop :=
  forall c d n c', nth_error defs c = Some d -> In n (int_names d) -> look n = Some (SConst c') -> (rank c' < rank c)%nat.

(** The value of a root after evaluation. *)
Definition value_of (s : store) (r : root) : option Z :=
  match s r with
  | Slot Complete v => match r_type v with TyInt => Some (r_int v) | _ => None end
  | _ => None
  end.

(** The stores that occur while a schema is evaluated: constants, enums, bitmasks
    and other expressions in any order and scope, with or without errors. *)
Inductive reached (P : program) : store -> Prop :=
| reached_initial : reached P (initial P)
| reached_const : forall s look c, reached P s -> reached P (fst (evaluate P look (RConst c) s))
| reached_enum : forall s look e, reached P s -> reached P (fst (evaluate_enum P look e s))
| reached_mask : forall s look m, reached P s -> reached P (fst (evaluate_mask P look m s))
| reached_expr : forall s look e, reached P s -> reached P (fst (evaluate_expr P look e s)).

(** ** References *)

(** Expressions that name a constant in [X], directly or in parentheses. *)
Inductive refers (look : scope) (X : nat -> bool) : expr -> Prop :=
| refers_name : forall n c, look n = Some (SConst c) -> X c = true -> refers look X (EName n)
| refers_paren : forall e, refers look X e -> refers look X (EParen e).

(** Expressions that apply an operator to such an expression, at any depth; other
    operands are literals. *)
Inductive operand (look : scope) (X : nat -> bool) : expr -> Prop :=
| operand_refers : forall e, refers look X e -> operand look X e
| operand_number : forall z, z <= MaxInt64 -> operand look X (ENum z)
| operand_bool : forall b, operand look X (EBool b).
Inductive applies (look : scope) (X : nat -> bool) : expr -> Prop :=
| applies_unary : forall m e, refers look X e -> applies look X (EUnary m e)
| applies_tilde : forall e, refers look X e -> applies look X (ETilde e)
| applies_not : forall e, refers look X e -> applies look X (ENot e)
| applies_numbits : forall e, refers look X e -> applies look X (ENumbits e)
| applies_arith : forall op e e', operand look X e -> operand look X e' -> refers look X e \/ refers look X e' ->
    applies look X (EArith op e e')
| applies_bitwise : forall op e e', operand look X e -> operand look X e' -> refers look X e \/ refers look X e' ->
    applies look X (EBitwise op e e')
| applies_logic : forall both e e', operand look X e -> operand look X e' -> refers look X e \/ refers look X e' ->
    applies look X (ELogic both e e')
| applies_compare_left : forall op e z, refers look X e -> z <= MaxInt64 -> applies look X (ECompare op e (ENum z))
| applies_compare_right : forall op e z, refers look X e -> z <= MaxInt64 -> applies look X (ECompare op (ENum z) e)
| applies_condition : forall e a b, refers look X e -> operand look X a -> operand look X b -> applies look X (ETernary e a b)
| applies_in_paren : forall e, applies look X e -> applies look X (EParen e)
| applies_in_unary : forall m e, applies look X e -> applies look X (EUnary m e)
| applies_in_arith_left : forall op e e', applies look X e -> applies look X (EArith op e e')
| applies_in_arith_right : forall op e e', operand look X e -> applies look X e' -> applies look X (EArith op e e')
| applies_in_bitwise_left : forall op e e', applies look X e -> applies look X (EBitwise op e e')
| applies_in_compare_left : forall op e e', applies look X e -> applies look X (ECompare op e e')
| applies_in_condition : forall e a b, applies look X e -> applies look X (ETernary e a b)
| applies_in_branch : forall e a b, operand look X e -> applies look X a -> applies look X (ETernary e a b).

(** [X] is a set of constants each of which depends on constants in [X], so every
    one of them is on a cycle or leads to one.  [uses c]: the constant [c] applies
    an operator to what it refers to. *)
Definition cyclic (P : program) (look : scope) (X : nat -> bool) (uses : nat -> bool) : Prop :=
  forall c, X c = true -> exists e, nth_error (p_consts P) c = Some e /\ (if uses c then applies look X e else refers look X e).
