(** The syntax of Go expressions: the part of the language specification
    (https://go.dev/ref/spec, sections Expressions and Operators) that generated
    code uses.  A text is a list of tokens; spaces are left out. *)

Require Import ZArith String List Bool.
Import ListNotations.
Open Scope Z_scope.

(** Binary operators.  [Sub] and [Add] are also unary operators. *)
Inductive gop := Mul | Div | Rem | Shl | Shr | BAnd | Add | Sub | BOr | BXor | EqE | NeE | LtE | LeE | GtE | GeE | LAnd | LOr.

(** The table "Operator precedence" of the specification. *)
Definition prec (o : gop) : nat :=
  match o with
  | Mul | Div | Rem | Shl | Shr | BAnd => 5
  | Add | Sub | BOr | BXor => 4
  | EqE | NeE | LtE | LeE | GtE | GeE => 3
  | LAnd => 2
  | LOr => 1
  end.

(** Names are identifiers, also qualified by a package, of variables, functions,
    constants and types; the text of a number literal is its value. *)
Inductive literal := LInt (z : Z) | LDecimal (z : Z) (* z / 10^6 *) | LBool (b : bool) | LText (s : string).
Inductive tok :=
| TName (n : string)
| TLit (l : literal)
| TOp (o : gop)
| TBang
| TLeft | TRight        (* ( ) *)
| TOpen | TClose        (* [ ] *)
| TDot
| TOther (s : string).   (* tokens that do not occur in these expressions *)

Inductive gtree :=
| GName (n : string)
| GLit (l : literal)
| GParen (a : gtree)
| GCall (f a : gtree)             (* f(a): a call or a conversion *)
| GInvoke (f : gtree)             (* f() *)
| GIndex (a i : gtree)            (* a[i] *)
| GSelect (a : gtree) (n : string) (* a.n *)
| GNot (a : gtree)                (* !a *)
| GNeg (a : gtree)                (* -a *)
| GBin (o : gop) (a b : gtree).

(** [parses n ts t]: the text [ts] is an expression whose operators outside of
    brackets bind at least as strongly as [n], read as the tree [t].  1 to 5 are the
    levels of the binary operators, which associate to the left, 6 is UnaryExpr and
    7 is PrimaryExpr. *)
Inductive parses : nat -> list tok -> gtree -> Prop :=
| P_name : forall n x, (n <= 7)%nat -> parses n [TName x] (GName x)
| P_lit : forall n l, (n <= 7)%nat -> parses n [TLit l] (GLit l)
| P_paren : forall n ts a, (n <= 7)%nat -> parses 1 ts a -> parses n ([TLeft] ++ ts ++ [TRight]) (GParen a)
| P_call : forall n ts us f a, (n <= 7)%nat -> parses 7 ts f -> parses 1 us a ->
    parses n (ts ++ [TLeft] ++ us ++ [TRight]) (GCall f a)
| P_invoke : forall n ts f, (n <= 7)%nat -> parses 7 ts f -> parses n (ts ++ [TLeft; TRight]) (GInvoke f)
| P_index : forall n ts us a i, (n <= 7)%nat -> parses 7 ts a -> parses 1 us i ->
    parses n (ts ++ [TOpen] ++ us ++ [TClose]) (GIndex a i)
| P_select : forall n ts a x, (n <= 7)%nat -> parses 7 ts a -> parses n (ts ++ [TDot; TName x]) (GSelect a x)
| P_not : forall n ts a, (n <= 6)%nat -> parses 6 ts a -> parses n (TBang :: ts) (GNot a)
| P_neg : forall n ts a, (n <= 6)%nat -> parses 6 ts a -> parses n (TOp Sub :: ts) (GNeg a)
| P_bin : forall n o ts us a b, (n <= prec o)%nat -> parses (prec o) ts a -> parses (S (prec o)) us b ->
    parses n (ts ++ [TOp o] ++ us) (GBin o a b).

(** An expression. *)
Definition go_expression (ts : list tok) (t : gtree) : Prop := parses 1 ts t.
