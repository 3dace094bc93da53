(** How expressions are written, and which trees need no parentheses. *)

Require Import ZArith String Ascii List Bool.
From Verif Require Literals.
From Verif Require Import Visitor Parser.
From Verif Require LexerSpec.
Import ListNotations.
Open Scope nat_scope.
Open Scope string_scope.
Open Scope list_scope.

(** The tokens of an expression: ZserioParser.g4:349-384. *)
Definition uop_token (o : uop) : ptok :=
  match o with UPlus => ("PLUS", "+") | UMinus => ("MINUS", "-") | UBang => ("BANG", "!") | UTilde => ("TILDE", "~") end.
Definition bop_tokens (o : bop) : list ptok :=
  match o with
  | BMul => [("MULTIPLY", "*")] | BDiv => [("DIVIDE", "/")] | BMod => [("MODULO", "%")]
  | BPlus => [("PLUS", "+")] | BMinus => [("MINUS", "-")] | BShl => [("LSHIFT", "<<")] | BShr => [("GT", ">"); ("GT", ">")]
  | BLt => [("LT", "<")] | BLe => [("LE", "<=")] | BGt => [("GT", ">")] | BGe => [("GE", ">=")]
  | BEq => [("EQ", "==")] | BNe => [("NE", "!=")] | BAnd => [("AND", "&")] | BXor => [("XOR", "^")] | BOr => [("OR", "|")]
  | BLogAnd => [("LOGICAL_AND", "&&")] | BLogOr => [("LOGICAL_OR", "||")]
  end.
Definition literal_token (k : Literals.token) : string :=
  match k with
  | Literals.TBinary => "BINARY_LITERAL" | Literals.TOctal => "OCTAL_LITERAL" | Literals.TDecimal => "DECIMAL_LITERAL"
  | Literals.THex => "HEXADECIMAL_LITERAL" | Literals.TBool => "BOOL_LITERAL" | Literals.TString => "STRING_LITERAL"
  | Literals.TFloat => "FLOAT_LITERAL" | Literals.TDouble => "DOUBLE_LITERAL"
  end.
Definition LP : ptok := ("LPAREN", "(").
Definition RP : ptok := ("RPAREN", ")").
Fixpoint expr_tokens (e : cexpr) : list ptok :=
  match e with
  | CParen a => LP :: expr_tokens a ++ [RP]
  | CCall a => expr_tokens a ++ [LP; RP]
  | CArray a b => expr_tokens a ++ ("LBRACKET", "[") :: expr_tokens b ++ [("RBRACKET", "]")]
  | CDot a n => expr_tokens a ++ [("DOT", "."); ("ID", n)]
  | CIsSet a b => ("ISSET", "isset") :: LP :: expr_tokens a ++ ("COMMA", ",") :: expr_tokens b ++ [RP]
  | CLengthof a => ("LENGTHOF", "lengthof") :: LP :: expr_tokens a ++ [RP]
  | CValueof a => ("VALUEOF", "valueof") :: LP :: expr_tokens a ++ [RP]
  | CNumbits a => ("NUMBITS", "numbits") :: LP :: expr_tokens a ++ [RP]
  | CUnary o a => uop_token o :: expr_tokens a
  | CBinary o a b => expr_tokens a ++ bop_tokens o ++ expr_tokens b
  | CTernary c a b => expr_tokens c ++ ("QUESTIONMARK", "?") :: expr_tokens a ++ ("COLON", ":") :: expr_tokens b
  | CLiteral k t => [(literal_token k, t)]
  | CIndex => [("INDEX", "@index")]
  | CId n => [("ID", n)]
  end.

(** How tightly an expression is bound, from the language reference: the ternary operator,
    then || && | ^ &, equality, relations, shifts, sums, products, the unary operators,
    then . [] (), and what needs no parentheses at all. *)
Definition op_level (o : bop) : nat :=
  match o with
  | BLogOr => 2 | BLogAnd => 3 | BOr => 4 | BXor => 5 | BAnd => 6 | BEq | BNe => 7 | BLt | BLe | BGt | BGe => 8
  | BShl | BShr => 9 | BPlus | BMinus => 10 | BMul | BDiv | BMod => 11
  end.
Definition level (e : cexpr) : nat :=
  match e with
  | CTernary _ _ _ => 1
  | CBinary o _ _ => op_level o
  | CUnary _ _ => 12
  | CCall _ | CArray _ _ | CDot _ _ => 13
  | _ => 14
  end.
(** The tree is what the text means: operands bind more tightly than the operator, binary
    operators associate to the left, the ternary operator to the right. *)
Fixpoint proper (e : cexpr) : Prop :=
  match e with
  | CParen a | CLengthof a | CValueof a | CNumbits a => proper a
  | CIsSet a b => proper a /\ proper b
  | CCall a | CDot a _ => proper a /\ 13 <= level a
  | CArray a b => proper a /\ 13 <= level a /\ proper b
  | CUnary _ a => proper a /\ 12 <= level a
  | CBinary o a b => proper a /\ op_level o <= level a /\ proper b /\ op_level o < level b
  | CTernary c a b => proper c /\ 1 < level c /\ proper a /\ proper b
  | CLiteral _ _ | CIndex | CId _ => True
  end.

(** What can come after an expression in a schema: ; , ) ] } : = if and so on, but nothing
    that continues it. *)
Definition continues : list string :=
  ["MULTIPLY"; "DIVIDE"; "MODULO"; "PLUS"; "MINUS"; "LSHIFT"; "LT"; "LE"; "GT"; "GE"; "EQ"; "NE"; "AND"; "XOR"; "OR";
   "LOGICAL_AND"; "LOGICAL_OR"; "QUESTIONMARK"; "LPAREN"; "LBRACKET"; "DOT"].
Definition ends (rest : list ptok) : Prop := match rest with [] => True | (n, _) :: _ => ~ In n continues end.

(** The tokens with only one text.  In the tokens of a text they have it. *)
Definition fixed_texts : list ptok :=
  [LP; RP; ("LBRACKET", "["); ("RBRACKET", "]"); ("DOT", "."); ("COMMA", ","); ("QUESTIONMARK", "?"); ("COLON", ":");
   ("ISSET", "isset"); ("LENGTHOF", "lengthof"); ("VALUEOF", "valueof"); ("NUMBITS", "numbits"); ("INDEX", "@index");
   ("BANG", "!"); ("TILDE", "~"); ("MULTIPLY", "*"); ("DIVIDE", "/"); ("MODULO", "%"); ("PLUS", "+"); ("MINUS", "-");
   ("LSHIFT", "<<"); ("GT", ">"); ("LT", "<"); ("LE", "<="); ("GE", ">="); ("EQ", "=="); ("NE", "!="); ("AND", "&"); ("XOR", "^");
   ("OR", "|"); ("LOGICAL_AND", "&&"); ("LOGICAL_OR", "||")].
Definition well_lexed (ts : list ptok) : Prop := forall n t w, In (n, t) ts -> In (n, w) fixed_texts -> t = w.

(** What comes after the length of a bit field: >, the name of what is declared, perhaps
    the range of an array, and then one of these tokens. *)
Definition after_declared : list string := ["SEMICOLON"; "ASSIGN"; "IF"; "COLON"; "LBRACE"; "SQL"].
Inductive after_length : list ptok -> Prop :=
| ALName : forall x n t r, In n after_declared -> after_length (("GT", ">") :: ("ID", x) :: (n, t) :: r)
| ALArray : forall x i n t r, In n after_declared ->
    after_length (("GT", ">") :: ("ID", x) :: ("LBRACKET", "[") :: match i with Some e => expr_tokens e | None => [] end
                  ++ ("RBRACKET", "]") :: (n, t) :: r).

(** The tree without parentheses. *)
Fixpoint bare (e : cexpr) : cexpr :=
  match e with
  | CParen a => bare a
  | CCall a => CCall (bare a)
  | CArray a b => CArray (bare a) (bare b)
  | CDot a n => CDot (bare a) n
  | CIsSet a b => CIsSet (bare a) (bare b)
  | CLengthof a => CLengthof (bare a)
  | CValueof a => CValueof (bare a)
  | CNumbits a => CNumbits (bare a)
  | CUnary o a => CUnary o (bare a)
  | CBinary o a b => CBinary o (bare a) (bare b)
  | CTernary c a b => CTernary (bare c) (bare a) (bare b)
  | CLiteral k t => CLiteral k t
  | CIndex => CIndex
  | CId n => CId n
  end.

(** The text is these tokens with layout before, between and after them, as in C100. *)
Definition text_of (ts : list ptok) (s : list ascii) : Prop :=
  exists l s', s = (l ++ s')%list /\ LexerSpec.layout l /\ LexerSpec.written (map (fun p => (fst p, list_ascii_of_string (snd p))) ts) s'.
