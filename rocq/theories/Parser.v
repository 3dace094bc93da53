(** The parser of expressions: expression in internal/parser/zserio_parser.go, which ANTLR
    generated from internal/parser/ZserioParser.g4.  A token is the name of its rule in
    the lexer and its text.  [None] is a syntax error; the repair of errors, which ANTLR
    tries after it has printed them, is left out. *)

Require Import ZArith String Ascii List Bool.
From Verif Require Literals.
From Verif Require Import Visitor.
From Verif Require Lexer.
Import ListNotations.
Open Scope nat_scope.
Open Scope string_scope.
Open Scope list_scope.

Definition ptok := (string * string)%type.

Definition bind {A B} (o : option A) (f : A -> option B) : option B := match o with Some x => f x | None => None end.
Fixpoint lookup {A} (n : string) (l : list (string * A)) : option A :=
  match l with [] => None | (m, x) :: l' => if String.eqb n m then Some x else lookup n l' end.
(** p.Match: the next token has to be of this kind. *)
Definition expect (n : string) (ts : list ptok) : option (list ptok) :=
  match ts with (m, _) :: r => if String.eqb m n then Some r else None | [] => None end.
Definition next_is (n : string) (ts : list ptok) : bool :=
  match ts with (m, _) :: _ => String.eqb m n | [] => false end.

(** The binary operators with the numbers of p.Precpred (zserio_parser.go:13072-13349,
    cases 1 to 10); an operator's right operand is parsed with the next number. *)
Definition binops : list (string * (bop * nat)) :=
  [("MULTIPLY", (BMul, 14)); ("DIVIDE", (BDiv, 14)); ("MODULO", (BMod, 14)); ("PLUS", (BPlus, 13)); ("MINUS", (BMinus, 13));
   ("LSHIFT", (BShl, 12)); ("LT", (BLt, 11)); ("LE", (BLe, 11)); ("GT", (BGt, 11)); ("GE", (BGe, 11));
   ("EQ", (BEq, 10)); ("NE", (BNe, 10)); ("AND", (BAnd, 9)); ("XOR", (BXor, 8)); ("OR", (BOr, 7));
   ("LOGICAL_AND", (BLogAnd, 6)); ("LOGICAL_OR", (BLogOr, 5))].
(** zserio_parser.go:12996-13022 *)
Definition unops : list (string * uop) := [("PLUS", UPlus); ("MINUS", UMinus); ("BANG", UBang); ("TILDE", UTilde)].
(** zserio_parser.go:12921-12994: lengthof, valueof and numbits *)
Definition builtins : list (string * (cexpr -> cexpr)) := [("LENGTHOF", CLengthof); ("VALUEOF", CValueof); ("NUMBITS", CNumbits)].
(** literal, ZserioParser.g4:375-384 *)
Definition literals : list (string * Literals.token) :=
  [("BINARY_LITERAL", Literals.TBinary); ("OCTAL_LITERAL", Literals.TOctal); ("DECIMAL_LITERAL", Literals.TDecimal);
   ("HEXADECIMAL_LITERAL", Literals.THex); ("BOOL_LITERAL", Literals.TBool); ("STRING_LITERAL", Literals.TString);
   ("FLOAT_LITERAL", Literals.TFloat); ("DOUBLE_LITERAL", Literals.TDouble)].

(** Where an expression stands between angle brackets (dynamicLengthArgument,
    ZserioParser.g4:427-429), a > ends it if the name of a field, constant, enum or bitmask
    and what can follow it come next.  ANTLR's prediction (AdaptivePredict) finds out by
    looking ahead as far as necessary: it takes the reading with which the rest of the
    text can be parsed.  Simplification: looking ahead is spelled out for this grammar. *)
Fixpoint skip_brackets (depth : nat) (ts : list ptok) : list ptok :=
  match ts with
  | [] => []
  | (n, _) :: r =>
      if String.eqb n "LBRACKET" then skip_brackets (S depth) r
      else if String.eqb n "RBRACKET" then match depth with 0 | 1 => r | S d => skip_brackets d r end
      else skip_brackets depth r
  end.
Definition after_name : list string := ["SEMICOLON"; "ASSIGN"; "IF"; "COLON"; "LBRACE"; "SQL"].
Definition one_of_names (l : list string) (ts : list ptok) : bool :=
  match ts with (n, _) :: _ => existsb (String.eqb n) l | [] => false end.
Definition closes (ts : list ptok) : bool :=
  match ts with
  | (i, _) :: r =>
      String.eqb i "ID" && (one_of_names after_name r || (next_is "LBRACKET" r && one_of_names after_name (skip_brackets 0 r)))
  | [] => false
  end.

(** A binary operator at the beginning: its number and what comes after it.  Two > are a
    shift (case 3: LSHIFT, or GT GT). *)
Definition operator (inside : bool) (ts : list ptok) : option (bop * nat * list ptok) :=
  match ts with
  | [] => None
  | (n, _) :: r =>
      if String.eqb n "GT" && inside && closes r then None
      else if String.eqb n "GT" && next_is "GT" r then Some (BShr, 12, tl r)
      else match lookup n binops with Some (op, q) => Some (op, q, r) | None => None end
  end.

(** zserio_parser.go:12829-13460.  [fuel] bounds the depth of calls and the rounds of
    the loop; [inside] is true between angle brackets, if not in inner parentheses,
    brackets or between ? and :. *)
Fixpoint expression (fuel : nat) (inside : bool) (p : nat) (ts : list ptok) : option (cexpr * list ptok) :=
  match fuel with
  | 0 => None
  | S f => bind (primary f inside ts) (fun '(e, r) => suffixes f inside p e r)
  end
(** zserio_parser.go:12866-13060: what an expression begins with. *)
with primary (fuel : nat) (inside : bool) (ts : list ptok) : option (cexpr * list ptok) :=
  match fuel, ts with
  | 0, _ | _, [] => None
  | S f, (n, t) :: r =>
      if String.eqb n "LPAREN" then
        bind (expression f false 0 r) (fun '(e, r) => bind (expect "RPAREN" r) (fun r => Some (CParen e, r)))
      else if String.eqb n "ISSET" then
        bind (expect "LPAREN" r) (fun r => bind (expression f false 0 r) (fun '(a, r) => bind (expect "COMMA" r) (fun r =>
        bind (expression f false 0 r) (fun '(b, r) => bind (expect "RPAREN" r) (fun r => Some (CIsSet a b, r))))))
      else match lookup n builtins with
      | Some make =>
          bind (expect "LPAREN" r) (fun r => bind (expression f false 0 r) (fun '(e, r) =>
          bind (expect "RPAREN" r) (fun r => Some (make e, r))))
      | None => match lookup n unops with
      | Some op => bind (expression f inside 15 r) (fun '(e, r) => Some (CUnary op e, r))
      | None => match lookup n literals with
      | Some k => Some (CLiteral k t, r)
      | None => if String.eqb n "INDEX" then Some (CIndex, r) else if String.eqb n "ID" then Some (CId t, r) else None
      end end end
  end
(** zserio_parser.go:13062-13460: the loop over what can follow. *)
with suffixes (fuel : nat) (inside : bool) (p : nat) (e : cexpr) (ts : list ptok) : option (cexpr * list ptok) :=
  match fuel with
  | 0 => None
  | S f =>
      match operator inside ts with
      | Some (op, q, r) =>
          if Nat.leb p q then bind (expression f inside (S q) r) (fun '(b, r) => suffixes f inside p (CBinary op e b) r)
          else Some (e, ts)
      | None =>
          if next_is "QUESTIONMARK" ts && Nat.leb p 4 then
            bind (expression f false 0 (tl ts)) (fun '(a, r) => bind (expect "COLON" r) (fun r =>
            bind (expression f inside 4 r) (fun '(b, r) => suffixes f inside p (CTernary e a b) r)))
          else if next_is "LPAREN" ts && next_is "RPAREN" (tl ts) && Nat.leb p 22 then suffixes f inside p (CCall e) (tl (tl ts))
          else if next_is "LBRACKET" ts && Nat.leb p 21 then
            bind (expression f false 0 (tl ts)) (fun '(i, r) => bind (expect "RBRACKET" r) (fun r => suffixes f inside p (CArray e i) r))
          else if next_is "DOT" ts && next_is "ID" (tl ts) && Nat.leb p 20 then
            match tl ts with (_, name) :: r => suffixes f inside p (CDot e name) r | [] => None end
          else Some (e, ts)
      end
  end.

(** p.Expression(): expression(0) with enough fuel (ParserFacts.v). *)
Definition parse_expression (inside : bool) (ts : list ptok) : option (cexpr * list ptok) :=
  expression (3 * length ts + 3) inside 0 ts.

(** internal/model/package.go:10-31: the tokens of a text, as the parser sees them. *)
Definition stream (s : list ascii) : list ptok := map (fun p => (fst p, string_of_list_ascii (snd p))) (Lexer.tokens s).
