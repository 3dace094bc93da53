(** The lexer of the schema language: the rules of internal/parser/ZserioLexer.g4, and
    how ANTLR applies them.  zserio_lexer.go in the same directory is generated from
    these rules; the runtime of ANTLR is not part of /repo.  A character is a byte
    (ANTLR reads code points; those above 127 only matter inside of string literals and
    comments, where every character other than the delimiters is treated alike). *)

Require Import ZArith String Ascii List Bool.
From Verif Require Import Files.
Import ListNotations.
Open Scope nat_scope.
Open Scope char_scope.

(** ** Regular expressions: the right sides of the rules *)

Inductive re :=
| Nothing                       (* matches no text *)
| Eps                           (* the empty text *)
| Ch (p : ascii -> bool)        (* one character of a set *)
| Seq (a b : re)
| Alt (a b : re)
| Star (a : re).

Fixpoint nullable (r : re) : bool :=
  match r with
  | Nothing | Ch _ => false
  | Eps | Star _ => true
  | Seq a b => nullable a && nullable b
  | Alt a b => nullable a || nullable b
  end.

(** Seq and Alt without useless parts. *)
Definition seq_ (a b : re) : re :=
  match a, b with Nothing, _ => Nothing | _, Nothing => Nothing | Eps, _ => b | _, _ => Seq a b end.
Definition alt_ (a b : re) : re :=
  match a, b with Nothing, _ => b | _, Nothing => a | _, _ => Alt a b end.

(** What is left to match after one character. *)
Fixpoint deriv (c : ascii) (r : re) : re :=
  match r with
  | Nothing | Eps => Nothing
  | Ch p => if p c then Eps else Nothing
  | Seq a b => if nullable a then alt_ (seq_ (deriv c a) b) (deriv c b) else seq_ (deriv c a) b
  | Alt a b => alt_ (deriv c a) (deriv c b)
  | Star a => seq_ (deriv c a) (Star a)
  end.

(** The length of the longest prefix of the text that the expression matches;
    [n] characters have been read, [best] is the longest match so far. *)
Fixpoint longest_from (r : re) (s : text) (n : nat) (best : option nat) : option nat :=
  let best' := if nullable r then Some n else best in
  match s with
  | [] => best'
  | c :: s' => longest_from (deriv c r) s' (S n) best'
  end.
Definition longest (r : re) (s : text) : option nat := longest_from r s 0 None.

(** The number of characters after which nothing can match any more. *)
Fixpoint alive (r : re) (s : text) : nat :=
  match s with
  | [] => 0
  | c :: s' => match deriv c r with Nothing => 0 | r' => S (alive r' s') end
  end.

(** ** Rules *)

(** A rule is a fixed text, a regular expression, or [Between a b]: [a], anything, and
    the first [b] after it (a .*? b). *)
Inductive rule := Lit (t : text) | Re (r : re) | Between (a b : text).

Fixpoint starts_with (t s : text) : bool :=
  match t, s with
  | [], _ => true
  | a :: t', b :: s' => (a =? b) && starts_with t' s'
  | _, [] => false
  end.
(** The position of the first [t] in [s]. *)
Fixpoint find (t s : text) : option nat :=
  if starts_with t s then Some 0 else match s with [] => None | _ :: s' => option_map S (find t s') end.

(** The length of the match of a rule at the beginning of a text. *)
Definition match_rule (r : rule) (s : text) : option nat :=
  match r with
  | Lit t => if starts_with t s then Some (length t) else None
  | Re r => longest r s
  | Between a b =>
      if starts_with a s
      then match find b (skipn (length a) s) with Some i => Some (length a + i + length b) | None => None end
      else None
  end.

Fixpoint common_prefix (t s : text) : nat :=
  match t, s with a :: t', b :: s' => if (a =? b)%char then S (common_prefix t' s') else 0 | _, _ => 0 end.
(** How far a rule can be followed, whether it matches in the end or not. *)
Definition follows (r : rule) (s : text) : nat :=
  match r with
  | Lit t => common_prefix t s
  | Re r => alive r s
  | Between a b => if starts_with a s then length s else common_prefix a s
  end.

(** Sets of characters, as in the grammar. *)
Definition code (c : ascii) : nat := nat_of_ascii c.
Definition range (a b c : ascii) : bool := Nat.leb (code a) (code c) && Nat.leb (code c) (code b).
Definition one_of (l : text) (c : ascii) : bool := existsb (fun d => (d =? c)) l.
Definition digit : ascii -> bool := range "0" "9".
Definition octal : ascii -> bool := range "0" "7".
Definition hex (c : ascii) : bool := digit c || range "a" "f" c || range "A" "F" c.
Definition letter (c : ascii) : bool := range "a" "z" c || range "A" "Z" c || (c =? "_").
Definition word_char (c : ascii) : bool := letter c || digit c.
Definition quote : ascii := ascii_of_nat 34.
Definition backslash : ascii := "\".
Definition line_end : text := [ascii_of_nat 13; ascii_of_nat 10; ascii_of_nat 12].
Definition blank : text := line_end ++ [ascii_of_nat 9; ascii_of_nat 32].

Fixpoint seqs (l : list re) : re := match l with [] => Eps | [r] => r | r :: l' => Seq r (seqs l') end.
Fixpoint alts (l : list re) : re := match l with [] => Nothing | [r] => r | r :: l' => Alt r (alts l') end.
Definition plus (r : re) : re := Seq r (Star r).
Definition opt (r : re) : re := Alt r Eps.
Definition chr (c : ascii) : re := Ch (fun d => c =? d).

(** ZserioLexer.g4:121-127 *)
Definition STRING_CHARACTER : re := alts
  [Ch (fun c => negb (one_of (quote :: backslash :: line_end) c));
   Seq (chr backslash) (Ch (one_of (quote :: backslash :: str "rnft")));
   seqs [chr backslash; chr "u"; Ch hex; Ch hex; Ch hex; Ch hex];
   seqs [chr backslash; chr "x"; Ch hex; Ch hex];
   seqs [chr backslash; chr "0"; opt (Ch (range "0" "3")); Ch octal; opt (Ch octal)]].
(** ZserioLexer.g4:128 *)
Definition STRING_LITERAL : re := seqs [chr quote; Star STRING_CHARACTER; chr quote].
(** ZserioLexer.g4:130-137 *)
Definition BINARY_LITERAL : re := Seq (plus (Ch (one_of (str "01")))) (Ch (one_of (str "bB"))).
Definition OCTAL_LITERAL : re := Seq (chr "0") (plus (Ch octal)).
Definition HEXADECIMAL_LITERAL : re := seqs [chr "0"; Ch (one_of (str "xX")); plus (Ch hex)].
(** ZserioLexer.g4:139-146 *)
Definition FLOAT_EXPONENT : re := seqs [Ch (one_of (str "eE")); opt (Ch (one_of (str "+-"))); plus (Ch digit)].
Definition DOUBLE_LITERAL : re := alts
  [Seq (plus (Ch digit)) FLOAT_EXPONENT;
   seqs [plus (Ch digit); chr "."; Star (Ch digit); opt FLOAT_EXPONENT];
   seqs [chr "."; plus (Ch digit); opt FLOAT_EXPONENT]].
Definition FLOAT_LITERAL : re := Seq DOUBLE_LITERAL (Ch (one_of (str "fF"))).
(** ZserioLexer.g4:148-151 *)
Definition DECIMAL_LITERAL : re := Alt (Seq (Ch (range "1" "9")) (Star (Ch digit))) (chr "0").
(** ZserioLexer.g4:154, 157, 160 *)
Definition ID : re := Seq (Ch letter) (Star (Ch word_char)).
Definition INVALID_STRING_LITERAL : re := seqs [chr quote; Star (Ch (fun c => negb (c =? quote))); opt (chr quote)].
Definition INVALID_TOKEN : re := plus (Ch word_char).
(** ZserioLexer.g4:116 *)
Definition LINE_COMMENT : re := seqs [chr "/"; chr "/"; Star (Ch (fun c => negb (one_of line_end c)))].

(** The operators and keywords (ZserioLexer.g4:6-107) and all rules, in the order of the
    grammar.  The pattern of MARKDOWN_COMMENT ends with an optional '!', which makes no
    difference to where it ends. *)
Open Scope string_scope.
Definition fixed_rules : list (string * rule) :=
  [
   ("AND", Lit (str "&")); ("ASSIGN", Lit (str "=")); ("BANG", Lit (str "!"));
   ("COLON", Lit (str ":")); ("COMMA", Lit (str ",")); ("DIVIDE", Lit (str "/"));
   ("DOT", Lit (str ".")); ("EQ", Lit (str "==")); ("GE", Lit (str ">="));
   ("GT", Lit (str ">")); ("LBRACE", Lit (str "{")); ("LBRACKET", Lit (str "["));
   ("LE", Lit (str "<=")); ("LOGICAL_AND", Lit (str "&&")); ("LOGICAL_OR", Lit (str "||"));
   ("LPAREN", Lit (str "(")); ("LSHIFT", Lit (str "<<")); ("LT", Lit (str "<"));
   ("MINUS", Lit (str "-")); ("MODULO", Lit (str "%")); ("MULTIPLY", Lit (str "*"));
   ("NE", Lit (str "!=")); ("OR", Lit (str "|")); ("PLUS", Lit (str "+"));
   ("QUESTIONMARK", Lit (str "?")); ("RBRACE", Lit (str "}")); ("RBRACKET", Lit (str "]"));
   ("RPAREN", Lit (str ")")); ("SEMICOLON", Lit (str ";")); ("TILDE", Lit (str "~"));
   ("XOR", Lit (str "^")); ("ALIGN", Lit (str "align")); ("BIT_FIELD", Lit (str "bit"));
   ("BOOL", Lit (str "bool")); ("BITMASK", Lit (str "bitmask")); ("BYTES", Lit (str "bytes"));
   ("CASE", Lit (str "case")); ("CHOICE", Lit (str "choice")); ("CONST", Lit (str "const"));
   ("DEFAULT", Lit (str "default")); ("DEPRECATED", Lit (str "@deprecated")); ("ENUM", Lit (str "enum"));
   ("EXPLICIT", Lit (str "explicit")); ("EXTEND", Lit (str "extend")); ("EXTERN", Lit (str "extern"));
   ("FLOAT16", Lit (str "float16")); ("FLOAT32", Lit (str "float32")); ("FLOAT64", Lit (str "float64"));
   ("FUNCTION", Lit (str "function")); ("IF", Lit (str "if")); ("IMPLICIT", Lit (str "implicit"));
   ("IMPORT", Lit (str "import")); ("INDEX", Lit (str "@index")); ("INSTANTIATE", Lit (str "instantiate"));
   ("INT_FIELD", Lit (str "int")); ("INT16", Lit (str "int16")); ("INT32", Lit (str "int32"));
   ("INT64", Lit (str "int64")); ("INT8", Lit (str "int8")); ("ISSET", Lit (str "isset"));
   ("LENGTHOF", Lit (str "lengthof")); ("NUMBITS", Lit (str "numbits")); ("ON", Lit (str "on"));
   ("OPTIONAL", Lit (str "optional")); ("PACKAGE", Lit (str "package")); ("PACKED", Lit (str "packed"));
   ("PUBSUB", Lit (str "pubsub")); ("PUBLISH", Lit (str "publish")); ("REMOVED", Lit (str "@removed"));
   ("RETURN", Lit (str "return")); ("RULE", Lit (str "rule")); ("RULE_GROUP", Lit (str "rule_group"));
   ("SERVICE", Lit (str "service")); ("SQL", Lit (str "sql")); ("SQL_DATABASE", Lit (str "sql_database"));
   ("SQL_TABLE", Lit (str "sql_table")); ("SQL_VIRTUAL", Lit (str "sql_virtual")); ("SQL_WITHOUT_ROWID", Lit (str "sql_without_rowid"));
   ("STRING", Lit (str "string")); ("STRUCTURE", Lit (str "struct")); ("SUBSCRIBE", Lit (str "subscribe"));
   ("SUBTYPE", Lit (str "subtype")); ("TOPIC", Lit (str "topic")); ("UINT16", Lit (str "uint16"));
   ("UINT32", Lit (str "uint32")); ("UINT64", Lit (str "uint64")); ("UINT8", Lit (str "uint8"));
   ("UNION", Lit (str "union")); ("USING", Lit (str "using")); ("VALUEOF", Lit (str "valueof"));
   ("VARINT", Lit (str "varint")); ("VARINT16", Lit (str "varint16")); ("VARINT32", Lit (str "varint32"));
   ("VARINT64", Lit (str "varint64")); ("VARSIZE", Lit (str "varsize")); ("VARUINT", Lit (str "varuint"));
   ("VARUINT16", Lit (str "varuint16")); ("VARUINT32", Lit (str "varuint32")); ("VARUINT64", Lit (str "varuint64"));
   ("COMPAT_VERSION", Lit (str "zserio_compatibility_version"))].
(** ZserioLexer.g4:110-160 *)
Definition other_rules : list (string * rule) :=
  [("WS", Re (Ch (one_of blank)));
   ("DOC_COMMENT", Between (str "/**") (str "*/"));
   ("MARKDOWN_COMMENT", Between (str "/*!") (str "*/"));
   ("BLOCK_COMMENT", Between (str "/*") (str "*/"));
   ("LINE_COMMENT", Re LINE_COMMENT);
   ("BOOL_LITERAL", Lit (str "true")); ("BOOL_LITERAL", Lit (str "false"));
   ("STRING_LITERAL", Re STRING_LITERAL);
   ("BINARY_LITERAL", Re BINARY_LITERAL);
   ("OCTAL_LITERAL", Re OCTAL_LITERAL);
   ("HEXADECIMAL_LITERAL", Re HEXADECIMAL_LITERAL);
   ("DOUBLE_LITERAL", Re DOUBLE_LITERAL);
   ("FLOAT_LITERAL", Re FLOAT_LITERAL);
   ("DECIMAL_LITERAL", Re DECIMAL_LITERAL);
   ("ID", Re ID);
   ("INVALID_STRING_LITERAL", Re INVALID_STRING_LITERAL);
   ("INVALID_TOKEN", Re INVALID_TOKEN)].
Definition rules : list (string * rule) := fixed_rules ++ other_rules.
Close Scope string_scope.

(** ** ANTLR: the longest match; the first rule among matches of the same length *)

Definition better (x y : option (string * nat)) : option (string * nat) :=
  match x, y with
  | None, _ => y
  | _, None => x
  | Some (_, n), Some (_, m) => if Nat.ltb n m then y else x
  end.
Fixpoint best (l : list (string * rule)) (s : text) : option (string * nat) :=
  match l with
  | [] => None
  | (name, r) :: l' => better (match match_rule r s with Some n => Some (name, n) | None => None end) (best l' s)
  end.

(** A token with the name of its rule and its text, or characters that belong to no
    token: an error is printed to the console and they are skipped. *)
Inductive item := Token (name : string) (t : text) | Skipped (t : text).

(** Lexer.safeMatch and Recover in ANTLR's runtime: after an error the characters that
    were looked at and one more are skipped. *)
Definition skipped (s : text) : nat := S (fold_right Nat.max 0 (map (fun '(_, r) => follows r s) rules)).

Fixpoint lex_from (fuel : nat) (s : text) : list item :=
  match fuel, s with
  | O, _ => []
  | _, [] => []
  | S fuel', _ =>
      match best rules s with
      | Some (name, S n) => Token name (firstn (S n) s) :: lex_from fuel' (skipn (S n) s)
      | _ => Skipped (firstn (skipped s) s) :: lex_from fuel' (skipn (skipped s) s)
      end
  end.
Definition lex (s : text) : list item := lex_from (length s) s.

(** What the parser sees: white space is dropped, comments are on other channels
    (ZserioLexer.g4:110-116, antlr.NewCommonTokenStream in internal/model/package.go:16-18). *)
Definition hidden (name : string) : bool :=
  existsb (String.eqb name) ["WS"; "DOC_COMMENT"; "MARKDOWN_COMMENT"; "BLOCK_COMMENT"; "LINE_COMMENT"]%string.
Definition visible (l : list item) : list (string * text) :=
  flat_map (fun i => match i with Token name t => if hidden name then [] else [(name, t)] | Skipped _ => [] end) l.

(** internal/model/package.go:10-31: the tokens of a file. *)
Definition tokens (s : text) : list (string * text) := visible (lex s).
