(** What the rules of the lexer mean, and how a text is made of words. *)

Require Import ZArith String Ascii List Bool.
From Verif Require Import Files Lexer.
From Verif Require Literals.
Import ListNotations.
Open Scope nat_scope.
Open Scope char_scope.

(** The texts of a regular expression. *)
Inductive matches : re -> text -> Prop :=
| MEps : matches Eps []
| MCh : forall p c, p c = true -> matches (Ch p) [c]
| MSeq : forall a b s t, matches a s -> matches b t -> matches (Seq a b) (s ++ t)
| MAltL : forall a b s, matches a s -> matches (Alt a b) s
| MAltR : forall a b s, matches b s -> matches (Alt a b) s
| MStar0 : forall a, matches (Star a) []
| MStar : forall a s t, matches a s -> matches (Star a) t -> matches (Star a) (s ++ t).

(** [b] occurs in the text at its end and nowhere before. *)
Definition first_at_end (b body : text) : Prop := forall x y, body ++ b = x ++ b ++ y -> y = [].

(** The texts of a rule. *)
Definition rule_text (r : rule) (t : text) : Prop :=
  match r with
  | Lit l => t = l
  | Re e => matches e t
  | Between a b => exists body, t = a ++ body ++ b /\ first_at_end b body
  end.

(** The text begins with a token of the rule: no rule has a longer text there, and no
    rule before it one of the same length. *)
Definition next_token (s : text) (name : string) (t : text) : Prop :=
  exists before r after rest, rules = before ++ (name, r) :: after /\ s = t ++ rest /\ t <> [] /\ rule_text r t /\
    (forall name' r' t' rest', In (name', r') rules -> s = t' ++ rest' -> rule_text r' t' -> (length t' <= length t)%nat) /\
    (forall name' r' t' rest', In (name', r') before -> s = t' ++ rest' -> rule_text r' t' -> (length t' < length t)%nat).

(** The text is one token for the parser. *)
Definition word (name : string) (t : text) : Prop := next_token t name t /\ hidden name = false /\ name <> "INVALID_STRING_LITERAL"%string.

(** The character could continue the word to a longer one (or begin a comment). *)
Definition word_like (c : ascii) : Prop := word_char c = true.
Definition numeric_start (c : ascii) : Prop := digit c = true \/ c = ".".
Definition operator_pairs : list (text * ascii) :=
  [(str "=", "="); (str ">", "="); (str "<", "="); (str "!", "="); (str "<", "<"); (str "&", "&"); (str "|", "|");
   (str "/", "/"); (str "/", "*")].
Inductive glues (t : text) (c : ascii) : Prop :=
| GWord : forall t' d, t = t' ++ [d] -> word_like d -> word_like c -> glues t c
| GNumber : forall d t', t = d :: t' -> numeric_start d -> word_like c \/ In c (str ".+-") -> glues t c
| GOperator : In (t, c) operator_pairs -> glues t c.

(** Layout: white space and comments.  A line comment includes the end of its line. *)
Inductive layout : text -> Prop :=
| LNone : layout []
| LBlank : forall c l, In c blank -> layout l -> layout (c :: l)
| LLine : forall body c l, (forall d, In d body -> ~ In d line_end) -> In c line_end -> layout l ->
    layout (str "//" ++ body ++ c :: l)
| LBlock : forall body l, body <> [] -> first_at_end (str "*/") body -> layout l ->
    layout (str "/*" ++ body ++ str "*/" ++ l).

(** Words with layout between them: nothing between two words only if the second
    cannot be taken for a part of the first, and no comment directly after a slash.  The
    last line may be a line comment without an end. *)
Definition separates (t : text) (l : text) (next : text) : Prop :=
  layout l /\ match l ++ next with [] => True | c :: _ => ~ glues t c end.
Inductive written : list (string * text) -> text -> Prop :=
| WNone : written [] []
| WLast : forall body, (forall d, In d body -> ~ In d line_end) -> written [] (str "//" ++ body)
| WWord : forall name t l ws s, word name t -> separates t l s -> written ws s -> written ((name, t) :: ws) (t ++ l ++ s).
(** Nothing is lost. *)
Definition item_text (i : item) : text := match i with Token _ t => t | Skipped t => t end.

(** The fixed words: operators, keywords and the two boolean literals. *)
Definition fixed_words : list (string * string) :=
  [("AND", "&"); ("ASSIGN", "="); ("BANG", "!"); ("COLON", ":"); ("COMMA", ","); ("DIVIDE", "/"); ("DOT", "."); ("EQ", "=="); ("GE", ">=");
   ("GT", ">"); ("LBRACE", "{"); ("LBRACKET", "["); ("LE", "<="); ("LOGICAL_AND", "&&"); ("LOGICAL_OR", "||"); ("LPAREN", "("); ("LSHIFT", "<<");
   ("LT", "<"); ("MINUS", "-"); ("MODULO", "%"); ("MULTIPLY", "*"); ("NE", "!="); ("OR", "|"); ("PLUS", "+"); ("QUESTIONMARK", "?"); ("RBRACE", "}");
   ("RBRACKET", "]"); ("RPAREN", ")"); ("SEMICOLON", ";"); ("TILDE", "~"); ("XOR", "^"); ("ALIGN", "align"); ("BIT_FIELD", "bit"); ("BOOL", "bool");
   ("BITMASK", "bitmask"); ("BYTES", "bytes"); ("CASE", "case"); ("CHOICE", "choice"); ("CONST", "const"); ("DEFAULT", "default");
   ("DEPRECATED", "@deprecated"); ("ENUM", "enum"); ("EXPLICIT", "explicit"); ("EXTEND", "extend"); ("EXTERN", "extern"); ("FLOAT16", "float16");
   ("FLOAT32", "float32"); ("FLOAT64", "float64"); ("FUNCTION", "function"); ("IF", "if"); ("IMPLICIT", "implicit"); ("IMPORT", "import");
   ("INDEX", "@index"); ("INSTANTIATE", "instantiate"); ("INT_FIELD", "int"); ("INT16", "int16"); ("INT32", "int32"); ("INT64", "int64");
   ("INT8", "int8"); ("ISSET", "isset"); ("LENGTHOF", "lengthof"); ("NUMBITS", "numbits"); ("ON", "on"); ("OPTIONAL", "optional");
   ("PACKAGE", "package"); ("PACKED", "packed"); ("PUBSUB", "pubsub"); ("PUBLISH", "publish"); ("REMOVED", "@removed"); ("RETURN", "return");
   ("RULE", "rule"); ("RULE_GROUP", "rule_group"); ("SERVICE", "service"); ("SQL", "sql"); ("SQL_DATABASE", "sql_database");
   ("SQL_TABLE", "sql_table"); ("SQL_VIRTUAL", "sql_virtual"); ("SQL_WITHOUT_ROWID", "sql_without_rowid"); ("STRING", "string");
   ("STRUCTURE", "struct"); ("SUBSCRIBE", "subscribe"); ("SUBTYPE", "subtype"); ("TOPIC", "topic"); ("UINT16", "uint16"); ("UINT32", "uint32");
   ("UINT64", "uint64"); ("UINT8", "uint8"); ("UNION", "union"); ("USING", "using"); ("VALUEOF", "valueof"); ("VARINT", "varint");
   ("VARINT16", "varint16"); ("VARINT32", "varint32"); ("VARINT64", "varint64"); ("VARSIZE", "varsize"); ("VARUINT", "varuint");
   ("VARUINT16", "varuint16"); ("VARUINT32", "varuint32"); ("VARUINT64", "varuint64"); ("COMPAT_VERSION", "zserio_compatibility_version");
   ("BOOL_LITERAL", "true"); ("BOOL_LITERAL", "false")]%string.
Definition keyword (t : text) : Prop := exists name w, In (name, w) fixed_words /\ t = str w.

(** The names of the tokens of integer literals. *)
Definition int_token (name : string) (k : Literals.token) : Prop :=
  In (name, k) [("BINARY_LITERAL", Literals.TBinary); ("OCTAL_LITERAL", Literals.TOctal);
                ("HEXADECIMAL_LITERAL", Literals.THex); ("DECIMAL_LITERAL", Literals.TDecimal)]%string.
