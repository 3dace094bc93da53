(** C100: how the text of a schema file is divided into tokens. *)

Require Import ZArith String Ascii List Bool.
From Verif Require Import Files Lexer LexerSpec LexerFacts LexerWordFacts LexerLiteralFacts.
From Verif Require Literals LiteralsSpec.
Import ListNotations.
Open Scope nat_scope.

(** A token is the longest text that any rule matches, of the first rule among equals. *)
Theorem C100_longest : forall s name t, (exists l, lex s = Token name t :: l) <-> next_token s name t.
Proof. exact lex_iff. Qed.
Print Assumptions C100_longest.

(** The next one begins where it ends. *)
Theorem C100_next : forall s name t l, lex s = Token name t :: l -> exists rest, s = t ++ rest /\ l = lex rest.
Proof. exact lex_rest. Qed.
Print Assumptions C100_next.

(** For every text the lexer ends, and the items are the text: nothing is lost, repeated
    or moved. *)
Theorem C100_text : forall s, concat (map item_text (lex s)) = s.
Proof. exact lex_text. Qed.
Print Assumptions C100_text.

(** Words with any layout before, between and after them are read as these words. *)
Theorem C100_words : forall l ws s, layout l -> written ws s -> tokens (l ++ s) = ws.
Proof. exact layout_written. Qed.
Print Assumptions C100_words.

(** So a text cannot be written with two sequences of words. *)
Theorem C100_unambiguous : forall ws ws' s, written ws s -> written ws' s -> ws = ws'.
Proof. exact written_unique. Qed.
Print Assumptions C100_unambiguous.

(** The words: operators and keywords; ... *)
Theorem C100_keyword : forall name w, In (name, w) fixed_words -> word name (str w).
Proof. exact fixed_word. Qed.
Print Assumptions C100_keyword.
(** ... letters, digits and underscores, beginning without a digit, that are no keyword; ... *)
Theorem C100_identifier : forall t, word "ID" t <->
  exists c s, t = c :: s /\ letter c = true /\ Forall word_like s /\ ~ keyword t.
Proof. exact id_words. Qed.
Print Assumptions C100_identifier.
(** ... the integer literals, ... *)
Theorem C100_integer : forall name k t, int_token name k -> (word name t <-> exists z, LiteralsSpec.int_literal k t z).
Proof. exact int_words_iff. Qed.
Print Assumptions C100_integer.
(** ... the floating point literals ... *)
Theorem C100_double : forall t, word "DOUBLE_LITERAL" t <-> exists m e, LiteralsSpec.double_literal t m e.
Proof. exact double_words. Qed.
Print Assumptions C100_double.
Theorem C100_float : forall t, word "FLOAT_LITERAL" t <-> exists m e, LiteralsSpec.float_literal t m e.
Proof. exact float_words. Qed.
Print Assumptions C100_float.
(** ... and the string literals, on one line. *)
Theorem C100_string : forall t, word "STRING_LITERAL" t <->
  exists b v, t = quote :: b ++ [quote] /\ LiteralsSpec.string_body b v /\ forall c, In c b -> ~ In c line_end.
Proof. exact string_words_iff. Qed.
Print Assumptions C100_string.

(** A comment without content does not end where it seems to: everything up to the end
    of the next comment is dropped. *)
Theorem C100_empty_comment_refuted : forall code s, first_at_end (str "*/") code ->
  tokens (str "/**/" ++ code ++ str "*/" ++ s) = tokens s.
Proof. exact empty_comment. Qed.
Print Assumptions C100_empty_comment_refuted.

(** Where no rule matches, characters are dropped, and the file is read as if they were
    not there. *)
Theorem C100_stray : forall s, s <> [] -> (forall name t, ~ next_token s name t) ->
  exists x rest, s = x ++ rest /\ x <> [] /\ lex s = Skipped x :: lex rest /\ tokens s = tokens rest.
Proof. exact stray. Qed.
Print Assumptions C100_stray.

(** ** Cases *)

Open Scope string_scope.
Ltac plain := vm_compute; intros ? [].
Example C100_applies : written
  [("STRUCTURE", str "struct"); ("ID", str "structure"); ("LBRACE", str "{");
   ("BIT_FIELD", str "bit"); ("COLON", str ":"); ("DECIMAL_LITERAL", str "3"); ("ID", str "a"); ("ASSIGN", str "="); ("HEXADECIMAL_LITERAL", str "0x1F"); ("SEMICOLON", str ";");
   ("RBRACE", str "}")]
  (str "struct structure{bit:3/**a*/a=0x1F; }//end").
Proof.
  Local Ltac w n t l s := apply (WWord n (str t) (str l) _ (str s)); [apply word_by_best; [vm_compute; reflexivity|reflexivity|discriminate]|split; [|apply glues_all_ok; vm_compute; reflexivity]|].
  Local Ltac sp := apply LBlank; [vm_compute; tauto|apply LNone].
  w "STRUCTURE" "struct" " " "structure{bit:3/**a*/a=0x1F; }//end"; [sp|].
  w "ID" "structure" "" "{bit:3/**a*/a=0x1F; }//end"; [apply LNone|].
  w "LBRACE" "{" "" "bit:3/**a*/a=0x1F; }//end"; [apply LNone|].
  w "BIT_FIELD" "bit" "" ":3/**a*/a=0x1F; }//end"; [apply LNone|].
  w "COLON" ":" "" "3/**a*/a=0x1F; }//end"; [apply LNone|].
  w "DECIMAL_LITERAL" "3" "/**a*/" "a=0x1F; }//end".
  { apply (LBlock (str "*a") []); [discriminate| |apply LNone]. intros x y H.
    destruct x as [|c1 [|c2 [|c3 [|c4 [|c5 x]]]]]; cbn in H; try discriminate H; injection H; auto. }
  w "ID" "a" "" "=0x1F; }//end"; [apply LNone|].
  w "ASSIGN" "=" "" "0x1F; }//end"; [apply LNone|].
  w "HEXADECIMAL_LITERAL" "0x1F" "" "; }//end"; [apply LNone|].
  w "SEMICOLON" ";" " " "}//end"; [sp|].
  w "RBRACE" "}" "" "//end"; [apply LNone|].
  apply (WLast (str "end")). intros d Hd He. vm_compute in Hd, He. intuition (subst; discriminate).
Qed.
(** Without the space the two words would be one; a sign after a numeral is a sign. *)
Example C100_glue : tokens (str "structstructure") = [("ID", str "structstructure")] /\
  tokens (str "1-2") = [("DECIMAL_LITERAL", str "1"); ("MINUS", str "-"); ("DECIMAL_LITERAL", str "2")] /\
  tokens (str "1e-2") = [("DOUBLE_LITERAL", str "1e-2")] /\
  tokens (str "09") = [("INVALID_TOKEN", str "09")].
Proof. vm_compute. auto. Qed.
Example C100_empty_comment_applies :
  tokens (str "/**/ struct A { uint8 a; }; /* the end */ struct B { };") = tokens (str " struct B { };").
Proof. vm_compute. reflexivity. Qed.
Example C100_stray_applies : tokens (str "uint8 # a;") = tokens (str "uint8 a;") /\
  lex (str "# a") = [Skipped (str "#"); Token "WS" (str " "); Token "ID" (str "a")].
Proof. vm_compute. auto. Qed.
