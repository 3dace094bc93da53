(** C101: which tree the text of an expression stands for. *)

Require Import ZArith String Ascii List Bool Lia.
From Verif Require Literals Lexer LexerSpec LexerLiteralFacts.
From Verif Require Import Files Visitor Parser ParserSpec ParserFacts ParserTextFacts.
Import ListNotations.
Open Scope nat_scope.
Open Scope string_scope.
Open Scope list_scope.

(** The tokens of every proper tree are read as this tree, whatever comes after them in
    the schema, ... *)
Theorem C101_reads : forall e rest, proper e -> ends rest -> parse_expression false (expr_tokens e ++ rest) = Some (e, rest).
Proof. exact reads_expression. Qed.
Print Assumptions C101_reads.

(** ... also as the length of a bit field, where > can be an operator or the end. *)
Theorem C101_length : forall e rest, proper e -> after_length rest -> parse_expression true (expr_tokens e ++ rest) = Some (e, rest).
Proof. exact reads_length. Qed.
Print Assumptions C101_length.

(** Nothing else is read: what the parser returns is a proper tree, and its tokens
    with what is left are the tokens of the text. *)
Theorem C101_sound : forall s inside e rest, parse_expression inside (stream s) = Some (e, rest) -> stream s = expr_tokens e ++ rest /\ proper e.
Proof. intros s inside e rest. apply parse_sound, stream_lexed. Qed.
Print Assumptions C101_sound.

(** No two proper trees are written alike. *)
Theorem C101_unique : forall a b, proper a -> proper b -> expr_tokens a = expr_tokens b -> a = b.
Proof. exact proper_unique. Qed.
Print Assumptions C101_unique.

(** Every tree can be written, with parentheses where they are needed. *)
Theorem C101_parentheses : forall e, exists e', proper e' /\ bare e' = bare e.
Proof. exact every_tree. Qed.
Print Assumptions C101_parentheses.

(** From the characters on: layout and comments between the tokens make no difference. *)
Theorem C101_text : forall e s, proper e -> text_of (expr_tokens e) s -> parse_expression false (stream s) = Some (e, []).
Proof. exact reads_text. Qed.
Print Assumptions C101_text.

(** ** Cases *)

Definition read (s : string) : option (cexpr * list ptok) := parse_expression false (stream (str s)).
Definition v (s : string) : cexpr := CId s.
Example C101_cases :
  read "a+b*c-d" = Some (CBinary BMinus (CBinary BPlus (v "a") (CBinary BMul (v "b") (v "c"))) (v "d"), []) /\
  read "a ? b : c ? d : e" = Some (CTernary (v "a") (v "b") (CTernary (v "c") (v "d") (v "e")), []) /\
  read "-a.b[i] << 2 == ~x" = Some (CBinary BEq (CBinary BShl (CUnary UMinus (CArray (CDot (v "a") "b") (v "i")))
     (CLiteral Literals.TDecimal "2")) (CUnary UTilde (v "x")), []) /\
  read "a & b == c" = Some (CBinary BAnd (v "a") (CBinary BEq (v "b") (v "c")), []) /\
  read "(a + b) * f()" = Some (CBinary BMul (CParen (CBinary BPlus (v "a") (v "b"))) (CCall (v "f")), []) /\
  read "a < b > c" = Some (CBinary BGt (CBinary BLt (v "a") (v "b")) (v "c"), []) /\
  read "a +" = None.
Proof. vm_compute. repeat split. Qed.
(** Two > are a shift, even with a space or a comment between them. *)
Example C101_shift : read "a >> b" = Some (CBinary BShr (v "a") (v "b"), []) /\ read "a > > b" = read "a >> b" /\ read "a >/*x*/> b" = read "a >> b".
Proof. vm_compute. repeat split. Qed.
Example C101_proper : proper (CBinary BMinus (CBinary BPlus (v "a") (CBinary BMul (v "b") (v "c"))) (v "d")) /\
  ~ proper (CBinary BMinus (v "a") (CBinary BPlus (v "b") (v "c"))) /\ ends [("SEMICOLON", ";")].
Proof.
  cbn. split; [lia|]. split; [lia|]. intros H. decompose [or] H; try discriminate; assumption.
Qed.
(** bit<a > b> c; *)
Example C101_length_applies : after_length [("GT", ">"); ("ID", "c"); ("SEMICOLON", ";")] /\
  parse_expression true (stream (str "a > b> c;")) = Some (CBinary BGt (v "a") (v "b"), [("GT", ">"); ("ID", "c"); ("SEMICOLON", ";")]) /\
  parse_expression true (stream (str "a ? b > c : d> e[n > m];")) =
    Some (CTernary (v "a") (CBinary BGt (v "b") (v "c")) (v "d"), stream (str "> e[n > m];")).
Proof. split; [constructor; cbn; tauto|]. vm_compute. repeat split. Qed.
Example C101_text_applies : text_of (expr_tokens (CBinary BPlus (v "a") (v "b"))) (str " a +b").
Proof.
  exists (str " "), (str "a +b"). split; [reflexivity|]. split; [apply LexerSpec.LBlank; [vm_compute; tauto | apply LexerSpec.LNone]|].
  Local Ltac w n t l s := apply (LexerSpec.WWord n (str t) (str l) _ (str s)); [apply LexerLiteralFacts.word_by_best; [vm_compute; reflexivity|reflexivity|discriminate]|
    split; [|apply LexerLiteralFacts.glues_all_ok; vm_compute; reflexivity]|].
  w "ID" "a" " " "+b"; [apply LexerSpec.LBlank; [vm_compute; tauto | apply LexerSpec.LNone]|].
  w "PLUS" "+" "" "b"; [apply LexerSpec.LNone|].
  apply (LexerSpec.WWord "ID" (str "b") (str "") _ (str "")); [apply LexerLiteralFacts.word_by_best; [vm_compute; reflexivity|reflexivity|discriminate]|split; [apply LexerSpec.LNone | exact I]|apply LexerSpec.WNone].
Qed.
