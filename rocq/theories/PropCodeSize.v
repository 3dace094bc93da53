(** C106: predicted sizes of values of generated types whose schema has expressions. *)

Require Import ZArith String Ascii List Bool Lia ZifyBool ZifyNat.
From Verif Require Import Bits Stream Spec PosSpec Scalars Traits TraitSpec Marshal Schema SchemaSpec SchemaSize Refine RefineSize.
From Verif Require AstExpr AstTypes GoSyntax ExprPrint GoTypes GoTypesFacts CodecChoice CodecChoiceSpec Literals LiteralsSpec Lexer LexerSpec LexerLiteralFacts ParserTextFacts.
From Verif Require Import Packages Visitor VisitorSpec Parser ParserSpec FileParser FileParserSpec FileParserSound.
From Verif Require Import Compile CompileSpec CompileThms ExprCode ExprCodeSpec ExprCodeFacts ExprCodeThms PropExprCode.
Import ListNotations.
Open Scope string_scope.
Open Scope list_scope.

(** If the text of a file compiles, the predicted sizes of the values of the schema that
    it stands for are the sizes that the generated code predicts and writes ([measurable]:
    the types of C24_exact). *)
Theorem C106_size : forall I f ts s names sch code n id ps v, file_ok true f -> file_written f ts -> text_of ts s ->
  exact_reading (cfl_directives f) I -> file_means I f names sch -> generate_code names s = Some code ->
  causal sch -> valid sch n false id ps v -> measurable sch n id ps v ->
  forall fuel w, (n <= fuel)%nat -> wfaults w = [] ->
  exists bits, MarshalZserio code fuel id ps v w = (mkW (wbits w ++ bits) [], Ok tt) /\
    ZserioBitSize code fuel id ps v (Z.of_nat (length (wbits w))) = Ok (Z.of_nat (length bits)).
Proof.
  intros I f ts s names sch code n id ps v Ok W T X H G C V M fuel w L Hw. pose proof (text_code I f ts s names sch code Ok W T H X G) as R. clear G.
  destruct (size_exact sch n id ps v C V M fuel w L Hw) as (bits & E & Z). exists bits. split.
  - destruct (mu_marshal _ _ (run_more sch code R fuel) id ps v w) as [P|P]; unfold MarshalZserio in *; [rewrite E in P; discriminate P|congruence].
  - destruct (size_more sch code R fuel id ps v (Z.of_nat (length (wbits w)))) as [P|P]; unfold ZserioBitSize in *; [rewrite Z in P; discriminate P|congruence].
Qed.
Print Assumptions C106_size.

(** All hypotheses, for a file with a bit field of n + 1 bits. *)
Definition bits_text : string := "package a; struct S{uint8 n;bit<n+1> x;};".
Definition bits_struct : cstruct := mkCS "S" [] [] [fld (ft (CKeyword "uint8") CNone "n" None) None; fld (ft (CBitField false None) (CLength tiny_length) "x" None) None] [].
Definition bits_file : cfile := mkCFile None (Some ["a"]) [] [CStruct bits_struct].
Definition bits_tokens : list ptok := [("PACKAGE", "package"); ("ID", "a"); ("SEMICOLON", ";"); ("STRUCTURE", "struct"); ("ID", "S"); ("LBRACE", "{");
  ("UINT8", "uint8"); ("ID", "n"); ("SEMICOLON", ";"); ("BIT_FIELD", "bit"); ("LT", "<"); ("ID", "n"); ("PLUS", "+"); ("DECIMAL_LITERAL", "1");
  ("GT", ">"); ("ID", "x"); ("SEMICOLON", ";"); ("RBRACE", "}"); ("SEMICOLON", ";")].
Definition bits_schema : schema := [DStruct [plain (TBasic (Std BUint8)); plain (TBasic (Bits false (GU 64) (m_int tiny_reading "S" tiny_length)))]].
Local Ltac w n t l s := apply (LexerSpec.WWord n (list_ascii_of_string t) (list_ascii_of_string l) _ (list_ascii_of_string s)); [apply LexerLiteralFacts.word_by_best; [vm_compute; reflexivity|reflexivity|discriminate]|
  split; [|apply LexerLiteralFacts.glues_all_ok; vm_compute; reflexivity]|].
Local Ltac none := apply LexerSpec.LNone.
Local Ltac blank := apply LexerSpec.LBlank; [vm_compute; tauto | apply LexerSpec.LNone].
Lemma bits_is_text : text_of bits_tokens (list_ascii_of_string bits_text).
Proof.
  exists [], (list_ascii_of_string bits_text). split; [reflexivity|]. split; [none|].
  w "PACKAGE" "package" " " "a; struct S{uint8 n;bit<n+1> x;};"; [blank|]. w "ID" "a" "" "; struct S{uint8 n;bit<n+1> x;};"; [none|].
  w "SEMICOLON" ";" " " "struct S{uint8 n;bit<n+1> x;};"; [blank|]. w "STRUCTURE" "struct" " " "S{uint8 n;bit<n+1> x;};"; [blank|]. w "ID" "S" "" "{uint8 n;bit<n+1> x;};"; [none|].
  w "LBRACE" "{" "" "uint8 n;bit<n+1> x;};"; [none|]. w "UINT8" "uint8" " " "n;bit<n+1> x;};"; [blank|]. w "ID" "n" "" ";bit<n+1> x;};"; [none|].
  w "SEMICOLON" ";" "" "bit<n+1> x;};"; [none|]. w "BIT_FIELD" "bit" "" "<n+1> x;};"; [none|]. w "LT" "<" "" "n+1> x;};"; [none|]. w "ID" "n" "" "+1> x;};"; [none|].
  w "PLUS" "+" "" "1> x;};"; [none|]. w "DECIMAL_LITERAL" "1" "" "> x;};"; [none|]. w "GT" ">" " " "x;};"; [blank|]. w "ID" "x" "" ";};"; [none|]. w "SEMICOLON" ";" "" "};"; [none|]. w "RBRACE" "}" "" ";"; [none|].
  apply (LexerSpec.WWord "SEMICOLON" (list_ascii_of_string ";") [] _ []); [apply LexerLiteralFacts.word_by_best; [vm_compute; reflexivity|reflexivity|discriminate]|split; [none | exact I]|apply LexerSpec.WNone].
Qed.
Lemma bits_parsed : parse_file (stream (list_ascii_of_string bits_text)) = Some bits_file.
Proof. vm_compute. reflexivity. Qed.
Lemma bits_n : forall E index z, read_field 0 E = Some (VInt z) -> (0 <= z < 256)%Z -> int_value (cfl_directives bits_file) "S" E index 0 256 (CId "n") z.
Proof.
  intros E index z R B. apply (IV_member _ "S" E index 0 256 "n" (CKeyword "uint8") (GU 8) (read_field 0)); [|intros Q; cbn in Q; intuition discriminate|apply uint8_type|exact uint8_values|exact R|exact B].
  apply (ME_field _ "S" bits_struct 0 (fld (ft (CKeyword "uint8") CNone "n" None) None)); [now left|reflexivity|reflexivity|reflexivity].
Qed.
Lemma bits_one : forall E index, int_value (cfl_directives bits_file) "S" E index 0 256 (lit "1") 1.
Proof. intros E index. apply IV_literal; [apply SL_plain, (digit_literal "1" 1); cbn; tauto|lia]. Qed.
Lemma bits_exact : exact_reading (cfl_directives bits_file) tiny_reading.
Proof.
  split; [|split; [|split]].
  - intros scope e E z (t & U & H) R. destruct U as [s f I N F|u f I N F|c l f I N F|c f I N F]; cbn in I; destruct I as [I|[]]; try discriminate I. injection I as <-. cbn in N. subst scope.
    cbn in F. destruct F as [<-|[<-|[]]]; cbn in H; destruct H as [H|H]; try discriminate H. injection H as <-. cbn [m_int tiny_reading] in R. unfold tiny_int, and_then in R.
    destruct (number (read_field 0 E)) as [n|] eqn:Rn; [|discriminate]. apply number_inv in Rn. destruct Rn as (Rn & Bn). apply small_inv in R. destruct R as (-> & B).
    exists 0%Z, 256%Z. split; [lia|]. split; [lia|]. apply (IV_op _ "S" E None 0 256 BPlus (CId "n") (lit "1") n 1); [exact (bits_n E None n Rn Bn)|apply bits_one|reflexivity|exact B].
  - discriminate.
  - discriminate.
  - intros c e (l & f & I & _). cbn in I. destruct I as [I|[]]. discriminate I.
Qed.
Lemma bits_means : file_means tiny_reading bits_file ["S"] bits_schema.
Proof.
  split; [discriminate|]. split; [repeat constructor; cbn; intuition discriminate|].
  split; [repeat constructor; discriminate|]. split; [repeat constructor; cbn; tauto|]. split; [intros n; cbn; tauto|].
  apply Forall2_cons; [|constructor]. apply (DM_struct _ _ _ bits_struct); [now left|reflexivity|].
  repeat apply Forall2_cons; [..|constructor].
  - refine (FM _ _ _ _ (fld (ft (CKeyword "uint8") CNone "n" None) None) _ None 0 false _ _ _); [apply TM_builtin; apply (BM_keyword _ _ _ _ "uint8"); cbn; tauto|constructor|constructor].
  - refine (FM _ _ _ _ (fld (ft (CBitField false None) (CLength tiny_length) "x" None) None) _ None 0 false _ _ _); [|constructor|constructor].
    apply TM_builtin. apply (BM_length tiny_reading "S" false tiny_length).
Qed.
Definition bits_code : schema := match generate_code ["S"] (list_ascii_of_string bits_text) with Some code => code | None => [] end.
Lemma bits_generated : match generate_code ["S"] (list_ascii_of_string bits_text) with Some _ => true | None => false end = true.
Proof. vm_compute. reflexivity. Qed.
(** n = 4 and 17, in five bits. *)
Definition bits_value : value := VRec 0 [Some (VInt 4); Some (VInt 17)].
Example C106_size_applies : file_ok true bits_file /\ file_written bits_file bits_tokens /\ text_of bits_tokens (list_ascii_of_string bits_text) /\
  exact_reading (cfl_directives bits_file) tiny_reading /\ file_means tiny_reading bits_file ["S"] bits_schema /\ generate_code ["S"] (list_ascii_of_string bits_text) <> None /\
  causal bits_schema /\ valid bits_schema 1 false 0 [] bits_value /\ measurable bits_schema 1 0 [] bits_value /\ ZserioBitSize bits_code 1 0 [] bits_value 0 = Ok 13%Z.
Proof.
  split; [|split; [|split; [exact bits_is_text|split; [exact bits_exact|split; [exact bits_means|split; [|split; [|split; [|split]]]]]]]].
  - unfold file_ok. cbn -[like_field]. unfold FileParserSpec.struct_ok, params_ok, FileParserSpec.field_ok, field_type_ok, inst_ok. cbn -[like_field]. intuition (try discriminate; try lia).
  - rewrite <- (ParserTextFacts.stream_text _ _ bits_is_text). exact (proj1 (text_file_sound _ _ bits_parsed)).
  - intros Q. pose proof bits_generated as G. rewrite Q in G. discriminate G.
  - intros id d i f Hd Hf. destruct id as [|[|id]]; try discriminate Hd. injection Hd as <-. destruct i as [|[|[|i]]]; try discriminate Hf; injection Hf as <-; intros ps slots Hl.
    + repeat split.
    + destruct slots as [|a [|b slots]]; cbn in Hl; try lia. repeat split.
  - cbn [valid]. eexists. split; [reflexivity|]. eexists. split; [reflexivity|]. split; [reflexivity|].
    intros [|[|[|i]]] f Hi; try discriminate Hi; injection Hi as <-; (split; [cbn; lia|]); exists true; (split; [reflexivity|]); (split; [|discriminate]).
    + exists BUint8, 4%Z. split; [reflexivity|]. split; [split; [now left|lia]|]. split; [cbn; lia|reflexivity].
    + exists (BBits (GU 64) 5), 17%Z. split; [reflexivity|]. split; [split; [unfold go_width; tauto|lia]|]. split; [cbn; lia|reflexivity].
  - cbn [measurable nth_error bits_schema]. intros [|[|[|i]]] f x Hi Hx; try discriminate Hi; injection Hi as <-; cbn in Hx |- *; [exact I|].
    intros n. unfold tiny_int. cbn. intros Q. injection Q as <-. lia.
  - vm_compute. reflexivity.
Qed.
