(** C105: the code that is generated for the text of a schema file. *)

Require Import ZArith String Ascii List Bool Lia.
From Verif Require Import Bits Stream Spec PosSpec Scalars Traits Marshal Schema SchemaSpec WireSpec WireFacts PropWire.
From Verif Require AstExpr AstTypes CodecChoice CodecChoiceSpec Literals LiteralsSpec Lexer LexerSpec LexerLiteralFacts.
From Verif Require Import Packages Visitor VisitorSpec Parser ParserSpec FileParser FileParserSpec FileParserSound.
From Verif Require Import Compile CompileSpec CompileFacts CompileThms.
Import ListNotations.
Open Scope string_scope.
Open Scope list_scope.

(** The schema that is generated from a text is the one that the file stands for,
    whatever layout and comments there are. *)
Theorem C105_text : forall I M f ts s names sch, CompileSpec.agree I M -> file_ok true f -> file_written f ts -> text_of ts s ->
  file_means I f names sch -> generate M names s = Some sch.
Proof. exact text_compiled. Qed.
Print Assumptions C105_text.
(** The same for every text that is read at all, even if there are two ways to read it. *)
Theorem C105_read : forall I M f s names sch, CompileSpec.agree I M -> parse_file (stream s) = Some f ->
  file_means I f names sch -> file_written f (stream s) /\ generate M names s = Some sch.
Proof.
  intros I M f s names sch A P H. split; [exact (proj1 (text_file_sound s f P))|]. unfold generate. rewrite P.
  destruct (file_compiled I M f names sch A H) as (v & -> & E). exact E.
Qed.
Print Assumptions C105_read.
(** So a file stands for one schema. *)
Theorem C105_unique : forall M I f names sch sch', CompileSpec.agree I M -> file_means I f names sch -> file_means I f names sch' -> sch = sch'.
Proof.
  intros M I f names sch sch' A H H'. destruct (file_compiled I M f names sch A H) as (v & E1 & E2).
  destruct (file_compiled I M f names sch' A H') as (v' & E1' & E2'). congruence.
Qed.
Print Assumptions C105_unique.

(** Its values are stored in the wire format of that schema. *)
Theorem C105_wire : forall I M f ts s names sch n id ps v, CompileSpec.agree I M -> file_ok true f -> file_written f ts -> text_of ts s ->
  file_means I f names sch -> causal sch -> valid sch n false id ps v ->
  exists code enc, generate M names s = Some code /\ wire_format sch n id ps v = Some enc /\
    forall fuel, (n <= fuel)%nat -> roundtrips_at (MarshalZserio code fuel id ps v) (UnmarshalZserio code fuel id ps) enc v.
Proof.
  intros I M f ts s names sch n id ps v A Ok W T H C V. destruct (C77_wire_format sch n id ps v C V) as (enc & E & R).
  exists sch, enc. split; [exact (C105_text I M f ts s names sch A Ok W T H)|]. split; [exact E|exact R].
Qed.
Print Assumptions C105_wire.

(** The codec of a builtin type is what the generated calls of ztype do. *)
Theorem C105_codec : forall n bits dyn w b, (0 <= bits)%Z -> builtin_basic (AstExpr.mkT n bits dyn) w = Some b ->
  exists go, AstTypes.GoType (AstExpr.mkT n bits dyn) = Some go /\
  (forall E v, CodecChoice.run_write (CodecChoice.encode_call (AstExpr.mkT n bits dyn) w) E v = Some (write_basic E b v)) /\
  (forall E, CodecChoice.run_read (CodecChoice.decode_call (AstExpr.mkT n bits dyn) w) go E = Some (read_basic E b)).
Proof. exact basic_code. Qed.
Print Assumptions C105_codec.

(** ** A file *)

Definition ex_text : string :=
"package a.b; // an example
subtype uint16 Id;
subtype Id Ident;
enum bit:3 Color { RED, GREEN };
bitmask uint8 Flags { A, B };
struct Item(uint8 n) {
  Flags flags;
  align(8): Ident ids[n];
  optional string name;
  Color color if n > 1;
};
choice Pick(uint8 k) on k { case 1: case 2: int:5 a; case 3: ; default: bit<k> b; };
union Either { packed int32 v[]; Item(3) i; };
struct Main { uint8 n; Item(n) item; Pick(n) pick; Either u[]; };
".
Definition ex_names : list string := ["Main"; "Item"; "Pick"; "Either"; "Color"; "Flags"].

(** What its expressions mean: numbers, the parameters n and k, the field n of Main, and
    n > 1. *)
Definition ex_value (scope : string) (e : Visitor.expr) : Schema.expr :=
  match e with
  | Visitor.Expr TkId _ _ _ _ => fun E =>
      match (if scope =? "Main" then nth_error (e_slots E) 0 else option_map Some (nth_error (e_params E) 0))%string with
      | Some (Some (VInt z)) => Some z
      | _ => None
      end
  | Visitor.Expr (TkLiteral _) t _ _ _ => fun _ => Some (AstTypes.ParseUint8 t)
  | _ => fun _ => None
  end.
Definition ex_meaning : meaning Visitor.expr param := mkM _ _ ex_value
  (fun scope e E => match e with
     | Visitor.Expr TkGT _ (Some a) (Some b) _ => match ex_value scope a E, ex_value scope b E with Some x, Some y => Some (y <? x)%Z | _, _ => None end
     | _ => None
     end)
  (fun scope _ e E _ => option_map VInt (ex_value scope e E))
  (fun scope e => match e with Visitor.Expr (TkLiteral _) t _ _ _ => AstTypes.ParseUint8 t | _ => 0%Z end).
Definition ex_reading : reading := mkM _ _ (fun s e => m_int ex_meaning s (visit_expr e)) (fun s e => m_cond ex_meaning s (visit_expr e))
  (fun s p e => m_arg ex_meaning s (visit_param p) (visit_expr e)) (fun s e => m_label ex_meaning s (visit_expr e)).

Definition plain (t : ftype) : Schema.field := mkF t None false None 0 false.
Definition arg_of (scope : string) (p : string) (e : cexpr) : env -> nat -> option value := m_arg ex_reading scope (CKeyword "uint8", p) e.
Definition int_of (scope : string) (e : cexpr) : Schema.expr := m_int ex_reading scope e.
Definition ex_schema : schema := [
  DStruct [plain (TBasic (Std BUint8)); plain (Schema.TRef 1 (values_of [arg_of "Main" "n" (CId "n")])); plain (Schema.TRef 2 (values_of [arg_of "Main" "k" (CId "n")]));
           mkF (Schema.TRef 3 (values_of [])) (Some (None, false)) false None 0 false];
  DStruct [plain (Schema.TRef 5 (values_of [])); mkF (TBasic (Std BUint16)) (Some (Some (int_of "Item" (CId "n")), false)) false None 8 true;
           mkF (TBasic (Std BString)) None true None 0 false;
           mkF (Schema.TRef 4 (values_of [])) None false (Some (m_cond ex_reading "Item" (CBinary BGt (CId "n") (CLiteral Literals.TDecimal "1")))) 0 false];
  DChoice (parameter 0) [([1; 2]%Z, Some (plain (TBasic (Bits true (GS 8) (fun _ => Some 5%Z))))); ([3]%Z, None)]
    (Some (plain (TBasic (Bits false (GU 64) (int_of "Pick" (CId "k"))))));
  DUnion [mkF (TBasic (Std BInt32)) (Some (None, true)) false None 0 false; plain (Schema.TRef 1 (values_of [arg_of "Either" "n" (CLiteral Literals.TDecimal "3")]))];
  DScalar (Bits false (GU 8) (fun _ => Some 3%Z));
  DScalar (Std BUint8)].

Definition ft (t : ctype) (p : cparams) (n : string) (r : option (option cexpr)) : cfieldtype := mkCFT false false (mkCI t p) n r.
Definition fld (t : cfieldtype) : cfield := mkCF None None false false t None None None.
Definition ex_item : cstruct := mkCS "Item" [] [(CKeyword "uint8", "n")]
  [fld (ft (CNamed ["Flags"] []) CNone "flags" None);
   mkCF (Some (CLiteral Literals.TDecimal "8")) None false false (ft (CNamed ["Ident"] []) CNone "ids" (Some (Some (CId "n")))) None None None;
   mkCF None None false true (ft (CKeyword "string") CNone "name" None) None None None;
   mkCF None None false false (ft (CNamed ["Color"] []) CNone "color" None) None (Some (CBinary BGt (CId "n") (CLiteral Literals.TDecimal "1"))) None] [].
Definition ex_pick : cchoice := mkCC "Pick" [] [(CKeyword "uint8", "k")] (CId "k")
  [([CLiteral Literals.TDecimal "1"; CLiteral Literals.TDecimal "2"], Some (mkCCF (ft (CBitField true (Some 5%nat)) CNone "a" None) None));
   ([CLiteral Literals.TDecimal "3"], None)]
  (Some (Some (mkCCF (ft (CBitField false None) (CLength (CId "k")) "b" None) None))) [].
Definition ex_either : cunion := mkCU "Either" [] []
  [mkCCF (mkCFT true false (mkCI (CKeyword "int32") CNone) "v" (Some None)) None;
   mkCCF (ft (CNamed ["Item"] []) (CArgs [CArg (CLiteral Literals.TDecimal "3")]) "i" None) None] [].
Definition ex_main : cstruct := mkCS "Main" [] []
  [fld (ft (CKeyword "uint8") CNone "n" None); fld (ft (CNamed ["Item"] []) (CArgs [CArg (CId "n")]) "item" None);
   fld (ft (CNamed ["Pick"] []) (CArgs [CArg (CId "n")]) "pick" None); fld (ft (CNamed ["Either"] []) CNone "u" (Some None))] [].
Definition ex_color : cenum := mkCE (mkCI (CBitField false (Some 3%nat)) CNone) "Color" [(None, "RED", None); (None, "GREEN", None)].
Definition ex_flags : cbitmask := mkCB (mkCI (CKeyword "uint8") CNone) "Flags" [("A", None); ("B", None)].
Definition ex_file : cfile := mkCFile None (Some ["a"; "b"]) []
  [CSubtype (CKeyword "uint16") "Id"; CSubtype (CNamed ["Id"] []) "Ident"; CEnum ex_color; CBitmask ex_flags; CStruct ex_item; CChoice ex_pick;
   CUnion ex_either; CStruct ex_main].
Lemma ex_parsed : parse_file (stream (list_ascii_of_string ex_text)) = Some ex_file.
Proof. vm_compute. reflexivity. Qed.
Lemma ex_agrees : CompileSpec.agree ex_reading ex_meaning.
Proof. repeat split. Qed.

Ltac member := cbn [cfl_directives ex_file In]; repeat (first [left; reflexivity | right]).
Ltac no_args := apply AM_none.
Ltac one_arg e := apply (AM_args _ _ _ [e]); [discriminate | repeat constructor | reflexivity].
Lemma small_width : forall w g, In (w, g) [(3, 8); (5, 8)]%Z -> CodecChoiceSpec.smallest w g.
Proof. intros w g H. cbn [In] in H. destruct H as [H|[H|[]]]; injection H as <- <-; (split; [cbn; tauto|]; split; [lia|]; intros w' Hw; cbn [In] in Hw; lia). Qed.
Lemma ex_means : file_means ex_reading ex_file ex_names ex_schema.
Proof.
  split; [discriminate|]. split; [repeat constructor; cbn; intuition discriminate|].
  split; [cbn [flat_map declares ex_file cfl_directives app cs_name cc_name cu_name ce_name cb_name]; repeat constructor; discriminate|].
  split; [repeat constructor; cbn; intuition discriminate|]. split; [intros n; cbn; tauto|].
  assert (T : forall scope n i ps params fs, has_params (cfl_directives ex_file) n params -> nth_error ex_names i = Some n -> args_mean ex_reading scope params ps fs ->
    type_means ex_reading (cfl_directives ex_file) ex_names scope (mkCI (CNamed [n] []) ps) (Schema.TRef i (values_of fs)) false).
  { intros scope n i ps params fs H1 H2 H3. apply (TM_declared _ _ _ _ 0 _ n _ i params fs); [lia|constructor|assumption..]. }
  assert (B : forall scope n b g, In (n, (b, g)) CodecChoiceSpec.named_types -> type_means ex_reading (cfl_directives ex_file) ex_names scope (mkCI (CKeyword n) CNone) (TBasic (Std b)) false).
  { intros scope n b g H. apply TM_builtin. exact (BM_keyword _ _ n b g H). }
  assert (Hitem : has_params (cfl_directives ex_file) "Item" [(CKeyword "uint8", "n")]) by (apply (HP_struct _ ex_item); [member|reflexivity]).
  assert (Hpick : has_params (cfl_directives ex_file) "Pick" [(CKeyword "uint8", "k")]) by (apply (HP_choice _ ex_pick); [member|reflexivity]).
  assert (Heither : has_params (cfl_directives ex_file) "Either" []) by (apply (HP_union _ ex_either); [member|reflexivity]).
  assert (Hcolor : has_params (cfl_directives ex_file) "Color" []) by (apply (HP_enum _ ex_color); member).
  assert (Hflags : has_params (cfl_directives ex_file) "Flags" []) by (apply (HP_bitmask _ ex_flags); member).
  assert (W : forall scope (signed : bool) w, In w [3; 5]%nat -> builtin_means ex_reading scope (CBitField signed (Some w)) CNone (Bits signed (CodecChoiceSpec.gint signed 8) (fun _ => Some (Z.of_nat w)))).
  { intros scope signed w Hw. apply BM_width; [cbn [In] in Hw; lia|cbn [In] in *; lia|apply small_width; cbn [In] in *; destruct Hw as [<-|[<-|[]]]; cbn; tauto]. }
  repeat apply Forall2_cons; [..|apply Forall2_nil].
  - apply (DM_struct _ _ _ ex_main); [member|reflexivity|]. repeat apply Forall2_cons; [..|apply Forall2_nil].
    + apply (FM _ _ _ _ (fld (ft (CKeyword "uint8") CNone "n" None)) _ None 0 false); [eapply B; cbn; tauto|constructor|constructor].
    + apply (FM _ _ _ _ (fld (ft (CNamed ["Item"] []) (CArgs [CArg (CId "n")]) "item" None)) _ None 0 false); [|constructor|constructor].
      eapply T; [exact Hitem|reflexivity|one_arg (CId "n")].
    + apply (FM _ _ _ _ (fld (ft (CNamed ["Pick"] []) (CArgs [CArg (CId "n")]) "pick" None)) _ None 0 false); [|constructor|constructor].
      eapply T; [exact Hpick|reflexivity|one_arg (CId "n")].
    + apply (FM _ _ _ _ (fld (ft (CNamed ["Either"] []) CNone "u" (Some None))) _ (Some (None, false)) 0 false); [|constructor|constructor].
      eapply T; [exact Heither|reflexivity|no_args].
  - apply (DM_struct _ _ _ ex_item); [member|reflexivity|]. repeat apply Forall2_cons; [..|apply Forall2_nil].
    + apply (FM _ _ _ _ (fld (ft (CNamed ["Flags"] []) CNone "flags" None)) _ None 0 false); [|constructor|constructor].
      eapply T; [exact Hflags|reflexivity|no_args].
    + refine (FM _ _ _ _ (mkCF (Some (CLiteral Literals.TDecimal "8")) None false false (ft (CNamed ["Ident"] []) CNone "ids" (Some (Some (CId "n")))) None None None) _ _ 8 true _ _ _).
      * apply (TM_subtype _ _ _ _ 2 _ (CKeyword "uint16")); [lia| |apply (BM_keyword _ _ _ _ "uint16"); cbn; tauto].
        apply (SF_subtype _ _ _ (CNamed ["Id"] [])); [member|]. apply (SF_subtype _ _ _ (CKeyword "uint16")); [member|constructor].
      * constructor.
      * apply LM_literal; [|lia]. apply (LiteralsSpec.IDecimal "8" [] 8%Z); [discriminate|]. apply (LiteralsSpec.NDigit 10 [] 0 "8"%char 8); [constructor|left; reflexivity|reflexivity].
    + apply (FM _ _ _ _ (mkCF None None false true (ft (CKeyword "string") CNone "name" None) None None None) _ None 0 false); [eapply B; cbn; tauto|constructor|constructor].
    + apply (FM _ _ _ _ (mkCF None None false false (ft (CNamed ["Color"] []) CNone "color" None) None (Some (CBinary BGt (CId "n") (CLiteral Literals.TDecimal "1"))) None) _ None 0 false); [|constructor|constructor].
      eapply T; [exact Hcolor|reflexivity|no_args].
  - apply (DM_choice _ _ _ ex_pick "k" 0); [member|reflexivity|reflexivity|repeat constructor; cbn; tauto|reflexivity|cbn; intuition discriminate| |].
    + repeat apply Forall2_cons; [..|apply Forall2_nil]; (split; [reflexivity|]).
      * apply SM_field. apply (MM _ _ _ _ (mkCCF (ft (CBitField true (Some 5%nat)) CNone "a" None) None) _ None false); [|constructor].
        apply TM_builtin. apply (W "Pick" true 5%nat). cbn; tauto.
      * apply SM_none.
    + apply SM_field. apply (MM _ _ _ _ (mkCCF (ft (CBitField false None) (CLength (CId "k")) "b" None) None) _ None false); [|constructor].
      apply TM_builtin. apply (BM_length ex_reading "Pick" false (CId "k")).
  - apply (DM_union _ _ _ ex_either); [member|reflexivity|]. repeat apply Forall2_cons; [..|apply Forall2_nil].
    + apply (MM _ _ _ _ (mkCCF (mkCFT true false (mkCI (CKeyword "int32") CNone) "v" (Some None)) None) _ (Some (None, true)) false); [eapply B; cbn; tauto|constructor].
    + apply (MM _ _ _ _ (mkCCF (ft (CNamed ["Item"] []) (CArgs [CArg (CLiteral Literals.TDecimal "3")]) "i" None) None) _ None false); [|constructor].
      eapply T; [exact Hitem|reflexivity|one_arg (CLiteral Literals.TDecimal "3")].
  - apply (DM_enum _ _ _ ex_color 0 (CBitField false (Some 3%nat))); [member|reflexivity|lia|constructor|]. apply (W "Color" false 3%nat). cbn; tauto.
  - apply (DM_bitmask _ _ _ ex_flags); [member|reflexivity|]. apply (BM_keyword _ _ _ _ "uint8"); cbn; tauto.
Qed.
Example C105_applies : CompileSpec.agree ex_reading ex_meaning /\ parse_file (stream (list_ascii_of_string ex_text)) = Some ex_file /\ file_ok true ex_file /\
  file_means ex_reading ex_file ex_names ex_schema /\ generate ex_meaning ex_names (list_ascii_of_string ex_text) = Some ex_schema.
Proof.
  split; [exact ex_agrees|]. split; [exact ex_parsed|]. split; [|split; [exact ex_means|]].
  - unfold file_ok. cbn -[like_field]. unfold struct_ok, choice_ok, union_ok, enum_ok, bitmask_ok, params_ok, field_ok, case_ok, choice_field_ok, function_ok, field_type_ok, inst_ok.
    cbn -[like_field]. intuition (try discriminate; try lia).
  - exact (proj2 (C105_read _ _ _ _ _ _ ex_agrees ex_parsed ex_means)).
Qed.
(** A value and its bytes: n = 2, flags = 3, ids = 258 and 7, no name, GREEN; the default
    case of the choice, in two bits; then one union, the packed array 5, 6, 7. *)
Definition ex_main_value : value := VRec 0 [Some (VInt 2);
  Some (VRec 0 [Some (VInt 3); Some (VArr [VInt 258; VInt 7]); None; Some (VInt 1)]); Some (VRec 0 [None; Some (VInt 3)]);
  Some (VArr [VRec 1 [Some (VArr [VInt 5; VInt 6; VInt 7]); None]])].
Example C105_bytes : exists sch, generate ex_meaning ex_names (list_ascii_of_string ex_text) = Some sch /\
  Marshal (MarshalZserio sch 4 0 [] ex_main_value) = Ok [2; 3; 1; 2; 0; 7; 28; 4; 4; 14; 8; 0; 0; 0; 42; 128]%Z.
Proof. eexists. split; [exact (proj2 (C105_read _ _ _ _ _ _ ex_agrees ex_parsed ex_means))|]. vm_compute. reflexivity. Qed.

(** All hypotheses of [C105_wire], for a smaller file. *)
Definition tiny_text : string := "package a; struct S{bit:3 b;};".
Definition tiny_file : cfile := mkCFile None (Some ["a"]) [] [CStruct (mkCS "S" [] [] [fld (ft (CBitField false (Some 3%nat)) CNone "b" None)] [])].
Definition tiny_tokens : list ptok := [("PACKAGE", "package"); ("ID", "a"); ("SEMICOLON", ";"); ("STRUCTURE", "struct"); ("ID", "S"); ("LBRACE", "{");
  ("BIT_FIELD", "bit"); ("COLON", ":"); ("DECIMAL_LITERAL", "3"); ("ID", "b"); ("SEMICOLON", ";"); ("RBRACE", "}"); ("SEMICOLON", ";")].
Definition tiny_schema : schema := [DStruct [plain (TBasic (Bits false (GU 8) (fun _ => Some 3%Z)))]].
Local Ltac w n t l s := apply (LexerSpec.WWord n (list_ascii_of_string t) (list_ascii_of_string l) _ (list_ascii_of_string s)); [apply LexerLiteralFacts.word_by_best; [vm_compute; reflexivity|reflexivity|discriminate]|
  split; [|apply LexerLiteralFacts.glues_all_ok; vm_compute; reflexivity]|].
Local Ltac none := apply LexerSpec.LNone.
Local Ltac blank := apply LexerSpec.LBlank; [vm_compute; tauto | apply LexerSpec.LNone].
Lemma tiny_is_text : text_of tiny_tokens (list_ascii_of_string tiny_text).
Proof.
  exists [], (list_ascii_of_string tiny_text). split; [reflexivity|]. split; [none|].
  w "PACKAGE" "package" " " "a; struct S{bit:3 b;};"; [blank|]. w "ID" "a" "" "; struct S{bit:3 b;};"; [none|].
  w "SEMICOLON" ";" " " "struct S{bit:3 b;};"; [blank|]. w "STRUCTURE" "struct" " " "S{bit:3 b;};"; [blank|]. w "ID" "S" "" "{bit:3 b;};"; [none|].
  w "LBRACE" "{" "" "bit:3 b;};"; [none|]. w "BIT_FIELD" "bit" "" ":3 b;};"; [none|]. w "COLON" ":" "" "3 b;};"; [none|].
  w "DECIMAL_LITERAL" "3" " " "b;};"; [blank|]. w "ID" "b" "" ";};"; [none|]. w "SEMICOLON" ";" "" "};"; [none|]. w "RBRACE" "}" "" ";"; [none|].
  apply (LexerSpec.WWord "SEMICOLON" (list_ascii_of_string ";") [] _ []); [apply LexerLiteralFacts.word_by_best; [vm_compute; reflexivity|reflexivity|discriminate]|split; [none | exact I]|apply LexerSpec.WNone].
Qed.
Lemma tiny_means : file_means ex_reading tiny_file ["S"] tiny_schema.
Proof.
  split; [discriminate|]. split; [repeat constructor; cbn; intuition discriminate|].
  split; [repeat constructor; discriminate|]. split; [repeat constructor; cbn; tauto|]. split; [intros n; cbn; tauto|].
  apply Forall2_cons; [|constructor]. apply (DM_struct _ _ _ (mkCS "S" [] [] [fld (ft (CBitField false (Some 3%nat)) CNone "b" None)] [])); [now left|reflexivity|].
  apply Forall2_cons; [|constructor]. apply (FM _ _ _ _ (fld (ft (CBitField false (Some 3%nat)) CNone "b" None)) _ None 0 false); [|constructor|constructor].
  apply TM_builtin. apply (BM_width ex_reading "S" false 3%nat 8%Z); [lia|cbn; lia|apply small_width; cbn; tauto].
Qed.
Example C105_wire_applies : file_ok true tiny_file /\ file_written tiny_file tiny_tokens /\ text_of tiny_tokens (list_ascii_of_string tiny_text) /\
  file_means ex_reading tiny_file ["S"] tiny_schema /\ causal tiny_schema /\ valid tiny_schema 1 false 0 [] (VRec 0 [Some (VInt 5)]).
Proof.
  split; [|split; [|split; [exact tiny_is_text|split; [exact tiny_means|split]]]].
  - unfold file_ok. cbn -[like_field]. unfold struct_ok, params_ok, field_ok, field_type_ok, inst_ok. cbn -[like_field]. intuition (try discriminate; try lia).
  - assert (P : parse_file (stream (list_ascii_of_string tiny_text)) = Some tiny_file) by (vm_compute; reflexivity).
    rewrite <- (ParserTextFacts.stream_text _ _ tiny_is_text). exact (proj1 (text_file_sound _ _ P)).
  - intros id d i f Hd Hf. destruct id as [|[|id]]; try discriminate Hd. injection Hd as <-. destruct i as [|[|i]]; try discriminate Hf. injection Hf as <-.
    intros ps slots Hl. repeat split.
  - cbn [valid]. eexists. split; [reflexivity|]. eexists. split; [reflexivity|]. split; [reflexivity|].
    intros [|[|i]] f Hi; try discriminate Hi. injection Hi as <-. split; [cbn; lia|]. exists true. split; [reflexivity|]. split; [|discriminate].
    exists (BBits (GU 8) 3), 5%Z. split; [reflexivity|]. split; [split; [now left|lia]|]. split; [cbn; lia|reflexivity].
Qed.
