(** C110: conditions on the items of an enum in the code that is generated for a schema
    file. *)

Require Import ZArith String Ascii List Bool Lia.
From Verif Require Import Bits Stream Spec PosSpec Scalars Traits Marshal Schema SchemaSpec WireSpec WireFacts PropWire Refine.
From Verif Require Lexer LexerSpec LexerLiteralFacts ParserTextFacts Literals LiteralsSpec.
From Verif Require Import Packages Visitor VisitorSpec Parser ParserSpec FileParser FileParserSpec FileParserSound.
From Verif Require Import Compile CompileSpec CompileThms ExprCode ExprCodeSpec ExprCodeFacts ExprCodeThms PropExprCode PropEnumCode.
Import ListNotations.
Open Scope string_scope.
Open Scope list_scope.

(** ** Conditions *)

(** The comparison of a member with an item of its enum, as in
    "message if status == State.ERROR", is that of their numbers.  [m] is the enum [e], or
    a subtype of it: the item is "State.ERROR", or "St.ERROR" with "subtype State St". *)
Theorem C110_condition : forall s f p scope o x t read e m n g z y c E, compiled_text s f p ->
  condition_in (cfl_directives f) scope (CBinary o (CId x) (CDot (CId m) n)) ->
  member (cfl_directives f) scope x t false read -> visible (cfl_directives f) x -> has_enum (cfl_directives f) t e -> has_enum (cfl_directives f) (CNamed [m] []) e -> item_of e n y ->
  has_int (cfl_directives f) (ci_type (ce_type e)) g -> gvalue g z -> read E = Some (VInt z) -> comparison o z y = Some c ->
  m_cond (go_meaning p) scope (visit_expr (CBinary o (CId x) (CDot (CId m) n))) E = Some c.
Proof.
  intros s f p scope o x t read e m n g z y c E C L M V He Hm It Hg Gv R O. apply (C106_condition s f p scope _ E c C L). exact (BV_item _ _ _ _ o x t read e m n g z y c M V He Hm It Hg Gv R O).
Qed.
Print Assumptions C110_condition.

(** So in the wire format of the schema, and (see [C106_wire]) in that of the generated
    code, the field is there if the comparison of the numbers holds, and only then. *)
Lemma struct_def : forall I f names sch st id, file_means I f names sch -> In (CStruct st) (cfl_directives f) -> nth_error names id = Some (cs_name st) ->
  exists fs, nth_error sch id = Some (DStruct fs) /\ Forall2 (field_means I (cfl_directives f) names (cs_name st)) (cs_fields st) fs.
Proof.
  intros I f names sch st id (_ & O & _ & _ & _ & F) Ic N. remember (cfl_directives f) as ds eqn:Ed. clear Ed f.
  assert (X : exists d, nth_error sch id = Some d /\ def_means I ds names (cs_name st) d).
  { assert (G : forall l l', Forall2 (def_means I ds names) l l' -> forall id, nth_error l id = Some (cs_name st) -> exists d, nth_error l' id = Some d /\ def_means I ds names (cs_name st) d).
    { induction 1 as [|n d l l' H F' IH]; intros [|j] Hn; try discriminate Hn; [injection Hn as ->; exists d; split; [reflexivity|exact H]|exact (IH j Hn)]. }
    exact (G _ _ F id N). }
  destruct X as (d & Nd & D). remember (cs_name st) as n eqn:En.
  assert (U : forall d', In d' ds -> In n (declares d') -> d' = CStruct st) by (intros d' J K; subst n; eapply CompileFacts.name_unique; [exact O|exact J|exact Ic|exact K|now left]).
  destruct D as [s0 fs J T Fs|u0 fs J|c0 x0 i cases d0 J|e0 k t b J|m b J]; pose proof (U _ J (or_introl eq_refl)) as Q; try discriminate Q. injection Q as ->. exists fs. split; [exact Nd|exact Fs].
Qed.
Lemma nth_forall2 : forall {A B} (R : A -> B -> Prop) l m i x, Forall2 R l m -> nth_error l i = Some x -> exists y, nth_error m i = Some y /\ R x y.
Proof. intros A B R l m i x H. revert i. induction H as [|a b l m Hab H IH]; intros [|i] N; try discriminate N; [injection N as ->; exists b; split; [reflexivity|exact Hab]|exact (IH i N)]. Qed.
Theorem C110_present : forall I s f p names sch st id i fd o x t read e m n g y, compiled_text s f p -> exact_reading (cfl_directives f) I -> file_means I f names sch ->
  In (CStruct st) (cfl_directives f) -> nth_error names id = Some (cs_name st) -> nth_error (cs_fields st) i = Some fd -> cf_if fd = Some (CBinary o (CId x) (CDot (CId m) n)) ->
  member (cfl_directives f) (cs_name st) x t false read -> visible (cfl_directives f) x -> has_enum (cfl_directives f) t e -> has_enum (cfl_directives f) (CNamed [m] []) e -> item_of e n y -> has_int (cfl_directives f) (ci_type (ce_type e)) g ->
  In o [BEq; BNe; BLt; BLe; BGt; BGe] ->
  exists fs F clause, nth_error sch id = Some (DStruct fs) /\ nth_error fs i = Some F /\ field_means I (cfl_directives f) names (cs_name st) fd F /\ f_clause F = Some clause /\
    forall E z b, gvalue g z -> read E = Some (VInt z) -> clause E = Some b -> comparison o z y = Some b.
Proof.
  intros I s f p names sch st id i fd o x t read e m n g y C X Mn Is N Nf If M V He Hm It Hg Oo. destruct (struct_def I f names sch st id Mn Is N) as (fs & Nd & Fs).
  destruct (nth_forall2 _ _ _ i fd Fs Nf) as (F & NF & FM0). exists fs, F, (m_cond I (cs_name st) (CBinary o (CId x) (CDot (CId m) n))). split; [exact Nd|]. split; [exact NF|]. split; [exact FM0|].
  split; [destruct FM0; cbn [f_clause]; now rewrite If|]. intros E z b Gv R B.
  assert (Ci : condition_in (cfl_directives f) (cs_name st) (CBinary o (CId x) (CDot (CId m) n))) by (exists st, fd; repeat split; [exact Is|exact (nth_error_In _ _ Nf)|exact If]).
  pose proof (C106_condition s f p _ _ E b C Ci (proj1 (proj2 X) _ _ E b Ci B)) as Q.
  assert (Oc : exists c, comparison o z y = Some c) by (cbn in Oo; repeat (destruct Oo as [<-|Oo]; [eexists; reflexivity|]); contradiction).
  destruct Oc as (c & Oc). pose proof (C110_condition s f p _ o x t read e m n g z y c E C Ci M V He Hm It Hg Gv R Oc) as Q'. congruence.
Qed.
Print Assumptions C110_present.

(** The code compiles only if the type of the member is the one the item is written with:
    a subtype is a Go type of its own, and Go compares no value of it with an item of the
    enum, or of another subtype. *)
Theorem C110_same_type : forall s f p scope o x t read e m n g z y c, compiled_text s f p ->
  condition_in (cfl_directives f) scope (CBinary o (CId x) (CDot (CId m) n)) ->
  member (cfl_directives f) scope x t false read -> visible (cfl_directives f) x -> has_enum (cfl_directives f) t e -> has_enum (cfl_directives f) (CNamed [m] []) e -> has_int (cfl_directives f) (ci_type (ce_type e)) g ->
  comparison o z y = Some c -> t = CNamed [m] [].
Proof.
  intros s f p scope o x t read e m n g z y c C L M V He Hm Hg O. apply compiled_coded in C. destruct (condition_runs f p scope _ C L) as (tr & T & Ck).
  destruct (go_tree_parts _ _ _ _ _ T) as (mx & a & invoke & s' & Tm & K & Ev & _ & _ & <-). destruct (compare_of_bop o z y c O) as (op & To & _). rewrite To in Tm. clear To. cbn [visit_expr to_mexpr lift2] in Tm. injection Tm as <-.
  cbn [MembersSpec.names forallb app] in K. apply andb_prop in K. destruct K as (K & _). exact (item_same f p scope op x t read e m n g C M V He Hm Hg K invoke a s' Ev Ck).
Qed.
Print Assumptions C110_same_type.

(** ** A file *)

(** testdata/struct_optional_field.zs *)
Definition opt_text : string := "package struct_optional_field;

enum uint8 State
{
    ERROR = 0,
    SUCCESS = 1,
};

struct Result {
    State status;
    string message if status == State.ERROR;
};
".
Definition opt_state : cenum := mkCE (mkCI (CKeyword "uint8") CNone) "State" [(None, "ERROR", Some (lit "0")); (None, "SUCCESS", Some (lit "1"))].
Definition opt_if : cexpr := CBinary BEq (CId "status") (CDot (CId "State") "ERROR").
Definition opt_status : cfield := fld (ft (CNamed ["State"] []) CNone "status" None) None.
Definition opt_message : cfield := fld (ft (CKeyword "string") CNone "message" None) (Some opt_if).
Definition opt_struct : cstruct := mkCS "Result" [] [] [opt_status; opt_message] [].
Definition opt_file : cfile := mkCFile None (Some ["struct_optional_field"]) [] [CEnum opt_state; CStruct opt_struct].
Definition opt_names : list string := ["Result"; "State"].
Lemma opt_parsed : parse_file (stream (list_ascii_of_string opt_text)) = Some opt_file.
Proof. vm_compute. reflexivity. Qed.
Lemma opt_generated : match generate_code opt_names (list_ascii_of_string opt_text) with Some _ => true | None => false end = true.
Proof. vm_compute. reflexivity. Qed.
Local Notation ds := (cfl_directives opt_file).
Local Ltac member := cbn; repeat (first [left; reflexivity | right]).
Lemma opt_item : forall x z, In (x, z) [("ERROR", 0); ("SUCCESS", 1)]%Z -> item_of opt_state x z.
Proof.
  intros x z H. exists [("ERROR", 0); ("SUCCESS", 1)]%Z. split; [|split; [repeat constructor; cbn; intuition discriminate|exact H]].
  apply IF_value; [apply SL_plain; exact LiteralsSpec.IZero|]. apply IF_value; [apply SL_plain; apply (digit_literal "1" 1); cbn; tauto|]. constructor.
Qed.
Lemma opt_enum : has_enum ds (CNamed ["State"] []) opt_state.
Proof. exists 0%nat. split; [lia|]. split; [constructor|member]. Qed.
Lemma opt_member : member ds "Result" "status" (CNamed ["State"] []) false (read_field 0).
Proof. apply (ME_field ds "Result" opt_struct 0 opt_status); [member|reflexivity..]. Qed.
Lemma opt_visible : visible ds "status".
Proof. intros Q. cbn in Q. intuition discriminate. Qed.
Definition opt_reading : reading := mkM _ _ (fun _ _ _ => None) (fun _ _ E => option_map (fun z => z =? 0)%Z (number (read_field 0 E))) (fun _ _ _ _ _ => None) (fun _ _ => 0%Z).
Lemma opt_exact : exact_reading ds opt_reading.
Proof.
  split; [discriminate|]. split; [|split; [discriminate|]].
  - intros scope e E b (st & fd & I & <- & F & If) R. cbn in I. repeat (destruct I as [I|I]; [try discriminate I|]); try contradiction. injection I as <-.
    cbn in F. destruct F as [<-|[<-|[]]]; [discriminate If|]. injection If as <-. cbn [m_cond opt_reading] in R. destruct (number (read_field 0 E)) as [z|] eqn:Rz; [|discriminate]. injection R as <-.
    apply number_inv in Rz. destruct Rz as (Rz & B).
    exact (BV_item ds "Result" E None BEq "status" (CNamed ["State"] []) (read_field 0) opt_state "State" "ERROR" (GU 8) z 0 _ opt_member opt_visible opt_enum opt_enum (opt_item "ERROR" 0 (or_introl eq_refl)) (uint8_type ds) (uint8_values z B) Rz eq_refl).
  - intros c e (l & f & I & _). cbn in I. repeat (destruct I as [I|I]; [discriminate I|]). contradiction.
Qed.
Definition opt_schema : schema := [
  DStruct [plain (Schema.TRef 1 (values_of [])); mkF (TBasic (Std BString)) None false (Some (m_cond opt_reading "Result" opt_if)) 0 false];
  DScalar (Std BUint8)].
Lemma opt_means : file_means opt_reading opt_file opt_names opt_schema.
Proof.
  split; [discriminate|]. split; [repeat constructor; cbn; intuition discriminate|].
  split; [cbn [flat_map declares opt_file cfl_directives app cs_name cc_name cu_name ce_name cb_name]; repeat constructor; discriminate|].
  split; [repeat constructor; cbn; intuition discriminate|]. split; [intros n; cbn; tauto|].
  repeat apply Forall2_cons; [..|apply Forall2_nil].
  - apply (DM_struct _ _ _ opt_struct); [member|reflexivity|]. repeat apply Forall2_cons; [..|apply Forall2_nil].
    + refine (FM _ _ _ _ opt_status _ None 0 false _ _ _); [|constructor|constructor].
      apply (TM_declared _ _ _ _ 0 _ "State" _ 1 [] []); [lia|constructor|apply (HP_enum _ opt_state); member|reflexivity|constructor].
    + refine (FM _ _ _ _ opt_message _ None 0 false _ _ _); [|constructor|constructor]. apply TM_builtin. eapply (BM_keyword _ _ "string" BString). cbn. tauto.
  - apply (DM_enum _ _ _ opt_state 0 (CKeyword "uint8")); [member|reflexivity|lia|constructor|]. apply (BM_keyword _ _ _ _ "uint8"). cbn. tauto.
Qed.
Lemma opt_compiled : exists p, compiled_text (list_ascii_of_string opt_text) opt_file p.
Proof.
  destruct (visit_file opt_file) as [p|] eqn:V; [|vm_compute in V; discriminate V]. exists p. split; [exact opt_parsed|]. split; [exact V|]. vm_compute in V. injection V as <-.
  split; [vm_compute; reflexivity|]. destruct opt_means as (_ & Q1 & Q2 & _). split; assumption.
Qed.
Definition opt_code : schema := match generate_code opt_names (list_ascii_of_string opt_text) with Some code => code | None => [] end.

(** The hypotheses of the theorems, for the file; and the bytes of two values. *)
Example C110_condition_applies : exists p, compiled_text (list_ascii_of_string opt_text) opt_file p /\ condition_in ds "Result" opt_if /\
  forall E z, read_field 0 E = Some (VInt z) -> (0 <= z < 256)%Z -> m_cond (go_meaning p) "Result" (visit_expr opt_if) E = Some (z =? 0)%Z.
Proof.
  destruct opt_compiled as (p & C). exists p. assert (L : condition_in ds "Result" opt_if) by (exists opt_struct, opt_message; repeat split; [member|member]).
  split; [exact C|]. split; [exact L|]. intros E z R B.
  exact (C110_condition _ _ p "Result" BEq "status" (CNamed ["State"] []) (read_field 0) opt_state "State" "ERROR" (GU 8) z 0 _ E C L opt_member opt_visible opt_enum opt_enum (opt_item "ERROR" 0 (or_introl eq_refl)) (uint8_type ds) (uint8_values z B) R eq_refl).
Qed.
Example C110_present_applies : exists p, compiled_text (list_ascii_of_string opt_text) opt_file p /\ exact_reading ds opt_reading /\ file_means opt_reading opt_file opt_names opt_schema /\
  In (CStruct opt_struct) ds /\ nth_error opt_names 0 = Some (cs_name opt_struct) /\ nth_error (cs_fields opt_struct) 1 = Some opt_message /\
  cf_if opt_message = Some (CBinary BEq (CId "status") (CDot (CId (ce_name opt_state)) "ERROR")).
Proof. destruct opt_compiled as (p & C). exists p. split; [exact C|]. split; [exact opt_exact|]. split; [exact opt_means|]. split; [member|]. split; [reflexivity|]. split; reflexivity. Qed.
Example C110_bytes :
  Marshal (MarshalZserio opt_code 3 0 [] (VRec 0 [Some (VInt 0); Some (VStr [111; 107]%Z)])) = Ok [0; 2; 111; 107]%Z /\
  Marshal (MarshalZserio opt_code 3 0 [] (VRec 0 [Some (VInt 1); Some (VStr [111; 107]%Z)])) = Ok [1]%Z /\
  Unmarshal (UnmarshalZserio opt_code 3 0 []) [0; 2; 111; 107]%Z = Ok (VRec 0 [Some (VInt 0); Some (VStr [111; 107]%Z)]) /\
  Unmarshal (UnmarshalZserio opt_code 3 0 []) [1]%Z = Ok (VRec 0 [Some (VInt 1); None]).
Proof. vm_compute. repeat split. Qed.
(** The type of status and the one the item is written with have to be the same: the
    four texts with the enum State and its subtype St. *)
Definition via_text (type item : string) : string :=
  "package a; enum uint8 State { ERROR = 0, SUCCESS = 1 }; subtype State St; struct Result { " ++ type ++ " status; string message if status == " ++ item ++ ".ERROR; };".
Definition via_file (type item : string) : option cfile := parse_file (stream (list_ascii_of_string (via_text type item))).
Definition via_if : cexpr := CBinary BEq (CId "status") (CDot (CId "St") "ERROR").
Definition via_status : cfield := fld (ft (CNamed ["St"] []) CNone "status" None) None.
Definition via_message : cfield := fld (ft (CKeyword "string") CNone "message" None) (Some via_if).
Definition via_struct : cstruct := mkCS "Result" [] [] [via_status; via_message] [].
Definition st_file : cfile := mkCFile None (Some ["a"]) [] [CEnum opt_state; CSubtype (CNamed ["State"] []) "St"; CStruct via_struct].
Lemma st_parsed : via_file "St" "St" = Some st_file.
Proof. vm_compute. reflexivity. Qed.
Lemma st_compiled : exists p, compiled_text (list_ascii_of_string (via_text "St" "St")) st_file p.
Proof.
  destruct (visit_file st_file) as [p|] eqn:V; [|vm_compute in V; discriminate V]. exists p. split; [exact st_parsed|]. split; [exact V|]. vm_compute in V. injection V as <-.
  split; [vm_compute; reflexivity|]. split; [repeat constructor; cbn; intuition discriminate|].
  cbn [flat_map declares st_file cfl_directives app cs_name ce_name]. repeat constructor; discriminate.
Qed.
Lemma st_enum : has_enum (cfl_directives st_file) (CNamed ["St"] []) opt_state.
Proof. exists 1%nat. split; [lia|]. split; [apply (SF_subtype _ 0 "St" (CNamed ["State"] [])); [member|constructor]|member]. Qed.
Definition st_code : schema := match generate_code opt_names (list_ascii_of_string (via_text "St" "St")) with Some code => code | None => [] end.
Example C110_subtype_applies : exists p, compiled_text (list_ascii_of_string (via_text "St" "St")) st_file p /\ condition_in (cfl_directives st_file) "Result" via_if /\
  (forall E z, read_field 0 E = Some (VInt z) -> (0 <= z < 256)%Z -> m_cond (go_meaning p) "Result" (visit_expr via_if) E = Some (z =? 0)%Z) /\
  member (cfl_directives st_file) "Result" "status" (CNamed ["St"] []) false (read_field 0) /\ has_enum (cfl_directives st_file) (CNamed ["St"] []) opt_state.
Proof.
  destruct st_compiled as (p & C). exists p. assert (L : condition_in (cfl_directives st_file) "Result" via_if) by (exists via_struct, via_message; repeat split; [member|member]).
  assert (M : member (cfl_directives st_file) "Result" "status" (CNamed ["St"] []) false (read_field 0)) by (apply (ME_field _ "Result" via_struct 0 via_status); [member|reflexivity..]).
  split; [exact C|]. split; [exact L|]. split; [|split; [exact M|exact st_enum]]. intros E z R B.
  assert (V : visible (cfl_directives st_file) "status") by (intros Q; cbn in Q; intuition discriminate).
  exact (C110_condition _ _ p "Result" BEq "status" (CNamed ["St"] []) (read_field 0) opt_state "St" "ERROR" (GU 8) z 0 _ E C L M V st_enum st_enum (opt_item "ERROR" 0 (or_introl eq_refl)) (uint8_type _) (uint8_values z B) R eq_refl).
Qed.
Example C110_subtype_bytes :
  Marshal (MarshalZserio st_code 3 0 [] (VRec 0 [Some (VInt 0); Some (VStr [111; 107]%Z)])) = Ok [0; 2; 111; 107]%Z /\
  Marshal (MarshalZserio st_code 3 0 [] (VRec 0 [Some (VInt 1); Some (VStr [111; 107]%Z)])) = Ok [1]%Z.
Proof. vm_compute. repeat split. Qed.
Example C110_same_type_applies :
  (forall t i, In t ["State"; "St"] -> In i ["State"; "St"] -> exists f p, via_file t i = Some f /\ visit_file f = Some p) /\
  generate_code opt_names (list_ascii_of_string (via_text "St" "State")) = None /\ generate_code opt_names (list_ascii_of_string (via_text "State" "St")) = None /\
  generate_code opt_names (list_ascii_of_string (via_text "State" "State")) <> None /\ generate_code opt_names (list_ascii_of_string (via_text "St" "St")) <> None.
Proof.
  split; [|split; [|split; [|split]]].
  - assert (X : forall f, match f with Some f => match visit_file f with Some _ => true | None => false end | None => false end = true -> exists f' p, f = Some f' /\ visit_file f' = Some p).
    { intros [f|]; [|discriminate]. destruct (visit_file f) as [p|] eqn:V; [|discriminate]. intros _. exists f, p. auto. }
    intros t i It Ii. apply X. cbn in It, Ii. destruct It as [<-|[<-|[]]]; destruct Ii as [<-|[<-|[]]]; vm_compute; reflexivity.
  - vm_compute. reflexivity.
  - vm_compute. reflexivity.
  - vm_compute. discriminate.
  - vm_compute. discriminate.
Qed.
(** Constants of items are named by letters and digits alone: with the items A_B and A__B
    there is no code that compiles, since EAB would be declared twice. *)
Definition clash_text (item : string) : string := "package a; enum uint8 E { A_B, " ++ item ++ " }; struct T { E x; uint8 y if x == E.A_B; };".
Example C110_clash :
  generate_code ["T"; "E"] (list_ascii_of_string (clash_text "A__B")) = None /\ generate_code ["T"; "E"] (list_ascii_of_string (clash_text "A_C")) <> None /\
  generate_code ["T"; "E"] (list_ascii_of_string (clash_text "AB")) <> None.
Proof. split; [vm_compute; reflexivity|]. split; vm_compute; discriminate. Qed.
(** Negative numbers: LOW is -1, MID 0. *)
Definition low_text : string := "package a; enum int8 Level { LOW = -1, MID, HIGH = 3 }; const int8 LEAST = -3; struct T { Level x; int8 z; uint8 y if x == Level.LOW && z > LEAST && z != -1; };".
Definition low_code : schema := match generate_code ["T"; "Level"] (list_ascii_of_string low_text) with Some code => code | None => [] end.
Definition low_level : cenum := mkCE (mkCI (CKeyword "int8") CNone) "Level" [(None, "LOW", Some (CUnary UMinus (lit "1"))); (None, "MID", None); (None, "HIGH", Some (lit "3"))].
Lemma low_items : items_from 0 (ce_items low_level) [("LOW", -1); ("MID", 0); ("HIGH", 3)]%Z.
Proof.
  apply IF_value; [apply (SL_minus _ _ 1), (digit_literal "1" 1); cbn; tauto|]. apply IF_next; [reflexivity|]. apply IF_value; [apply SL_plain, (digit_literal "3" 3); cbn; tauto|]. constructor.
Qed.
Example C110_negative : (exists f, parse_file (stream (list_ascii_of_string low_text)) = Some f /\ In (CEnum low_level) (cfl_directives f)) /\
  Marshal (MarshalZserio low_code 3 0 [] (VRec 0 [Some (VInt (-1)); Some (VInt (-2)); Some (VInt 7)])) = Ok [255; 254; 7]%Z /\
  Marshal (MarshalZserio low_code 3 0 [] (VRec 0 [Some (VInt (-1)); Some (VInt (-3)); Some (VInt 7)])) = Ok [255; 253]%Z /\
  Marshal (MarshalZserio low_code 3 0 [] (VRec 0 [Some (VInt (-1)); Some (VInt (-1)); Some (VInt 7)])) = Ok [255; 255]%Z /\
  Marshal (MarshalZserio low_code 3 0 [] (VRec 0 [Some (VInt 0); Some (VInt (-2)); Some (VInt 7)])) = Ok [0; 254]%Z.
Proof. split; [eexists; split; [vm_compute; reflexivity|member]|]. vm_compute. repeat split. Qed.
(** A sign in front of what is known when the code is generated; there is no code with one
    in front of a field. *)
Definition sign_text (sign : string) : string := "package a; const int8 K = 2; struct T { int8 z; uint8 y if z > " ++ sign ++ "; };".
Definition sign_code (sign : string) : schema := match generate_code ["T"] (list_ascii_of_string (sign_text sign)) with Some code => code | None => [] end.
Definition sign_expr : cexpr := CUnary UMinus (CParen (CBinary BPlus (CId "K") (CUnary UPlus (lit "1")))).
Example C110_sign :
  (exists f, parse_file (stream (list_ascii_of_string (sign_text "-(K + +1)"))) = Some f /\ forall E, is_int (cfl_directives f) "T" E None sign_expr (-3)) /\
  Marshal (MarshalZserio (sign_code "-(K + +1)") 3 0 [] (VRec 0 [Some (VInt (-2)); Some (VInt 7)])) = Ok [254; 7]%Z /\
  Marshal (MarshalZserio (sign_code "-(K + +1)") 3 0 [] (VRec 0 [Some (VInt (-3)); Some (VInt 7)])) = Ok [253]%Z /\
  generate_code ["T"] (list_ascii_of_string (sign_text "-z")) = None.
Proof.
  split; [|vm_compute; repeat split]. eexists. split; [vm_compute; reflexivity|]. intros E. exists (-128)%Z, 128%Z. split; [lia|]. split; [lia|].
  assert (One : forall ds, int_value ds "T" E None (-128) 128 (lit "1") 1) by (intros ds; apply IV_literal; [apply SL_plain, (digit_literal "1" 1); cbn; tauto|lia]).
  apply (IV_minus _ _ _ _ _ _ _ 3); [| |lia].
  - apply IV_paren; [|intros (x & ? & ? & ? & ? & Q & _); discriminate Q]. eapply (IV_op _ _ _ _ _ _ BPlus _ _ 2 1); [| |reflexivity|lia].
    + eapply IV_const; [left; reflexivity|apply SL_plain, (digit_literal "2" 2); cbn; tauto|lia].
    + apply IV_plus; [apply One|intros []].
  - cbn. intros [Q|[]]. apply Q. now left.
Qed.
