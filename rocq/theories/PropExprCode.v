(** C106: expressions of a schema file in the code that is generated for it. *)

Require Import ZArith String Ascii List Bool Lia.
From Verif Require Import Bits Stream Spec PosSpec Scalars Traits Marshal Schema SchemaSpec WireSpec WireFacts PropWire Refine.
From Verif Require AstExpr AstTypes GoSyntax ExprPrint GoTypes GoTypesFacts CodecChoice CodecChoiceSpec Literals LiteralsSpec Lexer LexerSpec LexerLiteralFacts ParserTextFacts.
From Verif Require Import Packages Visitor VisitorSpec Parser ParserSpec FileParser FileParserSpec FileParserSound.
From Verif Require Import Compile CompileSpec CompileThms ExprCode ExprCodeSpec ExprCodeFacts ExprCodeThms.
Import ListNotations.
Open Scope string_scope.
Open Scope list_scope.

(** ** Files *)

(** If the text of a file compiles, its values are stored in the wire format of the
    schema that the file stands for, with the values that its expressions have. *)
Theorem C106_wire : forall I f ts s names sch code n id ps v, file_ok true f -> file_written f ts -> text_of ts s ->
  exact_reading (cfl_directives f) I -> file_means I f names sch -> generate_code names s = Some code ->
  causal sch -> valid sch n false id ps v ->
  exists enc, wire_format sch n id ps v = Some enc /\
    forall fuel, (n <= fuel)%nat -> roundtrips_at (MarshalZserio code fuel id ps v) (UnmarshalZserio code fuel id ps) enc v.
Proof.
  intros I f ts s names sch code n id ps v Ok W T X H G C V. destruct (C77_wire_format sch n id ps v C V) as (enc & E & R). exists enc. split; [exact E|].
  intros fuel L. exact (roundtrips_more sch code fuel id ps v enc (text_code I f ts s names sch code Ok W T H X G) (R fuel L)).
Qed.
Print Assumptions C106_wire.

(** ** Expressions *)

(** The package of a text that compiles. *)
Definition compiled_text (s : list ascii) (f : cfile) (p : pkg) : Prop :=
  parse_file (stream s) = Some f /\ visit_file f = Some p /\ code_ok p = true /\
  declared_once (cfl_directives f) /\ Forall ident (flat_map declares (cfl_directives f)).
Lemma compiled_coded : forall s f p, compiled_text s f p -> coded f p.
Proof. intros s f p (_ & A & B & C & D). repeat split; assumption. Qed.

(** A length has its value. *)
Theorem C106_length : forall s f p scope e E z, compiled_text s f p -> length_in (cfl_directives f) scope e -> is_int (cfl_directives f) scope E None e z ->
  m_int (go_meaning p) scope (visit_expr e) E = Some z.
Proof.
  intros s f p scope e E z H L V. apply compiled_coded in H. destruct (length_runs f p scope e H L) as (t & T & Ck).
  cbn [m_int go_meaning]. unfold go_run. rewrite T, (run_int f p scope E None 0 e z t false H ltac:(discriminate) V T Ck). reflexivity.
Qed.
Print Assumptions C106_length.
(** So does a condition. *)
Theorem C106_condition : forall s f p scope e E b, compiled_text s f p -> condition_in (cfl_directives f) scope e -> is_bool (cfl_directives f) scope E None e b ->
  m_cond (go_meaning p) scope (visit_expr e) E = Some b.
Proof.
  intros s f p scope e E b H L V. apply compiled_coded in H. destruct (condition_runs f p scope e H L) as (t & T & Ck).
  cbn [m_cond go_meaning]. unfold go_run. rewrite T, (run_bool f p scope E None 0 e b t false H ltac:(discriminate) V T Ck). reflexivity.
Qed.
Print Assumptions C106_condition.
(** So does an argument, in the type of its parameter. *)
Theorem C106_argument : forall s f p scope array q e E i z g, compiled_text s f p -> argument_in (cfl_directives f) scope array q e ->
  has_int (cfl_directives f) (fst q) g -> gvalue g z -> is_int (cfl_directives f) scope E (index_of array i) e z ->
  m_arg (go_meaning p) scope (visit_param q) (visit_expr e) E i = Some (VInt z).
Proof.
  intros s f p scope array q e E i z g H A (k & t' & Lk & St & It) Gv V. apply compiled_coded in H. destruct (argument_runs f p scope array q e H A) as ((t & T & Ck) & _).
  assert (T' : go_tree p scope true (visit_expr e) = Some t) by (destruct array; [exact T|now apply go_tree_index]).
  assert (Ix : forall j, index_of array i = Some j -> j = i) by (unfold index_of; destruct array; congruence).
  cbn [m_arg go_meaning visit_param snd]. unfold go_run. rewrite T'. rewrite (run_int f p scope E _ i e z t array H Ix V T Ck).
  destruct (int_builtin t' g It) as (n & bits & go' & Vt & G & F & _). destruct (coded_kind f p scope k (fst q) t' n bits go' (GoTypes.KInt g) H Lk St Vt G F) as (go & -> & Kd).
  unfold GoTypes.eval_convert. rewrite Kd. now rewrite (GoTypesFacts.gconv_value g z Gv).
Qed.
Print Assumptions C106_argument.
(** What is computed is the one reading of the text that goExpression prints. *)
Theorem C106_text : forall p scope idx x t, go_tree p scope idx x = Some t ->
  exists m a ts, to_mexpr x = Some m /\ evaluated p scope m = Some a /\ ExprPrint.print a = Some ts /\ GoSyntax.go_expression ts t /\
    forall t', GoSyntax.go_expression ts t' -> t' = t.
Proof. exact tree_text. Qed.
Print Assumptions C106_text.

(** ** A file *)

Definition ex_text : string :=
"package p;
const uint8 K = 2;
subtype uint8 Count;
struct Item(uint8 i) { uint16 v if i > 1; };
choice Pick(Count k) on k { case 1: case 0x2: bit<k + 3> a; default: bool b; };
struct Main {
  Count n;
  uint8 m;
  uint16 xs[n * K + m];
  bool flag;
  Item(@index) items[lengthof(xs)];
  uint32 extra if flag && n + 1 >= K;
  Pick(n) pick;
};
".
Definition ex_names : list string := ["Main"; "Item"; "Pick"].
Definition lit (t : string) : cexpr := CLiteral Literals.TDecimal t.
Definition ft (t : ctype) (p : cparams) (n : string) (r : option (option cexpr)) : cfieldtype := mkCFT false false (mkCI t p) n r.
Definition fld (t : cfieldtype) (c : option cexpr) : cfield := mkCF None None false false t None c None.
Definition xs_length : cexpr := CBinary BPlus (CBinary BMul (CId "n") (CId "K")) (CId "m").
Definition extra_if : cexpr := CBinary BLogAnd (CId "flag") (CBinary BGe (CBinary BPlus (CId "n") (lit "1")) (CId "K")).
Definition ex_item : cstruct := mkCS "Item" [] [(CKeyword "uint8", "i")] [fld (ft (CKeyword "uint16") CNone "v" None) (Some (CBinary BGt (CId "i") (lit "1")))] [].
Definition ex_pick : cchoice := mkCC "Pick" [] [(CNamed ["Count"] [], "k")] (CId "k")
  [([lit "1"; CLiteral Literals.THex "0x2"], Some (mkCCF (ft (CBitField false None) (CLength (CBinary BPlus (CId "k") (lit "3"))) "a" None) None))]
  (Some (Some (mkCCF (ft (CKeyword "bool") CNone "b" None) None))) [].
Definition ex_main : cstruct := mkCS "Main" [] []
  [fld (ft (CNamed ["Count"] []) CNone "n" None) None; fld (ft (CKeyword "uint8") CNone "m" None) None;
   fld (ft (CKeyword "uint16") CNone "xs" (Some (Some xs_length))) None; fld (ft (CKeyword "bool") CNone "flag" None) None;
   fld (ft (CNamed ["Item"] []) (CArgs [CArg CIndex]) "items" (Some (Some (CLengthof (CId "xs"))))) None;
   fld (ft (CKeyword "uint32") CNone "extra" None) (Some extra_if);
   fld (ft (CNamed ["Pick"] []) (CArgs [CArg (CId "n")]) "pick" None) None] [].
Definition ex_file : cfile := mkCFile None (Some ["p"]) []
  [CConst (mkCI (CKeyword "uint8") CNone) "K" (lit "2"); CSubtype (CKeyword "uint8") "Count"; CStruct ex_item; CChoice ex_pick; CStruct ex_main].
Lemma ex_parsed : parse_file (stream (list_ascii_of_string ex_text)) = Some ex_file.
Proof. vm_compute. reflexivity. Qed.

(** Its expressions, where the values are in the range of the types. *)
Definition small (lo hi z : Z) : option Z := if ((lo <=? z) && (z <? hi))%Z then Some z else None.
Definition number (v : option value) : option Z := match v with Some (VInt z) => small 0 256 z | _ => None end.
Definition and_then {A B} (x : option A) (f : A -> option B) : option B := match x with Some a => f a | None => None end.
Definition ex_int (scope : string) (e : cexpr) (E : env) : option Z :=
  match e with
  | CLengthof _ => match read_field 2 E with Some (VArr l) => small 0 (2 ^ 63) (Z.of_nat (length l)) | _ => None end
  | CBinary _ (CId _) _ => and_then (number (read_param 0 E)) (fun k => small 0 256 (k + 3))
  | _ => and_then (number (read_field 0 E)) (fun n => and_then (number (read_field 1 E)) (fun m => and_then (small 0 256 (n * 2)) (fun nk => small 0 256 (nk + m))))
  end%Z.
Definition ex_cond (scope : string) (e : cexpr) (E : env) : option bool :=
  match e with
  | CBinary BGt _ _ => option_map (fun i => 1 <? i)%Z (number (read_param 0 E))
  | _ => match read_field 3 E with
         | Some (VBool true) => and_then (number (read_field 0 E)) (fun n => option_map (fun m => 2 <=? m)%Z (small 0 256 (n + 1)))
         | Some (VBool false) => Some false
         | _ => None
         end
  end.
Definition ex_arg (scope : string) (q : cparam) (e : cexpr) (E : env) (i : nat) : option value :=
  match e with
  | CIndex => option_map VInt (small 0 256 (Z.of_nat i))
  | _ => option_map VInt (number (read_field 0 E))
  end.
Definition ex_label (scope : string) (e : cexpr) : Z := match e with CLiteral Literals.TDecimal _ => 1 | _ => 2 end%Z.
Definition ex_reading : reading := mkM _ _ ex_int ex_cond ex_arg ex_label.

Lemma small_inv : forall lo hi z x, small lo hi z = Some x -> x = z /\ (lo <= x < hi)%Z.
Proof. intros lo hi z x H. unfold small in H. destruct ((lo <=? z) && (z <? hi))%Z eqn:B; [|discriminate]. injection H as <-. apply andb_prop in B. lia. Qed.
Lemma number_inv : forall v x, number v = Some x -> v = Some (VInt x) /\ (0 <= x < 256)%Z.
Proof. intros v x H. unfold number in H. destruct v as [[z| | | | | ]|]; try discriminate. apply small_inv in H. destruct H as (-> & B). auto. Qed.
Lemma uint8_values : forall y, (0 <= y < 256)%Z -> gvalue (GU 8) y.
Proof. intros y H. exact H. Qed.
Lemma uint8_type : forall ds, has_int ds (CKeyword "uint8") (GU 8).
Proof. intros ds. exists 0%nat, (CKeyword "uint8"). split; [lia|]. split; [constructor|]. constructor. now left. Qed.
Local Ltac member := cbn; repeat (first [left; reflexivity | right]).
Lemma count_type : has_int (cfl_directives ex_file) (CNamed ["Count"] []) (GU 8).
Proof. exists 1%nat, (CKeyword "uint8"). split; [lia|]. split; [|constructor; now left]. apply SF_subtype with (CKeyword "uint8"); [member|constructor]. Qed.
Lemma digit_literal : forall c d, In (c, d) [("1", 1); ("2", 2); ("3", 3)]%char%nat -> LiteralsSpec.int_literal Literals.TDecimal [c] (Z.of_nat d).
Proof.
  intros c d H. apply (LiteralsSpec.IDecimal c [] (Z.of_nat d)).
  - intros ->. destruct H as [H|[H|[H|[]]]]; discriminate H.
  - apply (LiteralsSpec.NDigit 10 [] 0 c d); [constructor|left|]; cbn [In] in H; destruct H as [H|[H|[H|[]]]]; injection H as <- <-; reflexivity.
Qed.
Lemma hex_literal : LiteralsSpec.int_literal Literals.THex (list_ascii_of_string "0x2") 2.
Proof. apply (LiteralsSpec.IHex "x" ["2"%char] 2%Z); [now left|discriminate|]. apply (LiteralsSpec.NDigit 16 [] 0 "2"%char 2); [constructor|left; reflexivity|reflexivity]. Qed.

Local Notation ds := (cfl_directives ex_file).
Lemma ex_visible : forall x, In x ["n"; "m"; "xs"; "flag"; "i"; "k"] -> visible ds x.
Proof. intros x H Q. cbn in H, Q. intuition congruence. Qed.
Lemma ex_main_field : forall i f, nth_error (cs_fields ex_main) i = Some f -> cf_optional f = false ->
  member ds "Main" (ft_name (cf_type f)) (ci_type (ft_inst (cf_type f))) (match ft_range (cf_type f) with Some _ => true | None => false end) (read_field i).
Proof. intros i f H O. apply (ME_field ds "Main" ex_main i f); [member|reflexivity|exact H|exact O]. Qed.
Lemma ex_n : forall E index z, read_field 0 E = Some (VInt z) -> (0 <= z < 256)%Z -> int_value ds "Main" E index 0 256 (CId "n") z.
Proof. intros E index z R B. apply (IV_member ds "Main" E index 0 256 "n" (CNamed ["Count"] []) (GU 8) (read_field 0)); [exact (ex_main_field 0 _ eq_refl eq_refl)|apply ex_visible; cbn; tauto|exact count_type|exact uint8_values|exact R|exact B]. Qed.
Lemma ex_m : forall E index z, read_field 1 E = Some (VInt z) -> (0 <= z < 256)%Z -> int_value ds "Main" E index 0 256 (CId "m") z.
Proof. intros E index z R B. apply (IV_member ds "Main" E index 0 256 "m" (CKeyword "uint8") (GU 8) (read_field 1)); [exact (ex_main_field 1 _ eq_refl eq_refl)|apply ex_visible; cbn; tauto|exact (uint8_type ds)|exact uint8_values|exact R|exact B]. Qed.
Lemma ex_k : forall E index z, read_param 0 E = Some (VInt z) -> (0 <= z < 256)%Z -> int_value ds "Pick" E index 0 256 (CId "k") z.
Proof.
  intros E index z R B. apply (IV_member ds "Pick" E index 0 256 "k" (CNamed ["Count"] []) (GU 8) (read_param 0)); [|apply ex_visible; cbn; tauto|exact count_type|exact uint8_values|exact R|exact B].
  apply (ME_choice ds "Pick" ex_pick 0); [member|reflexivity|reflexivity].
Qed.
Lemma ex_i : forall E index z, read_param 0 E = Some (VInt z) -> (0 <= z < 256)%Z -> int_value ds "Item" E index 0 256 (CId "i") z.
Proof.
  intros E index z R B. apply (IV_member ds "Item" E index 0 256 "i" (CKeyword "uint8") (GU 8) (read_param 0)); [|apply ex_visible; cbn; tauto|exact (uint8_type ds)|exact uint8_values|exact R|exact B].
  apply (ME_struct ds "Item" ex_item 0); [member|reflexivity|reflexivity].
Qed.
Lemma ex_const : forall scope E index, int_value ds scope E index 0 256 (CId "K") 2.
Proof. intros scope E index. apply (IV_const ds scope E index 0 256 (mkCI (CKeyword "uint8") CNone) "K" (CLiteral Literals.TDecimal "2")); [member|apply SL_plain, (digit_literal "2" 2); cbn; tauto|lia]. Qed.
Lemma ex_digit : forall scope E index c d, In (c, d) [("1", 1); ("2", 2); ("3", 3)]%char%nat -> int_value ds scope E index 0 256 (lit (String c "")) (Z.of_nat d).
Proof. intros scope E index c d H. apply IV_literal; [apply SL_plain; exact (digit_literal c d H)|]. cbn in H. destruct H as [H|[H|[H|[]]]]; injection H as _ <-; lia. Qed.
Lemma ex_ranged : forall scope E index e z, int_value ds scope E index 0 256 e z -> is_int ds scope E index e z.
Proof. intros scope E index e z H. exists 0%Z, 256%Z. split; [lia|]. split; [lia|exact H]. Qed.

Lemma ex_uses : forall scope t, used ds scope t -> (scope = "Item" /\ t = ft (CKeyword "uint16") CNone "v" None) \/
  (scope = "Pick" /\ (t = ft (CBitField false None) (CLength (CBinary BPlus (CId "k") (lit "3"))) "a" None \/ t = ft (CKeyword "bool") CNone "b" None)) \/
  (scope = "Main" /\ In t (map cf_type (cs_fields ex_main))).
Proof.
  intros scope t [s f I N F|u f I N F|c l f I N F|c f I N F]; cbn in I; repeat (destruct I as [I|I]; [try discriminate I|]); try contradiction; injection I as <-; cbn [cs_name ex_item ex_main cc_name ex_pick] in N; subst scope.
  - left. split; [reflexivity|]. cbn in F. destruct F as [<-|[]]. reflexivity.
  - right. right. split; [reflexivity|]. now apply in_map.
  - right. left. split; [reflexivity|]. left. cbn in F. destruct F as [F|[]]. injection F as <- <-. reflexivity.
  - right. left. split; [reflexivity|]. right. cbn in F. injection F as <-. reflexivity.
Qed.
Lemma ex_exact : exact_reading ds ex_reading.
Proof.
  split; [|split; [|split]].
  - intros scope e E z (t & U & H) R. cbn [m_int ex_reading] in R. destruct (ex_uses scope t U) as [(-> & ->)|[(-> & [->| ->])|(-> & I)]].
    + cbn in H. destruct H; discriminate.
    + cbn in H. destruct H as [H|H]; [|discriminate]. injection H as <-. cbn [ex_int] in R. unfold and_then in R.
      destruct (number (read_param 0 E)) as [k|] eqn:Rk; [|discriminate]. apply number_inv in Rk. destruct Rk as (Rk & Bk). apply small_inv in R. destruct R as (-> & B).
      apply ex_ranged. apply (IV_op ds "Pick" E None 0 256 BPlus (CId "k") (lit "3") k 3); [exact (ex_k E None k Rk Bk)|apply (ex_digit "Pick" E None "3" 3); cbn; tauto|reflexivity|exact B].
    + cbn in H. destruct H; discriminate.
    + cbn [map cs_fields ex_main In cf_type fld] in I. repeat (destruct I as [<-|I]; [cbn in H; destruct H as [H|H]; try discriminate H|]); try contradiction; injection H as <-.
      * cbn [ex_int xs_length] in R. unfold and_then in R. destruct (number (read_field 0 E)) as [a|] eqn:R0; [|discriminate]. apply number_inv in R0. destruct R0 as (R0 & B0).
        destruct (number (read_field 1 E)) as [b|] eqn:R1; [|discriminate]. apply number_inv in R1. destruct R1 as (R1 & B1).
        destruct (small 0 256 (a * 2)) as [c|] eqn:Rc; [|discriminate]. apply small_inv in Rc. destruct Rc as (-> & Bc). apply small_inv in R. destruct R as (-> & B). apply ex_ranged.
        apply (IV_op ds "Main" E None 0 256 BPlus _ (CId "m") (a * 2) b); [|exact (ex_m E None b R1 B1)|reflexivity|exact B].
        apply (IV_op ds "Main" E None 0 256 BMul (CId "n") (CId "K") a 2); [exact (ex_n E None a R0 B0)|apply ex_const|reflexivity|exact Bc].
      * cbn [ex_int] in R. destruct (read_field 2 E) as [[| | | | |l]|] eqn:Rl; try discriminate. apply small_inv in R. destruct R as (-> & B). exists 0%Z, (2 ^ 63)%Z. split; [lia|]. split; [lia|].
        apply (IV_lengthof ds "Main" E None 0 (2 ^ 63) "xs" (CKeyword "uint16") (read_field 2) l); [exact (ex_main_field 2 _ eq_refl eq_refl)|apply ex_visible; cbn; tauto|exact Rl|exact B].
  - intros scope e E b (s & f & I & N & F & H) R. cbn [m_cond ex_reading] in R. cbn in I. repeat (destruct I as [I|I]; [try discriminate I|]); try contradiction; injection I as <-; cbn [cs_name ex_item ex_main] in N; subst scope.
    + cbn in F. destruct F as [<-|[]]. injection H as <-. cbn [ex_cond] in R. destruct (number (read_param 0 E)) as [i|] eqn:Ri; [|discriminate]. apply number_inv in Ri. destruct Ri as (Ri & Bi). injection R as <-.
      apply (BV_compare ds "Item" E None BGt (CId "i") (lit "1") i 1); [apply ex_ranged; exact (ex_i E None i Ri Bi)|apply ex_ranged; apply (ex_digit "Item" E None "1" 1); cbn; tauto|reflexivity].
    + cbn in F. repeat (destruct F as [<-|F]; [try discriminate H|]); try contradiction. injection H as <-. cbn [ex_cond extra_if] in R. destruct (read_field 3 E) as [[|fl| | | | ]|] eqn:Rf; try discriminate.
      assert (Fl : is_bool ds "Main" E None (CId "flag") fl).
      { apply (BV_member ds "Main" E None "flag" (CKeyword "bool") (read_field 3)); [exact (ex_main_field 3 _ eq_refl eq_refl)|apply ex_visible; cbn; tauto| |exact Rf]. exists 0%nat. split; [lia|constructor]. }
      destruct fl; [|injection R as <-; now apply BV_and_not]. apply BV_and; [exact Fl|]. unfold and_then in R.
      destruct (number (read_field 0 E)) as [a|] eqn:R0; [|discriminate]. apply number_inv in R0. destruct R0 as (R0 & B0). destruct (small 0 256 (a + 1)) as [c|] eqn:Rc; [|discriminate]. apply small_inv in Rc. destruct Rc as (-> & Bc). injection R as <-.
      apply (BV_compare ds "Main" E None BGe _ (CId "K") (a + 1) 2); [|apply ex_ranged; apply ex_const|reflexivity]. apply ex_ranged.
      apply (IV_op ds "Main" E None 0 256 BPlus (CId "n") (lit "1") a 1); [exact (ex_n E None a R0 B0)|apply (ex_digit "Main" E None "1" 1); cbn; tauto|reflexivity|exact Bc].
  - intros scope array q e E i v (t & k & n & params & es & U & -> & Ps & Lk & St & Hp & Le & I) R. cbn [m_arg ex_reading] in R. left.
    assert (Self : forall m, In m ["Item"; "Pick"] -> stands_for ds k (CNamed [m] []) (CNamed [n] []) -> n = m).
    { intros m Im Q. inversion Q as [t0|k0 n0 t0 t1 J Q']; [congruence|]. subst. cbn in J. repeat (destruct J as [J|J]; [try discriminate J|]); try contradiction. injection J as <- <-. cbn in Im. intuition discriminate. }
    assert (Params : forall ps, has_params ds n ps -> (n = "Item" -> ps = [(CKeyword "uint8", "i")]) /\ (n = "Pick" -> ps = [(CNamed ["Count"] [], "k")])).
    { intros ps [s0 J _|u0 J _|c0 J _|e0 J|b0 J]; cbn in J; repeat (destruct J as [J|J]; [try discriminate J|]); try contradiction; injection J as <-; cbn; split; intros Q; try discriminate Q; reflexivity. }
    destruct (Params params Hp) as (P1 & P2).
    destruct (ex_uses scope t U) as [(-> & ->)|[(-> & [->| ->])|(-> & J)]]; try discriminate Ps.
    cbn [map cs_fields ex_main In cf_type fld] in J. repeat (destruct J as [<-|J]; [cbn in Ps; try discriminate Ps|]); try contradiction.
    + destruct es as [|e0 [|e1 es]]; try discriminate Ps. injection Ps as <-. pose proof (Self "Item" (or_introl eq_refl) St) as ->. rewrite (P1 eq_refl) in I. cbn in I. destruct I as [I|[]]. injection I as <- <-.
      cbn [ex_arg] in R. destruct (small 0 256 (Z.of_nat i)) as [x|] eqn:Rx; [|discriminate]. injection R as <-. apply small_inv in Rx. destruct Rx as (-> & B).
      exists (Z.of_nat i), (GU 8). split; [reflexivity|]. split; [exact (uint8_type ds)|]. split; [now apply uint8_values|]. apply ex_ranged. apply IV_index; [reflexivity|exact B].
    + destruct es as [|e0 [|e1 es]]; try discriminate Ps. injection Ps as <-. pose proof (Self "Pick" (or_intror (or_introl eq_refl)) St) as ->. rewrite (P2 eq_refl) in I. cbn in I. destruct I as [I|[]]. injection I as <- <-.
      cbn [ex_arg] in R. destruct (number (read_field 0 E)) as [x|] eqn:Rx; [|discriminate]. injection R as <-. apply number_inv in Rx. destruct Rx as (Rx & B).
      exists x, (GU 8). split; [reflexivity|]. split; [exact count_type|]. split; [now apply uint8_values|]. apply ex_ranged. now apply ex_n.
  - intros c e (l & f & I & F & H). cbn in I. repeat (destruct I as [I|I]; [try discriminate I|]); try contradiction. injection I as <-. cbn in F. destruct F as [F|[]]. injection F as <- <-.
    cbn in H. destruct H as [<-|[<-|[]]]; apply LV_literal; [apply (digit_literal "1" 1); cbn; tauto|exact hex_literal].
Qed.

(** The schema that the file stands for. *)
Definition plain (t : ftype) : Schema.field := mkF t None false None 0 false.
Definition ex_schema : schema := [
  DStruct [mkF (TBasic (Std BUint8)) None false None 0 true; plain (TBasic (Std BUint8));
           mkF (TBasic (Std BUint16)) (Some (Some (m_int ex_reading "Main" xs_length), false)) false None 0 false; plain (TBasic (Std BBool));
           mkF (Schema.TRef 1 (values_of [m_arg ex_reading "Main" (CKeyword "uint8", "i") CIndex])) (Some (Some (m_int ex_reading "Main" (CLengthof (CId "xs"))), false)) false None 0 false;
           mkF (TBasic (Std BUint32)) None false (Some (m_cond ex_reading "Main" extra_if)) 0 false;
           plain (Schema.TRef 2 (values_of [m_arg ex_reading "Main" (CNamed ["Count"] [], "k") (CId "n")]))];
  DStruct [mkF (TBasic (Std BUint16)) None false (Some (m_cond ex_reading "Item" (CBinary BGt (CId "i") (lit "1")))) 0 false];
  DChoice (parameter 0) [([1; 2]%Z, Some (plain (TBasic (Bits false (GU 64) (m_int ex_reading "Pick" (CBinary BPlus (CId "k") (lit "3")))))))]
    (Some (plain (TBasic (Std BBool))))].
Lemma ex_means : file_means ex_reading ex_file ex_names ex_schema.
Proof.
  split; [discriminate|]. split; [repeat constructor; cbn; intuition discriminate|].
  split; [cbn [flat_map declares ex_file cfl_directives app cs_name cc_name cu_name ce_name cb_name]; repeat constructor; discriminate|].
  split; [repeat constructor; cbn; intuition discriminate|]. split; [intros n; cbn; tauto|].
  assert (T : forall scope n i ps params fs, has_params ds n params -> nth_error ex_names i = Some n -> args_mean ex_reading scope params ps fs ->
    type_means ex_reading ds ex_names scope (mkCI (CNamed [n] []) ps) (Schema.TRef i (values_of fs)) false).
  { intros scope n i ps params fs H1 H2 H3. apply (TM_declared _ _ _ _ 0 _ n _ i params fs); [lia|constructor|assumption..]. }
  assert (B : forall scope n b g, In (n, (b, g)) CodecChoiceSpec.named_types -> type_means ex_reading ds ex_names scope (mkCI (CKeyword n) CNone) (TBasic (Std b)) false).
  { intros scope n b g H. apply TM_builtin. exact (BM_keyword _ _ n b g H). }
  assert (Hitem : has_params ds "Item" [(CKeyword "uint8", "i")]) by (apply (HP_struct _ ex_item); [member|reflexivity]).
  assert (Hpick : has_params ds "Pick" [(CNamed ["Count"] [], "k")]) by (apply (HP_choice _ ex_pick); [member|reflexivity]).
  repeat apply Forall2_cons; [..|apply Forall2_nil].
  - apply (DM_struct _ _ _ ex_main); [member|reflexivity|]. repeat apply Forall2_cons; [..|apply Forall2_nil].
    + refine (FM _ _ _ _ (fld (ft (CNamed ["Count"] []) CNone "n" None) None) _ None 0 true _ _ _); [|constructor|constructor].
      apply (TM_subtype _ _ _ _ 1 _ (CKeyword "uint8")); [lia| |apply (BM_keyword _ _ _ _ "uint8"); cbn; tauto]. apply (SF_subtype _ _ _ (CKeyword "uint8")); [member|constructor].
    + refine (FM _ _ _ _ (fld (ft (CKeyword "uint8") CNone "m" None) None) _ None 0 false _ _ _); [eapply B; cbn; tauto|constructor|constructor].
    + refine (FM _ _ _ _ (fld (ft (CKeyword "uint16") CNone "xs" (Some (Some xs_length))) None) _ _ 0 false _ _ _); [eapply B; cbn; tauto|constructor|constructor].
    + refine (FM _ _ _ _ (fld (ft (CKeyword "bool") CNone "flag" None) None) _ None 0 false _ _ _); [eapply B; cbn; tauto|constructor|constructor].
    + refine (FM _ _ _ _ (fld (ft (CNamed ["Item"] []) (CArgs [CArg CIndex]) "items" (Some (Some (CLengthof (CId "xs"))))) None) _ _ 0 false _ _ _); [|constructor|constructor].
      eapply T; [exact Hitem|reflexivity|]. apply (AM_args _ _ _ [CIndex]); [discriminate|repeat constructor|reflexivity].
    + refine (FM _ _ _ _ (fld (ft (CKeyword "uint32") CNone "extra" None) (Some extra_if)) _ None 0 false _ _ _); [eapply B; cbn; tauto|constructor|constructor].
    + refine (FM _ _ _ _ (fld (ft (CNamed ["Pick"] []) (CArgs [CArg (CId "n")]) "pick" None) None) _ _ 0 false _ _ _); [|constructor|constructor].
      eapply T; [exact Hpick|reflexivity|]. apply (AM_args _ _ _ [CId "n"]); [discriminate|repeat constructor|reflexivity].
  - apply (DM_struct _ _ _ ex_item); [member|reflexivity|]. repeat apply Forall2_cons; [..|apply Forall2_nil].
    refine (FM _ _ _ _ (fld (ft (CKeyword "uint16") CNone "v" None) (Some (CBinary BGt (CId "i") (lit "1")))) _ None 0 false _ _ _); [eapply B; cbn; tauto|constructor|constructor].
  - apply (DM_choice _ _ _ ex_pick "k" 0); [member|reflexivity|reflexivity|repeat constructor; cbn; tauto|reflexivity|cbn; intuition discriminate| |].
    + repeat apply Forall2_cons; [..|apply Forall2_nil]. split; [reflexivity|]. apply SM_field.
      apply (MM _ _ _ _ (mkCCF (ft (CBitField false None) (CLength (CBinary BPlus (CId "k") (lit "3"))) "a" None) None) _ None false); [|constructor].
      apply TM_builtin. apply (BM_length ex_reading "Pick" false (CBinary BPlus (CId "k") (lit "3"))).
    + apply SM_field. apply (MM _ _ _ _ (mkCCF (ft (CKeyword "bool") CNone "b" None) None) _ None false); [eapply B; cbn; tauto|constructor].
Qed.
(** A value and its bytes: n = 1, m = 1, three numbers, true, three items (the last one
    has a number), 77, and 13 in four bits. *)
Definition ex_value : value := VRec 0 [Some (VInt 1); Some (VInt 1); Some (VArr [VInt 5; VInt 6; VInt 700]); Some (VBool true);
  Some (VArr [VRec 0 [None]; VRec 0 [None]; VRec 0 [Some (VInt 9)]]); Some (VInt 77); Some (VRec 0 [Some (VInt 13); None])].
Definition ex_code : schema := match generate_code ex_names (list_ascii_of_string ex_text) with Some code => code | None => [] end.
Lemma ex_generated : match generate_code ex_names (list_ascii_of_string ex_text) with Some _ => true | None => false end = true.
Proof. vm_compute. reflexivity. Qed.
Lemma ex_bytes : Marshal (MarshalZserio ex_code 4 0 [] ex_value) = Ok [1; 1; 0; 5; 0; 6; 2; 188; 128; 4; 128; 0; 0; 38; 232]%Z.
Proof. vm_compute. reflexivity. Qed.
Example C106_applies : exists code, parse_file (stream (list_ascii_of_string ex_text)) = Some ex_file /\ file_ok true ex_file /\ exact_reading ds ex_reading /\ file_means ex_reading ex_file ex_names ex_schema /\
  generate_code ex_names (list_ascii_of_string ex_text) = Some code /\ more_schema ex_schema code /\
  Marshal (MarshalZserio code 4 0 [] ex_value) = Ok [1; 1; 0; 5; 0; 6; 2; 188; 128; 4; 128; 0; 0; 38; 232]%Z.
Proof.
  pose proof ex_generated as Q. pose proof ex_bytes as B. unfold ex_code in B. destruct (generate_code ex_names (list_ascii_of_string ex_text)) as [code|] eqn:G; [|discriminate Q]. exists code. clear Q.
  assert (Ok : file_ok true ex_file).
  { clear G B. unfold file_ok. cbn -[like_field]. unfold FileParserSpec.struct_ok, FileParserSpec.choice_ok, params_ok, FileParserSpec.field_ok, FileParserSpec.case_ok, choice_field_ok, function_ok, field_type_ok, inst_ok.
    cbn -[like_field]. intuition (try discriminate; try lia). }
  split; [exact ex_parsed|]. split; [exact Ok|]. split; [exact ex_exact|]. split; [exact ex_means|]. split; [reflexivity|]. split.
  - unfold generate_code in G. rewrite ex_parsed in G. destruct (visit_file ex_file) as [p|] eqn:V; [|discriminate]. destruct (code_ok p) eqn:K; [|discriminate].
    assert (C : coded ex_file p) by (destruct ex_means as (_ & Q1 & Q2 & _); repeat split; assumption).
    destruct (code_schema ex_reading ex_file p ex_names ex_schema C ex_exact ex_means) as (code' & E & M). congruence.
  - exact B.
Qed.

(** All hypotheses of [C106_wire], for a smaller file. *)
Definition tiny_text : string := "package a; struct S{uint8 n;uint8 x[n+1];};".
Definition tiny_length : cexpr := CBinary BPlus (CId "n") (lit "1").
Definition tiny_struct : cstruct := mkCS "S" [] [] [fld (ft (CKeyword "uint8") CNone "n" None) None; fld (ft (CKeyword "uint8") CNone "x" (Some (Some tiny_length))) None] [].
Definition tiny_file : cfile := mkCFile None (Some ["a"]) [] [CStruct tiny_struct].
Definition tiny_tokens : list ptok := [("PACKAGE", "package"); ("ID", "a"); ("SEMICOLON", ";"); ("STRUCTURE", "struct"); ("ID", "S"); ("LBRACE", "{");
  ("UINT8", "uint8"); ("ID", "n"); ("SEMICOLON", ";"); ("UINT8", "uint8"); ("ID", "x"); ("LBRACKET", "["); ("ID", "n"); ("PLUS", "+"); ("DECIMAL_LITERAL", "1");
  ("RBRACKET", "]"); ("SEMICOLON", ";"); ("RBRACE", "}"); ("SEMICOLON", ";")].
Definition tiny_int (scope : string) (e : cexpr) (E : env) : option Z := and_then (number (read_field 0 E)) (fun n => small 0 256 (n + 1)).
Definition tiny_reading : reading := mkM _ _ tiny_int (fun _ _ _ => None) (fun _ _ _ _ _ => None) (fun _ _ => 0%Z).
Definition tiny_schema : schema := [DStruct [plain (TBasic (Std BUint8)); mkF (TBasic (Std BUint8)) (Some (Some (m_int tiny_reading "S" tiny_length), false)) false None 0 false]].
Local Ltac w n t l s := apply (LexerSpec.WWord n (list_ascii_of_string t) (list_ascii_of_string l) _ (list_ascii_of_string s)); [apply LexerLiteralFacts.word_by_best; [vm_compute; reflexivity|reflexivity|discriminate]|
  split; [|apply LexerLiteralFacts.glues_all_ok; vm_compute; reflexivity]|].
Local Ltac none := apply LexerSpec.LNone.
Local Ltac blank := apply LexerSpec.LBlank; [vm_compute; tauto | apply LexerSpec.LNone].
Lemma tiny_is_text : text_of tiny_tokens (list_ascii_of_string tiny_text).
Proof.
  exists [], (list_ascii_of_string tiny_text). split; [reflexivity|]. split; [none|].
  w "PACKAGE" "package" " " "a; struct S{uint8 n;uint8 x[n+1];};"; [blank|]. w "ID" "a" "" "; struct S{uint8 n;uint8 x[n+1];};"; [none|].
  w "SEMICOLON" ";" " " "struct S{uint8 n;uint8 x[n+1];};"; [blank|]. w "STRUCTURE" "struct" " " "S{uint8 n;uint8 x[n+1];};"; [blank|]. w "ID" "S" "" "{uint8 n;uint8 x[n+1];};"; [none|].
  w "LBRACE" "{" "" "uint8 n;uint8 x[n+1];};"; [none|]. w "UINT8" "uint8" " " "n;uint8 x[n+1];};"; [blank|]. w "ID" "n" "" ";uint8 x[n+1];};"; [none|].
  w "SEMICOLON" ";" "" "uint8 x[n+1];};"; [none|]. w "UINT8" "uint8" " " "x[n+1];};"; [blank|]. w "ID" "x" "" "[n+1];};"; [none|]. w "LBRACKET" "[" "" "n+1];};"; [none|].
  w "ID" "n" "" "+1];};"; [none|]. w "PLUS" "+" "" "1];};"; [none|]. w "DECIMAL_LITERAL" "1" "" "];};"; [none|]. w "RBRACKET" "]" "" ";};"; [none|]. w "SEMICOLON" ";" "" "};"; [none|]. w "RBRACE" "}" "" ";"; [none|].
  apply (LexerSpec.WWord "SEMICOLON" (list_ascii_of_string ";") [] _ []); [apply LexerLiteralFacts.word_by_best; [vm_compute; reflexivity|reflexivity|discriminate]|split; [none | exact I]|apply LexerSpec.WNone].
Qed.
Lemma tiny_parsed : parse_file (stream (list_ascii_of_string tiny_text)) = Some tiny_file.
Proof. vm_compute. reflexivity. Qed.
Lemma tiny_n : forall E index z, read_field 0 E = Some (VInt z) -> (0 <= z < 256)%Z -> int_value (cfl_directives tiny_file) "S" E index 0 256 (CId "n") z.
Proof.
  intros E index z R B. apply (IV_member _ "S" E index 0 256 "n" (CKeyword "uint8") (GU 8) (read_field 0)); [|intros Q; cbn in Q; intuition discriminate|apply uint8_type|exact uint8_values|exact R|exact B].
  apply (ME_field _ "S" tiny_struct 0 (fld (ft (CKeyword "uint8") CNone "n" None) None)); [now left|reflexivity|reflexivity|reflexivity].
Qed.
Lemma tiny_one : forall E index, int_value (cfl_directives tiny_file) "S" E index 0 256 (lit "1") 1.
Proof. intros E index. apply IV_literal; [apply SL_plain, (digit_literal "1" 1); cbn; tauto|lia]. Qed.
Lemma tiny_exact : exact_reading (cfl_directives tiny_file) tiny_reading.
Proof.
  split; [|split; [|split]].
  - intros scope e E z (t & U & H) R. destruct U as [s f I N F|u f I N F|c l f I N F|c f I N F]; cbn in I; destruct I as [I|[]]; try discriminate I. injection I as <-. cbn in N. subst scope.
    cbn in F. destruct F as [<-|[<-|[]]]; cbn in H; destruct H as [H|H]; try discriminate H. injection H as <-. cbn [m_int tiny_reading] in R. unfold tiny_int, and_then in R.
    destruct (number (read_field 0 E)) as [n|] eqn:Rn; [|discriminate]. apply number_inv in Rn. destruct Rn as (Rn & Bn). apply small_inv in R. destruct R as (-> & B).
    exists 0%Z, 256%Z. split; [lia|]. split; [lia|]. apply (IV_op _ "S" E None 0 256 BPlus (CId "n") (lit "1") n 1); [exact (tiny_n E None n Rn Bn)|apply tiny_one|reflexivity|exact B].
  - discriminate.
  - discriminate.
  - intros c e (l & f & I & _). cbn in I. destruct I as [I|[]]. discriminate I.
Qed.
Lemma tiny_means : file_means tiny_reading tiny_file ["S"] tiny_schema.
Proof.
  split; [discriminate|]. split; [repeat constructor; cbn; intuition discriminate|].
  split; [repeat constructor; discriminate|]. split; [repeat constructor; cbn; tauto|]. split; [intros n; cbn; tauto|].
  apply Forall2_cons; [|constructor]. apply (DM_struct _ _ _ tiny_struct); [now left|reflexivity|].
  assert (B : type_means tiny_reading (cfl_directives tiny_file) ["S"] "S" (mkCI (CKeyword "uint8") CNone) (TBasic (Std BUint8)) false) by (apply TM_builtin; apply (BM_keyword _ _ _ _ "uint8"); cbn; tauto).
  repeat apply Forall2_cons; [..|constructor].
  - refine (FM _ _ _ _ (fld (ft (CKeyword "uint8") CNone "n" None) None) _ None 0 false _ _ _); [exact B|constructor|constructor].
  - refine (FM _ _ _ _ (fld (ft (CKeyword "uint8") CNone "x" (Some (Some tiny_length))) None) _ _ 0 false _ _ _); [exact B|constructor|constructor].
Qed.
Lemma tiny_generated : match generate_code ["S"] (list_ascii_of_string tiny_text) with Some _ => true | None => false end = true.
Proof. vm_compute. reflexivity. Qed.
Definition tiny_value : value := VRec 0 [Some (VInt 1); Some (VArr [VInt 7; VInt 8])].
Example C106_wire_applies : file_ok true tiny_file /\ file_written tiny_file tiny_tokens /\ text_of tiny_tokens (list_ascii_of_string tiny_text) /\
  exact_reading (cfl_directives tiny_file) tiny_reading /\ file_means tiny_reading tiny_file ["S"] tiny_schema /\ generate_code ["S"] (list_ascii_of_string tiny_text) <> None /\
  causal tiny_schema /\ valid tiny_schema 1 false 0 [] tiny_value.
Proof.
  split; [|split; [|split; [exact tiny_is_text|split; [exact tiny_exact|split; [exact tiny_means|split; [|split]]]]]].
  - unfold file_ok. cbn -[like_field]. unfold FileParserSpec.struct_ok, params_ok, FileParserSpec.field_ok, field_type_ok, inst_ok. cbn -[like_field]. intuition (try discriminate; try lia).
  - rewrite <- (ParserTextFacts.stream_text _ _ tiny_is_text). exact (proj1 (text_file_sound _ _ tiny_parsed)).
  - intros Q. pose proof tiny_generated as G. rewrite Q in G. discriminate G.
  - intros id d i f Hd Hf. destruct id as [|[|id]]; try discriminate Hd. injection Hd as <-. destruct i as [|[|[|i]]]; try discriminate Hf; injection Hf as <-; intros ps slots Hl.
    + repeat split.
    + destruct slots as [|a [|b slots]]; cbn in Hl; try lia. repeat split.
  - cbn [valid]. eexists. split; [reflexivity|]. eexists. split; [reflexivity|]. split; [reflexivity|].
    intros [|[|[|i]]] f Hi; try discriminate Hi; injection Hi as <-; (split; [cbn; lia|]); exists true; (split; [reflexivity|]).
    + split; [|discriminate]. exists BUint8, 1%Z. split; [reflexivity|]. split; [split; [now left|lia]|]. split; [cbn; lia|reflexivity].
    + exists [VInt 7; VInt 8]. split; [reflexivity|]. split; [exists 2%Z; split; reflexivity|]. split; [exact I|]. split; [discriminate|]. split; [|discriminate].
      repeat constructor; [exists BUint8, 7%Z|exists BUint8, 8%Z]; (split; [reflexivity|]; split; [split; [now left|lia]|]; split; [cbn; lia|reflexivity]).
Qed.

(** A sum that the Go type of the operands does not hold is another number: n + 1, for
    n = 255. *)
Theorem C106_overflow_refuted : exists s f p scope a b E x y z, compiled_text s f p /\ length_in (cfl_directives f) scope (CBinary BPlus a b) /\
  is_int (cfl_directives f) scope E None a x /\ is_int (cfl_directives f) scope E None b y /\
  m_int (go_meaning p) scope (visit_expr (CBinary BPlus a b)) E = Some z /\ z <> (x + y)%Z.
Proof.
  destruct (visit_file tiny_file) as [p|] eqn:V; [|vm_compute in V; discriminate V].
  exists (list_ascii_of_string tiny_text), tiny_file, p, "S", (CId "n"), (lit "1"), (mkE [] [Some (VInt 255); None]), 255%Z, 1%Z, 0%Z.
  split; [|split; [|split; [|split; [|split]]]].
  - split; [exact tiny_parsed|]. split; [exact V|]. vm_compute in V. injection V as <-. split; [vm_compute; reflexivity|]. destruct tiny_means as (_ & Q1 & Q2 & _). split; assumption.
  - exists (ft (CKeyword "uint8") CNone "x" (Some (Some tiny_length))). split; [|now right]. apply (U_struct _ "S" tiny_struct (fld (ft (CKeyword "uint8") CNone "x" (Some (Some tiny_length))) None)); [now left|reflexivity|cbn; tauto].
  - exists 0%Z, 256%Z. split; [lia|]. split; [lia|]. apply tiny_n; [reflexivity|lia].
  - exists 0%Z, 256%Z. split; [lia|]. split; [lia|]. apply tiny_one.
  - vm_compute in V. injection V as <-. vm_compute. reflexivity.
  - discriminate.
Qed.
Print Assumptions C106_overflow_refuted.
