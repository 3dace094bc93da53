(** C109: choices on enums in the code that is generated for a schema file. *)

Require Import ZArith String Ascii List Bool Lia.
From Verif Require Import Bits Stream Spec PosSpec Scalars Traits Marshal Schema SchemaSpec WireSpec WireFacts PropWire Refine.
From Verif Require Lexer LexerSpec LexerLiteralFacts ParserTextFacts Literals LiteralsSpec.
From Verif Require Import Packages Visitor VisitorSpec Parser ParserSpec FileParser FileParserSpec FileParserSound.
From Verif Require Import Compile CompileSpec CompileThms ExprCode ExprCodeSpec ExprCodeFacts ExprCodeThms PropExprCode.
Import ListNotations.
Open Scope string_scope.
Open Scope list_scope.

(** ** Labels and arguments *)

(** The label of a case has its number: that of the literal, or that of the item of the
    enum that is chosen on. *)
Theorem C109_label : forall s f p c e z, compiled_text s f p -> label_in (cfl_directives f) c e -> label_value (cfl_directives f) c e z ->
  m_label (go_meaning p) (cc_name c) (visit_expr e) = z.
Proof.
  intros s f p c e z H L V. apply compiled_coded in H. pose proof (label_runs f p c _ H L) as Ok. cbn [m_label go_meaning]. unfold label_ok in Ok.
  destruct (label_of p (cc_name c) (visit_expr e)) as [y|] eqn:Lo; [|discriminate]. destruct L as (l & cf & Ic & _). exact (label_number f p c e z y H Ic V Lo).
Qed.
Print Assumptions C109_label.
(** An argument of an enum type is passed with its number. *)
Theorem C109_argument : forall s f p scope array q e E i z, compiled_text s f p -> argument_in (cfl_directives f) scope array q e ->
  enum_argument (cfl_directives f) scope E (fst q) e z -> m_arg (go_meaning p) scope (visit_param q) (visit_expr e) E i = Some (VInt z).
Proof.
  intros s f p scope array q e E i z H A V. apply compiled_coded in H. destruct (argument_runs f p scope array q e H A) as ((t & T & Ck) & _).
  assert (T' : go_tree p scope true (visit_expr e) = Some t) by (destruct array; [exact T|now apply go_tree_index]).
  cbn [m_arg go_meaning visit_param snd]. unfold go_run. rewrite T'. destruct (run_enum f p scope E i (fst q) e z t array H V T) as (-> & go & -> & Cv). now rewrite Cv.
Qed.
Print Assumptions C109_argument.

(** ** Cases *)

Lemma find_branch : forall (I : reading) ds names c before after labels cases fd z F (Fx : slot_means I ds names (cc_name c) (Some fd) (Some F)) start,
  hd_error labels = Some z ->
  Forall2 (fun a b => fst b = map (m_label I (cc_name c)) (fst a) /\ slot_means I ds names (cc_name c) (snd a) (snd b)) before cases ->
  (forall e l' f', In (e :: l', Some f') before -> m_label I (cc_name c) e <> z) ->
  exists j, find (fun x => match fst (snd x) with Some l => (l =? z)%Z | None => false end)
    (combine (seq start (length (branches (cases ++ (labels, Some F) :: after)))) (branches (cases ++ (labels, Some F) :: after))) = Some (j, (Some z, F)).
Proof.
  intros I ds names c before after labels cases fd z F Fx start Hd Fb. revert start. induction Fb as [|(l, cf) (l', F') before cases (E1 & E2) Fb IH]; intros start N.
  - exists start. unfold branches. cbn [app flat_map snd fst]. rewrite Hd. cbn. now rewrite Z.eqb_refl.
  - cbn [fst snd] in E1, E2. subst l'. assert (N' : forall e l' f', In (e :: l', Some f') before -> m_label I (cc_name c) e <> z) by (intros e l' f' J; apply (N e l' f'); now right).
    destruct E2 as [|g g' M]; cbn [app branches flat_map snd fst].
    + exact (IH start N').
    + destruct (IH (Datatypes.S start) N') as (j & Hj). exists j. cbn [length seq combine find fst snd]. destruct l as [|e l]; cbn [map hd_error]; [exact Hj|].
      rewrite (proj2 (Z.eqb_neq _ z) (N e l g (or_introl eq_refl))). exact Hj.
Qed.
Lemma choice_def : forall I f names sch c id, file_means I f names sch -> In (CChoice c) (cfl_directives f) -> nth_error names id = Some (cc_name c) ->
  exists y i cases d, nth_error sch id = Some (DChoice (parameter i) cases d) /\ cc_on c = CId y /\ NoDup (map snd (cc_params c)) /\ nth_error (map snd (cc_params c)) i = Some y /\
    Forall2 (fun a b => fst b = map (m_label I (cc_name c)) (fst a) /\ slot_means I (cfl_directives f) names (cc_name c) (snd a) (snd b)) (cc_cases c) cases /\
    slot_means I (cfl_directives f) names (cc_name c) (match cc_default c with Some f => f | None => None end) d.
Proof.
  intros I f names sch c id (_ & O & _ & _ & _ & F) Ic N. remember (cfl_directives f) as ds eqn:Ed. clear Ed f.
  assert (X : exists d, nth_error sch id = Some d /\ def_means I ds names (cc_name c) d).
  { assert (G : forall l l', Forall2 (def_means I ds names) l l' -> forall id, nth_error l id = Some (cc_name c) -> exists d, nth_error l' id = Some d /\ def_means I ds names (cc_name c) d).
    { induction 1 as [|n d l l' H F' IH]; intros [|j] Hn; try discriminate Hn; [injection Hn as ->; exists d; split; [reflexivity|exact H]|exact (IH j Hn)]. }
    exact (G _ _ F id N). }
  destruct X as (d & Nd & D). remember (cc_name c) as n eqn:En.
  assert (U : forall d', In d' ds -> In n (declares d') -> d' = CChoice c) by (intros d' J K; subst n; eapply CompileFacts.name_unique; [exact O|exact J|exact Ic|exact K|now left]).
  destruct D as [s0 fs J|u0 fs J|c0 x0 i cases d0 J T On Nd' Nt V Fc G|e0 k t b J|m b J].
  - discriminate (U _ J (or_introl eq_refl)).
  - discriminate (U _ J (or_introl eq_refl)).
  - pose proof (U _ J (or_introl eq_refl)) as Q. injection Q as ->. exists x0, i, cases, d0. repeat split; assumption.
  - discriminate (U _ J (or_introl eq_refl)).
  - discriminate (U _ J (or_introl eq_refl)).
Qed.
Lemma index_unique : forall (l : list string) i j y, NoDup l -> nth_error l i = Some y -> nth_error l j = Some y -> i = j.
Proof. intros l i j y D Hi Hj. apply (proj1 (NoDup_nth_error l) D); [apply nth_error_Some; congruence|congruence]. Qed.
Lemma split_forall2 : forall {A B} (R : A -> B -> Prop) l1 x l2 m, Forall2 R (l1 ++ x :: l2) m -> exists m1 y m2, m = m1 ++ y :: m2 /\ Forall2 R l1 m1 /\ R x y.
Proof.
  induction l1 as [|a l1 IH]; cbn; intros x l2 m H; inversion H; subst.
  - exists [], y, l'. repeat split; [constructor|assumption].
  - destruct (IH _ _ _ H4) as (m1 & y' & m2 & -> & F & Rx). exists (y :: m1), y', m2. repeat split; [now constructor|exact Rx].
Qed.

(** If the selector has the number of the item [x], the choice has the field of the
    case of [x], in the wire format of the schema and so (see [C106_wire]) in that of the
    generated code.  As for other choices, that is the first case with a field whose
    first label has the number. *)
Theorem C109_case : forall I s f p names sch c id before x l fd after y i z ps, compiled_text s f p -> exact_reading (cfl_directives f) I -> file_means I f names sch ->
  In (CChoice c) (cfl_directives f) -> nth_error names id = Some (cc_name c) ->
  cc_cases c = before ++ (CId x :: l, Some fd) :: after -> label_value (cfl_directives f) c (CId x) z ->
  (forall e l' f', In (e :: l', Some f') before -> ~ label_value (cfl_directives f) c e z) ->
  cc_on c = CId y -> nth_error (map snd (cc_params c)) i = Some y -> nth_error ps i = Some (VInt z) ->
  exists sel cases d j F, nth_error sch id = Some (DChoice sel cases d) /\ sel ps = Some z /\
    branch z cases d = Some (j, F) /\ slot_means I (cfl_directives f) names (cc_name c) (Some fd) (Some F).
Proof.
  intros I s f p names sch c id before x l fd after y i z ps Ct X M Ic N Cs Lv Nb On Ni Np. destruct (choice_def I f names sch c id M Ic N) as (y' & i' & cases & d & Nd & On' & Du & Ni' & Fc & _).
  rewrite On in On'. injection On' as <-. pose proof (index_unique _ _ _ _ Du Ni Ni') as <-. pose proof X as (_ & _ & _ & X4).
  assert (In1 : forall e l' cf, In (l', cf) (cc_cases c) -> In e l' -> label_value (cfl_directives f) c e (m_label I (cc_name c) e)) by (intros e l' cf J K; apply X4; exists l', cf; auto).
  assert (Ez : m_label I (cc_name c) (CId x) = z).
  { assert (L : label_in (cfl_directives f) c (CId x)) by (exists (CId x :: l), (Some fd); repeat split; [exact Ic|rewrite Cs; apply in_or_app; right; now left|now left]).
    rewrite <- (C109_label s f p c (CId x) z Ct L Lv). symmetry. exact (C109_label s f p c (CId x) _ Ct L (X4 _ _ L)). }
  rewrite Cs in Fc. destruct (split_forall2 _ _ _ _ _ Fc) as (m1 & (labels, F0) & m2 & -> & F1 & (E1 & E2)). cbn [fst snd] in E1, E2. destruct F0 as [F|]; [|inversion E2].
  assert (Hd : hd_error labels = Some z) by (subst labels; cbn; now rewrite Ez).
  destruct (find_branch I (cfl_directives f) names c before m2 labels m1 fd z F E2 0 Hd F1) as (j & Hj).
  { intros e l' f' J Q. apply (Nb e l' f' J). rewrite <- Q. apply (In1 e (e :: l') (Some f')); [rewrite Cs; apply in_or_app; now left|now left]. }
  exists (parameter i), (m1 ++ (labels, Some F) :: m2), d, j, F. split; [exact Nd|]. split; [unfold parameter; now rewrite Np|]. split; [|exact E2]. unfold branch, indexed. now rewrite Hj.
Qed.
Print Assumptions C109_case.
(** If it has the number of no label, the choice has the default field, if any. *)
Theorem C109_default : forall I s f p names sch c id y i z ps, compiled_text s f p -> exact_reading (cfl_directives f) I -> file_means I f names sch ->
  In (CChoice c) (cfl_directives f) -> nth_error names id = Some (cc_name c) ->
  (forall e l' f', In (e :: l', Some f') (cc_cases c) -> ~ label_value (cfl_directives f) c e z) ->
  cc_on c = CId y -> nth_error (map snd (cc_params c)) i = Some y -> nth_error ps i = Some (VInt z) ->
  exists sel cases d, nth_error sch id = Some (DChoice sel cases d) /\ sel ps = Some z /\ option_map snd (branch z cases d) = d /\
    slot_means I (cfl_directives f) names (cc_name c) (match cc_default c with Some f => f | None => None end) d.
Proof.
  intros I s f p names sch c id y i z ps Ct X M Ic N Nb On Ni Np. destruct (choice_def I f names sch c id M Ic N) as (y' & i' & cases & d & Nd & On' & Du & Ni' & Fc & Sd).
  rewrite On in On'. injection On' as <-. pose proof (index_unique _ _ _ _ Du Ni Ni') as <-. exists (parameter i), cases, d. split; [exact Nd|]. split; [unfold parameter; now rewrite Np|]. split; [|exact Sd].
  assert (L : forall e l' cf, In (e :: l', Some cf) (cc_cases c) -> m_label I (cc_name c) e <> z).
  { intros e l' cf J Q. apply (Nb e l' cf J). rewrite <- Q. apply X. exists (e :: l'), (Some cf). repeat split; [exact Ic|exact J|now left]. }
  assert (G : forall start, find (fun x => match fst (snd x) with Some l => (l =? z)%Z | None => false end) (combine (seq start (length (branches cases))) (branches cases)) = None).
  { clear - Fc L. induction Fc as [|(l, cf) (l', F') before cases (E1 & E2) Fb IH]; intros start; [reflexivity|]. cbn [fst snd] in E1, E2. subst l'.
    assert (IH' := IH ltac:(intros e l' f' J; apply (L e l' f'); now right)). destruct E2 as [|g g' Mm]; cbn [branches flat_map snd fst]; [exact (IH' start)|].
    cbn [app length seq combine find fst snd]. destruct l as [|e l]; cbn [map hd_error]; [apply IH'|]. rewrite (proj2 (Z.eqb_neq _ z) (L e l g (or_introl eq_refl))). apply IH'. }
  unfold branch, indexed. rewrite (G 0%nat). now destruct d.
Qed.
Print Assumptions C109_default.

(** ** A file *)

Definition pick_text : string := "package a;
enum uint8 Kind { NONE = 3, SMALL, LARGE = 1 };
subtype Kind K;
choice Body(K k) on k { case SMALL: uint8 s; case LARGE: uint16 l; default: bool d; };
struct S { Kind kind; Body(kind) body; };
".
Definition pick_kind : cenum := mkCE (mkCI (CKeyword "uint8") CNone) "Kind" [(None, "NONE", Some (lit "3")); (None, "SMALL", None); (None, "LARGE", Some (lit "1"))].
Definition pick_small : cchoicefield := mkCCF (ft (CKeyword "uint8") CNone "s" None) None.
Definition pick_large : cchoicefield := mkCCF (ft (CKeyword "uint16") CNone "l" None) None.
Definition pick_other : cchoicefield := mkCCF (ft (CKeyword "bool") CNone "d" None) None.
Definition pick_body : cchoice := mkCC "Body" [] [(CNamed ["K"] [], "k")] (CId "k") [([CId "SMALL"], Some pick_small); ([CId "LARGE"], Some pick_large)] (Some (Some pick_other)) [].
Definition pick_struct : cstruct := mkCS "S" [] [] [fld (ft (CNamed ["Kind"] []) CNone "kind" None) None; fld (ft (CNamed ["Body"] []) (CArgs [CArg (CId "kind")]) "body" None) None] [].
Definition pick_file : cfile := mkCFile None (Some ["a"]) [] [CEnum pick_kind; CSubtype (CNamed ["Kind"] []) "K"; CChoice pick_body; CStruct pick_struct].
Definition pick_names : list string := ["S"; "Body"; "Kind"].
Lemma pick_parsed : parse_file (stream (list_ascii_of_string pick_text)) = Some pick_file.
Proof. vm_compute. reflexivity. Qed.
Lemma pick_generated : match generate_code pick_names (list_ascii_of_string pick_text) with Some _ => true | None => false end = true.
Proof. vm_compute. reflexivity. Qed.
Local Notation ds := (cfl_directives pick_file).
Local Ltac member := cbn; repeat (first [left; reflexivity | right]).
Lemma three : LiteralsSpec.int_literal Literals.TDecimal (list_ascii_of_string "3") 3.
Proof. apply (digit_literal "3" 3); cbn; tauto. Qed.
Lemma pick_items : items_from 0 (ce_items pick_kind) [("NONE", 3); ("SMALL", 4); ("LARGE", 1)]%Z.
Proof. apply IF_value; [apply SL_plain; exact three|]. apply IF_next; [reflexivity|]. apply IF_value; [apply SL_plain; apply (digit_literal "1" 1); cbn; tauto|]. constructor. Qed.
Lemma pick_item : forall x z, In (x, z) [("NONE", 3); ("SMALL", 4); ("LARGE", 1)]%Z -> item_of pick_kind x z.
Proof. intros x z H. eexists. split; [exact pick_items|]. split; [|exact H]. repeat constructor; cbn; intuition discriminate. Qed.
Lemma pick_by_name : has_enum ds (CNamed ["Kind"] []) pick_kind.
Proof. exists 0%nat. split; [lia|]. split; [constructor|member]. Qed.
Lemma pick_by_subtype : has_enum ds (CNamed ["K"] []) pick_kind.
Proof. exists 1%nat. split; [lia|]. split; [|member]. apply SF_subtype with (CNamed ["Kind"] []); [member|constructor]. Qed.
Lemma pick_label : forall x z, In (x, z) [("NONE", 3); ("SMALL", 4); ("LARGE", 1)]%Z -> label_value ds pick_body (CId x) z.
Proof. intros x z H. apply (LV_item ds pick_body "k" (CNamed ["K"] []) pick_kind); [reflexivity|intros Q; cbn in Q; intuition discriminate|now left|exact pick_by_subtype|now apply pick_item]. Qed.

Definition pick_reading : reading := mkM _ _ (fun _ _ _ => None) (fun _ _ _ => None) (fun _ _ _ E _ => option_map VInt (number (read_field 0 E)))
  (fun _ e => match e with CId x => if (x =? "SMALL")%string then 4 else 1 | _ => 0 end)%Z.
Lemma pick_argument : forall E z, read_field 0 E = Some (VInt z) -> (0 <= z < 256)%Z -> enum_argument ds "S" E (CNamed ["K"] []) (CId "kind") z.
Proof.
  intros E z R B. exists "kind", (CNamed ["Kind"] []), (read_field 0), pick_kind, (GU 8). split; [reflexivity|]. split; [apply (ME_field ds "S" pick_struct 0 (fld (ft (CNamed ["Kind"] []) CNone "kind" None) None)); [member|reflexivity..]|].
  split; [intros Q; cbn in Q; intuition discriminate|]. split; [exact pick_by_name|]. split; [exact pick_by_subtype|]. split; [apply uint8_type|]. split; [now apply uint8_values|exact R].
Qed.
Lemma pick_exact : exact_reading ds pick_reading.
Proof.
  split; [|split; [|split]]; [discriminate|discriminate| |].
  - intros scope array q e E i v (t & k & n & params & es & U & -> & Ps & Lk & St & Hp & Le & I) R. cbn [m_arg pick_reading] in R. right. right.
    assert (X : scope = "S" /\ t = ft (CNamed ["Body"] []) (CArgs [CArg (CId "kind")]) "body" None).
    { destruct U as [s f J N F|u f J N F|c l f J N F|c f J N F]; cbn in J; repeat (destruct J as [J|J]; [try discriminate J|]); try contradiction; injection J as <-; cbn in N, F; subst scope.
      - destruct F as [<-|[<-|[]]]; [discriminate Ps|auto].
      - destruct F as [F|[F|[]]]; injection F as <- <-; discriminate Ps.
      - injection F as <-. discriminate Ps. }
    destruct X as (-> & ->). destruct es as [|e0 [|e1 es]]; try discriminate Ps. injection Ps as <-.
    assert (n = "Body") as ->.
    { inversion St as [t0|k0 n0 t0 t1 J Q]; [congruence|]. subst. cbn in J. repeat (destruct J as [J|J]; [try discriminate J|]); contradiction. }
    assert (params = [(CNamed ["K"] [], "k")]) as ->.
    { remember "Body" as n eqn:En. destruct Hp as [s0 J _|u0 J _|c0 J _|e0 J|b0 J]; cbn in J; repeat (destruct J as [J|J]; [try discriminate J|]); try contradiction; injection J as <-; try discriminate En. reflexivity. }
    cbn in I. destruct I as [I|[]]. injection I as <- <-. destruct (number (read_field 0 E)) as [z|] eqn:Rz; [|discriminate]. injection R as <-. apply number_inv in Rz. destruct Rz as (Rz & B).
    exists z. split; [reflexivity|]. now apply pick_argument.
  - intros c e (l & f & I & F & H). cbn in I. repeat (destruct I as [I|I]; [try discriminate I|]); try contradiction. injection I as <-.
    cbn in F. destruct F as [F|[F|[]]]; injection F as <- <-; destruct H as [<-|[]]; apply pick_label; cbn; tauto.
Qed.
Definition pick_schema : schema := [
  DStruct [plain (Schema.TRef 2 (values_of [])); plain (Schema.TRef 1 (values_of [m_arg pick_reading "S" (CNamed ["K"] [], "k") (CId "kind")]))];
  DChoice (parameter 0) [([4]%Z, Some (plain (TBasic (Std BUint8)))); ([1]%Z, Some (plain (TBasic (Std BUint16))))] (Some (plain (TBasic (Std BBool))));
  DScalar (Std BUint8)].
Lemma pick_means : file_means pick_reading pick_file pick_names pick_schema.
Proof.
  split; [discriminate|]. split; [repeat constructor; cbn; intuition discriminate|].
  split; [cbn [flat_map declares pick_file cfl_directives app cs_name cc_name cu_name ce_name cb_name]; repeat constructor; discriminate|].
  split; [repeat constructor; cbn; intuition discriminate|]. split; [intros n; cbn; tauto|].
  assert (B : forall scope n b g, In (n, (b, g)) CodecChoiceSpec.named_types -> type_means pick_reading ds pick_names scope (mkCI (CKeyword n) CNone) (TBasic (Std b)) false).
  { intros scope n b g H. apply TM_builtin. exact (BM_keyword _ _ n b g H). }
  repeat apply Forall2_cons; [..|apply Forall2_nil].
  - apply (DM_struct _ _ _ pick_struct); [member|reflexivity|]. repeat apply Forall2_cons; [..|apply Forall2_nil].
    + refine (FM _ _ _ _ (fld (ft (CNamed ["Kind"] []) CNone "kind" None) None) _ None 0 false _ _ _); [|constructor|constructor].
      apply (TM_declared _ _ _ _ 0 _ "Kind" _ 2 [] []); [lia|constructor|apply (HP_enum _ pick_kind); member|reflexivity|constructor].
    + refine (FM _ _ _ _ (fld (ft (CNamed ["Body"] []) (CArgs [CArg (CId "kind")]) "body" None) None) _ None 0 false _ _ _); [|constructor|constructor].
      eapply (TM_declared _ _ _ _ 0 _ "Body" _ 1); [lia|constructor|apply (HP_choice _ pick_body); [member|reflexivity]|reflexivity|]. apply (AM_args _ _ _ [CId "kind"]); [discriminate|repeat constructor|reflexivity].
  - apply (DM_choice _ _ _ pick_body "k" 0); [member|reflexivity|reflexivity|repeat constructor; cbn; tauto|reflexivity|cbn; intuition discriminate| |].
    + repeat apply Forall2_cons; [..|apply Forall2_nil]; (split; [reflexivity|]); apply SM_field; [apply (MM _ _ _ _ pick_small _ None false)|apply (MM _ _ _ _ pick_large _ None false)]; solve [eapply B; cbn; tauto | constructor].
    + apply SM_field. apply (MM _ _ _ _ pick_other _ None false); [eapply B; cbn; tauto|constructor].
  - apply (DM_enum _ _ _ pick_kind 0 (CKeyword "uint8")); [member|reflexivity|lia|constructor|]. apply (BM_keyword _ _ _ _ "uint8"). cbn. tauto.
Qed.
Lemma pick_compiled : exists p, compiled_text (list_ascii_of_string pick_text) pick_file p.
Proof.
  destruct (visit_file pick_file) as [p|] eqn:V; [|vm_compute in V; discriminate V]. exists p. split; [exact pick_parsed|]. split; [exact V|]. vm_compute in V. injection V as <-.
  split; [vm_compute; reflexivity|]. destruct pick_means as (_ & Q1 & Q2 & _). split; assumption.
Qed.
Definition pick_code : schema := match generate_code pick_names (list_ascii_of_string pick_text) with Some code => code | None => [] end.
Definition small_value : value := VRec 0 [Some (VInt 4); Some (VRec 0 [Some (VInt 200); None; None])].
Definition large_value : value := VRec 0 [Some (VInt 1); Some (VRec 0 [None; Some (VInt 513); None])].
Definition none_value : value := VRec 0 [Some (VInt 3); Some (VRec 0 [None; None; Some (VBool true)])].

(** The hypotheses of the theorems, for the file; and the bytes of three values. *)
Example C109_label_applies : exists p, compiled_text (list_ascii_of_string pick_text) pick_file p /\ label_in ds pick_body (CId "SMALL") /\ label_value ds pick_body (CId "SMALL") 4 /\
  m_label (go_meaning p) "Body" (visit_expr (CId "SMALL")) = 4%Z.
Proof.
  destruct pick_compiled as (p & C). exists p. assert (L : label_in ds pick_body (CId "SMALL")) by (exists [CId "SMALL"], (Some pick_small); repeat split; [member|now left|now left]).
  assert (V : label_value ds pick_body (CId "SMALL") 4) by (apply pick_label; cbn; tauto). split; [exact C|]. split; [exact L|]. split; [exact V|]. exact (C109_label _ _ _ pick_body _ _ C L V).
Qed.
Example C109_argument_applies : forall E, read_field 0 E = Some (VInt 4) -> enum_argument ds "S" E (CNamed ["K"] []) (CId "kind") 4 /\
  argument_in ds "S" false (CNamed ["K"] [], "k") (CId "kind").
Proof.
  intros E R. split; [apply pick_argument; [exact R|lia]|]. exists (ft (CNamed ["Body"] []) (CArgs [CArg (CId "kind")]) "body" None), 0%nat, "Body", [(CNamed ["K"] [], "k")], [CId "kind"].
  split; [apply (U_struct ds "S" pick_struct (fld (ft (CNamed ["Body"] []) (CArgs [CArg (CId "kind")]) "body" None) None)); [member|reflexivity|cbn; tauto]|].
  repeat split; [lia|constructor|apply (HP_choice _ pick_body); [member|reflexivity]|now left].
Qed.
Example C109_case_applies : exists p, compiled_text (list_ascii_of_string pick_text) pick_file p /\ exact_reading ds pick_reading /\ file_means pick_reading pick_file pick_names pick_schema /\
  In (CChoice pick_body) ds /\ nth_error pick_names 1 = Some (cc_name pick_body) /\
  cc_cases pick_body = [([CId "SMALL"], Some pick_small)] ++ ([CId "LARGE"], Some pick_large) :: [] /\ label_value ds pick_body (CId "LARGE") 1 /\
  ~ label_value ds pick_body (CId "SMALL") 1.
Proof.
  destruct pick_compiled as (p & C). exists p. split; [exact C|]. split; [exact pick_exact|]. split; [exact pick_means|]. split; [member|]. split; [reflexivity|]. split; [reflexivity|].
  split; [apply pick_label; cbn; tauto|]. intros Q. assert (L : label_in ds pick_body (CId "SMALL")) by (exists [CId "SMALL"], (Some pick_small); repeat split; [member|now left|now left]).
  pose proof (C109_label _ _ _ pick_body _ _ C L Q) as A. assert (V : label_value ds pick_body (CId "SMALL") 4) by (apply pick_label; cbn; tauto). pose proof (C109_label _ _ _ pick_body _ _ C L V) as B. congruence.
Qed.
Example C109_default_applies : forall e l' f', In (e :: l', Some f') (cc_cases pick_body) -> ~ label_value ds pick_body e 3.
Proof.
  intros e l' f' J Q. destruct pick_compiled as (p & C). assert (L : label_in ds pick_body e) by (exists (e :: l'), (Some f'); repeat split; [member|exact J|now left]).
  pose proof (C109_label _ _ _ pick_body _ _ C L Q) as A. pose proof (C109_label _ _ _ pick_body _ _ C L (proj2 (proj2 (proj2 pick_exact)) _ _ L)) as B. rewrite A in B.
  cbn in J. destruct J as [J|[J|[]]]; injection J as <- _ _; discriminate B.
Qed.
Example C109_bytes :
  Marshal (MarshalZserio pick_code 3 0 [] small_value) = Ok [4; 200]%Z /\ Marshal (MarshalZserio pick_code 3 0 [] large_value) = Ok [1; 2; 1]%Z /\
  Marshal (MarshalZserio pick_code 3 0 [] none_value) = Ok [3; 128]%Z.
Proof. vm_compute. repeat split. Qed.
