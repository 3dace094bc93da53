(** What the parser of schema files accepts is what was written. *)

Require Import ZArith String Ascii List Bool Lia.
Require Import ZifyBool ZifyNat DecimalString DecimalNat.
From Verif Require Files FilesFacts Lexer LexerSpec LexerLiteralFacts LiteralsSpec.
From Verif Require Import Visitor Parser ParserSpec ParserFacts ParserTextFacts FileParser FileParserSpec FileParserFacts FileParserDeclFacts.
Import ListNotations.
Open Scope nat_scope.
Open Scope string_scope.
Open Scope list_scope.

Lemma ft_app a r : from_text (a ++ r) -> from_text r.
Proof. intros [H1 H2]. split; intros; [eapply H1; [apply in_or_app; right; eassumption | eassumption] | apply H2, in_or_app; right; assumption]. Qed.
Lemma ft_tail a r : from_text (a :: r) -> from_text r.
Proof. apply (ft_app [a]). Qed.
Lemma ft_lexed ts : from_text ts -> well_lexed ts.
Proof. intros [H _] n t w Ht Hw. apply (H n t w Ht), in_or_app. left. exact Hw. Qed.
Lemma ft_head n t w r : In (n, w) (fixed_texts ++ word_texts) -> from_text ((n, t) :: r) -> t = w.
Proof. intros Hw [H _]. apply (H n t w); [left; reflexivity | exact Hw]. Qed.
Definition sound {A} (p : list ptok -> option (A * list ptok)) (tok : A -> list ptok) (ok : A -> Prop) : Prop :=
  forall ts x r, from_text ts -> p ts = Some (x, r) -> ts = tok x ++ r /\ ok x.
Ltac known := repeat (first [left; reflexivity | right]).
Lemma expect_ft n w ts r : In (n, w) (fixed_texts ++ word_texts) -> from_text ts -> expect n ts = Some r -> ts = (n, w) :: r.
Proof. intros Hw F H. destruct (expect_head _ _ _ H) as [t ->]. rewrite (ft_head _ _ _ _ Hw F). reflexivity. Qed.
Lemma next_ft n w ts : In (n, w) (fixed_texts ++ word_texts) -> from_text ts -> next_is n ts = true -> ts = (n, w) :: tl ts.
Proof. intros Hw F H. destruct (next_head _ _ H) as [t E]. rewrite E in F. pose proof (ft_head _ _ _ _ Hw F). subst t. exact E. Qed.
Lemma keyword_opt_ft n w ts b r : In (n, w) (fixed_texts ++ word_texts) -> from_text ts -> keyword_opt n ts = (b, r) -> ts = flag b n w ++ r.
Proof.
  intros Hw F H. unfold keyword_opt in H. destruct (next_is n ts) eqn:E; injection H as <- <-; [exact (next_ft _ _ _ Hw F E) | reflexivity].
Qed.
Lemma id_sound : sound identifier (fun n => [tok_id n]) (fun _ => True).
Proof.
  intros ts n r F H. destruct ts as [|[m t] ts]; [discriminate|]. cbn in H. destruct (String.eqb m "ID") eqn:E; [|discriminate]. apply String.eqb_eq in E. subst m.
  injection H as <- <-. split; [reflexivity | exact I].
Qed.
Lemma expr_sound i : sound (parse_expression i) expr_tokens proper.
Proof. intros ts e r F H. apply (parse_sound i); [apply ft_lexed, F | exact H]. Qed.
Lemma clause_ft n w ts o r : In (n, w) (fixed_texts ++ word_texts) -> from_text ts -> clause n (parse_expression false) ts = Some (o, r) ->
  ts = when o (fun e => (n, w) :: expr_tokens e) ++ r /\ opt_ok proper o.
Proof.
  intros Hw F H. unfold clause in H. destruct (next_is n ts) eqn:E.
  - apply bind_some in H. destruct H as ([e r'] & P & [= <- <-]). pose proof (next_ft _ _ _ Hw F E) as T. rewrite T in F. apply ft_tail in F.
    destruct (expr_sound _ _ _ _ F P) as [Q Ok]. rewrite T, Q. split; [reflexivity | exact Ok].
  - injection H as <- <-. split; [reflexivity | exact I].
Qed.
Ltac comma := apply (next_ft "COMMA" ","); [known | |].
Lemma items_sound {A} p (tok : A -> list ptok) ok : sound p tok ok -> forall fuel, sound (items fuel p) (fun xs => sep_by COMMA (map tok xs)) (fun xs => xs <> [] /\ all ok xs).
Proof.
  intros Sp. induction fuel as [|f IH]; intros ts xs r F H; [discriminate|]. cbn [items] in H. apply bind_some in H. destruct H as ([x r1] & E & H).
  destruct (Sp _ _ _ F E) as [-> Ox]. apply ft_app in F. destruct (next_is "COMMA" r1) eqn:N.
  - apply bind_some in H. destruct H as ([ys r2] & E2 & [= <- <-]). assert (T : r1 = COMMA :: tl r1) by (comma; assumption). rewrite T in F. apply ft_tail in F.
    destruct (IH _ _ _ F E2) as [Q [Hn Ha]]. cbv beta in Q. destruct ys as [|y ys]; [contradiction|]. rewrite sep_cons, <- app_assoc, <- app_comm_cons, <- Q, <- T.
    split; [reflexivity | split; [discriminate | split; assumption]].
  - injection H as <- <-. split; [reflexivity | split; [discriminate | split; [exact Ox | exact I]]].
Qed.
Lemma items_comma_sound {A} p (tok : A -> list ptok) ok : sound p tok ok -> forall fuel ts xs r, from_text ts -> items_comma fuel p ts = Some (xs, r) ->
  exists comma, ts = sep_by COMMA (map tok xs) ++ flag comma "COMMA" "," ++ r /\ xs <> [] /\ all ok xs.
Proof.
  intros Sp. induction fuel as [|f IH]; intros ts xs r F H; [discriminate|]. cbn [items_comma] in H. apply bind_some in H. destruct H as ([x r1] & E & H).
  destruct (Sp _ _ _ F E) as [-> Ox]. apply ft_app in F. destruct (next_is "COMMA" r1) eqn:N.
  - assert (T : r1 = COMMA :: tl r1) by (comma; assumption). destruct (next_is "RBRACE" (tl r1)).
    + injection H as <- <-. exists true. cbn [map sep_by flag app]. split; [rewrite T at 1; reflexivity | split; [discriminate | split; [exact Ox | exact I]]].
    + apply bind_some in H. destruct H as ([ys r2] & E2 & [= <- <-]). rewrite T in F. apply ft_tail in F.
      destruct (IH _ _ _ F E2) as (c & Q & Hn & Ha). exists c. destruct ys as [|y ys]; [contradiction|]. rewrite sep_cons, <- app_assoc, <- app_comm_cons, <- Q, <- T.
      split; [reflexivity | split; [discriminate | split; assumption]].
  - injection H as <- <-. exists false. split; [reflexivity | split; [discriminate | split; [exact Ox | exact I]]].
Qed.
Lemma many_sound {A} p (tok : A -> list ptok) ok stop : sound p tok ok -> forall fuel, sound (many fuel stop p) (flat_map tok) (all ok).
Proof.
  intros Sp. induction fuel as [|f IH]; intros ts xs r F H; [discriminate|]. cbn [many] in H. destruct (one_of_names stop ts).
  - injection H as <- <-. split; [reflexivity | exact I].
  - apply bind_some in H. destruct H as ([x r1] & E & H). apply bind_some in H. destruct H as ([ys r2] & E2 & [= <- <-]).
    destruct (Sp _ _ _ F E) as [-> Ox]. apply ft_app in F. destruct (IH _ _ _ F E2) as [-> Ha]. cbn [flat_map]. rewrite <- app_assoc. split; [reflexivity | split; assumption].
Qed.
Lemma bracketed_sound {A} p (tok : A -> list ptok) ok fuel a b u v : sound p tok ok -> In (a, u) (fixed_texts ++ word_texts) -> In (b, v) (fixed_texts ++ word_texts) ->
  sound (bracketed fuel a b p) (fun xs => bracket (a, u) (b, v) (map tok xs)) (all ok).
Proof.
  intros Sp Ha Hb ts xs r F H. unfold bracketed in H. destruct (next_is a ts) eqn:N.
  - apply bind_some in H. destruct H as ([ys r1] & E & H). apply bind_some in H. destruct H as (r2 & X & [= <- <-]).
    pose proof (next_ft _ _ _ Ha F N) as T. rewrite T in F |- *. apply ft_tail in F. destruct (items_sound _ _ _ Sp _ _ _ _ F E) as [Q [Hn Ho]]. cbv beta in Q. rewrite Q in *. apply ft_app in F.
    rewrite (expect_ft _ _ _ _ Hb F X). rewrite bracket_some by (destruct ys; [contradiction | discriminate]). cbn [app]. rewrite <- app_assoc. split; [reflexivity | exact Ho].
  - injection H as <- <-. split; [reflexivity | exact I].
Qed.

(** One step through a parser. *)
Ltac get H := apply bind_some in H;
  match type of H with
  | exists y, ?o = Some y /\ _ =>
      match type of o with
      | option (?A * list ptok) => let x := fresh "x" in let r := fresh "r" in let E := fresh "E" in destruct H as ([x r] & E & H)
      | _ => let r := fresh "r" in let E := fresh "X" in destruct H as (r & E & H)
      end
  end.
(** The token that was expected. *)
Ltac want X F w := apply (expect_ft _ w) in X; [subst; apply ft_tail in F | known | exact F].
(** What a sound parser has read. *)
Ltac read_by L E F := let Q := fresh "Q" in apply L in E; [destruct E as [-> Q]; apply ft_app in F | exact F].

(** ** Types *)

Lemma dots_sound : forall n ts l r, length ts <= n -> from_text ts -> dots ts = (l, r) -> ts = flat_map (fun n => [DOT; tok_id n]) l ++ r.
Proof.
  induction n as [|n IH]; intros ts l r L F H; destruct ts as [|[a t] [|[b u] ts]]; cbn [dots length] in *; try lia; try (injection H as <- <-; reflexivity).
  destruct (String.eqb a "DOT" && String.eqb b "ID") eqn:E; [|injection H as <- <-; reflexivity].
  apply andb_prop in E. destruct E as [Ea Eb]. apply String.eqb_eq in Ea, Eb. subst a b. destruct (dots ts) as [l' r'] eqn:D. injection H as <- <-.
  assert (L' : length ts <= n) by (cbn in L; clear - L; lia). assert (t = ".") by (apply (ft_head "DOT" t "." _ ltac:(known) F)). subst t.
  change (DOT :: tok_id u :: ts = DOT :: tok_id u :: flat_map (fun n => [DOT; tok_id n]) l' ++ r'). do 2 f_equal. apply (IH _ _ _ L'); [|exact D]. apply ft_tail, ft_tail in F. exact F.
Qed.
Lemma width_sound t w : t = "0" \/ (exists c t', t = String c t' /\ c <> "0"%char) -> width_of t = Some w -> t = number w.
Proof.
  intros C H. unfold width_of in H. destruct (NilEmpty.uint_of_string t) as [u|] eqn:E; [|discriminate]. cbn [option_map] in H. injection H as <-.
  apply NilEmpty.sus in E. unfold number. rewrite FilesFacts.decimal_uint. unfold Files.str. rewrite string_of_list_ascii_of_string, Unsigned.to_of.
  rewrite <- E in C |- *. destruct C as [C|(c & t' & C & N)].
  - destruct u; try discriminate C. cbn in C. injection C as C. destruct u; try discriminate C. reflexivity.
  - destruct u; cbn in C; try discriminate C; try reflexivity. injection C as <- <-. contradiction.
Qed.
Lemma type_sound : forall fuel, sound (type_ref fuel) type_tokens type_ok.
Proof.
  induction fuel as [|f IH]; intros ts t r F H; destruct ts as [|[n u] ts]; try discriminate. cbn [type_ref] in H.
  destruct (lookup n type_keywords) as [k|] eqn:K.
  - injection H as <- <-. cbn [type_tokens type_ok]. apply lookup_in in K.
    repeat (destruct K as [K|K]; [injection K as <- <-; match type of F with from_text ((?n, _) :: _) => match goal with |- context [keyword_token ?k] =>
      rewrite (ft_head n u k ts ltac:(known) F) end end; split; [reflexivity | discriminate]|]). destruct K.
  - assert (B : forall s k, bit_width s ts = Some (t, r) -> k = (if s then ("INT_FIELD", "int") else ("BIT_FIELD", "bit")) -> (n, u) = k -> (n, u) :: ts = type_tokens t ++ r /\ type_ok t).
    { intros s k E -> Hk. rewrite Hk in *. unfold bit_width in E. destruct (next_is "COLON" ts) eqn:C.
      - apply ft_tail in F. assert (T : ts = COLON :: tl ts) by (apply (next_ft "COLON" ":"); [known | exact F | exact C]).
        destruct (tl ts) as [|[m w] ts'] eqn:T'; [discriminate|]. destruct (String.eqb m "DECIMAL_LITERAL") eqn:D; [|discriminate].
        apply String.eqb_eq in D. subst m. apply bind_some in E. destruct E as (w' & Ew & [= <- <-]). rewrite T in *.
        rewrite (width_sound w w') by (try exact Ew; apply F; right; left; reflexivity). split; [destruct s; reflexivity | exact I].
      - injection E as <- <-. split; [destruct s; reflexivity | exact I]. }
    destruct (String.eqb n "BIT_FIELD") eqn:E1; [apply String.eqb_eq in E1; subst n; eapply B; [exact H | reflexivity | f_equal; apply (ft_head "BIT_FIELD" u "bit" ts ltac:(known) F)]|].
    destruct (String.eqb n "INT_FIELD") eqn:E2; [apply String.eqb_eq in E2; subst n; eapply B; [exact H | reflexivity | f_equal; apply (ft_head "INT_FIELD" u "int" ts ltac:(known) F)]|].
    destruct (String.eqb n "ID") eqn:E3; [|discriminate]. apply String.eqb_eq in E3. subst n. destruct (dots ts) as [l r1] eqn:D. clear B.
    apply ft_tail in F. apply dots_sound with (n := length ts) in D; [|lia | exact F]. rewrite D in *. apply ft_app in F.
    destruct (bracketed f "LT" "GT" (type_ref f) r1) as [[args r2]|] eqn:Br; injection H as <- <-; cbn [type_tokens type_ok]; rewrite name_cons.
    + apply (bracketed_sound _ type_tokens type_ok _ _ _ "<" ">" IH) in Br; [|known | known | exact F]. destruct Br as [-> Ok].
      split; [cbn [app]; rewrite <- !app_assoc; reflexivity|]. split; [discriminate | clear - Ok; induction args as [|a args IHa]; [exact I | destruct Ok as [Oa Ok]; split; [exact Oa | exact (IHa Ok)]]].
    + split; [cbn [map bracket]; rewrite app_nil_r; reflexivity | split; [discriminate | exact I]].
Qed.
Lemma parse_type_sound : sound parse_type type_tokens type_ok.
Proof. intros ts t r F H. exact (type_sound _ _ _ _ F H). Qed.
Lemma arg_sound : sound type_argument arg_tokens arg_ok.
Proof.
  intros ts a r F H. unfold type_argument in H. destruct (next_is "EXPLICIT" ts) eqn:N.
  - assert (T : ts = ("EXPLICIT", "explicit") :: tl ts) by (apply next_ft; [known | exact F | exact N]). rewrite T in F |- *. apply ft_tail in F.
    get H. injection H as <- <-. apply id_sound in E; [|exact F]. destruct E as [E _]. rewrite E. split; [reflexivity | exact I].
  - get H. injection H as <- <-. apply expr_sound in E; [exact E | exact F].
Qed.
Lemma inst_sound : sound type_inst inst_tokens (inst_ok false).
Proof.
  intros ts i r F H. unfold type_inst in H. get H. read_by parse_type_sound E F. unfold inst_tokens, inst_ok. destruct (next_is "LPAREN" r0) eqn:N.
  - assert (T : r0 = LP :: tl r0) by (apply next_ft; [known | exact F | exact N]). rewrite T in F. apply ft_tail in F. get H. get H. injection H as <- <-.
    apply (items_sound _ _ _ arg_sound) in E; [|exact F]. destruct E as [E [Hn Ha]]. cbv beta in E. rewrite E in F. apply ft_app in F. apply (expect_ft "RPAREN" ")") in X; [|known | exact F]. cbn [ci_type ci_params].
    split; [|split; [exact Q | split; [exact Hn | exact Ha]]]. rewrite T, E, X. rewrite <- !app_assoc. cbn [app]. rewrite <- app_assoc. reflexivity.
  - destruct (next_is "LT" r0) eqn:N2.
    + assert (T : r0 = LT :: tl r0) by (apply next_ft; [known | exact F | exact N2]). rewrite T in F. apply ft_tail in F. get H. get H. injection H as <- <-.
      apply expr_sound in E; [|exact F]. destruct E as [E P]. rewrite E in F. apply ft_app in F. apply (expect_ft "GT" ">") in X; [|known | exact F]. cbn [ci_type ci_params].
      split; [|split; [exact Q | split; [exact P | discriminate]]]. rewrite T, E, X. rewrite <- !app_assoc. cbn [app]. rewrite <- app_assoc. reflexivity.
    + injection H as <- <-. cbn [ci_type ci_params]. rewrite app_nil_r. split; [reflexivity | split; [exact Q | exact I]].
Qed.

(** ** Fields *)

Lemma next_cons n w ts : In (n, w) (fixed_texts ++ word_texts) -> from_text ts -> next_is n ts = true -> exists r, ts = (n, w) :: r.
Proof. intros Hw F H. exists (tl ts). exact (next_ft _ _ _ Hw F H). Qed.
(** The next token is there. *)
Ltac have N F w := let r := fresh "r" in apply (next_cons _ w) in N; [destruct N as [r ->]; cbn [tl] in *; apply ft_tail in F | known | exact F].
Ltac flat := rewrite <- ?app_assoc; cbn [app]; rewrite <- ?app_assoc; cbn [app]; rewrite <- ?app_assoc; cbn [app]; rewrite <- ?app_assoc; cbn [app].
Ltac finish := split; [flat; reflexivity | repeat split; auto].

Lemma range_sound : sound array_range (fun o => when o range_tokens) (opt_ok (opt_ok proper)).
Proof.
  intros ts o r F H. unfold array_range in H. destruct (next_is "LBRACKET" ts) eqn:N.
  - have N F "[". destruct (next_is "RBRACKET" r0) eqn:N2.
    + have N2 F "]". injection H as <- <-. finish.
    + get H. get H. injection H as <- <-. read_by (expr_sound false) E F. want X F "]". cbv beta; unfold range_tokens; cbn [when opt_ok]. finish.
  - injection H as <- <-. finish.
Qed.
Lemma field_type_sound : sound field_type field_type_tokens (field_type_ok false).
Proof.
  intros ts t r F H. unfold field_type in H. destruct (keyword_opt "PACKED" ts) as [pk r1] eqn:P. apply (keyword_opt_ft _ "packed") in P; [subst ts; apply ft_app in F | known | exact F].
  destruct (keyword_opt "IMPLICIT" r1) as [im r2] eqn:P. apply (keyword_opt_ft _ "implicit") in P; [subst r1; apply ft_app in F | known | exact F].
  get H. get H. get H. injection H as <- <-. read_by inst_sound E F. read_by id_sound E0 F. read_by range_sound E1 F.
  unfold field_type_tokens, field_type_ok. cbn [ft_packed ft_implicit ft_inst ft_name ft_range]. split; [flat; reflexivity | split; assumption].
Qed.
Lemma field_rest_sound al off ts f r : from_text ts -> opt_ok proper al -> opt_ok proper off -> field_rest al off ts = Some (f, r) ->
  ts = field_body f ++ r /\ field_ok false f /\ cf_align f = al /\ cf_offset f = off.
Proof.
  intros F Oa Oo H. unfold field_rest in H. destruct (keyword_opt "EXTEND" ts) as [ex r1] eqn:P. apply (keyword_opt_ft _ "extend") in P; [subst ts; apply ft_app in F | known | exact F].
  destruct (keyword_opt "OPTIONAL" r1) as [op r2] eqn:P. apply (keyword_opt_ft _ "optional") in P; [subst r1; apply ft_app in F | known | exact F].
  get H. get H. get H. get H. get H. injection H as <- <-. read_by field_type_sound E F.
  apply (clause_ft _ "=") in E0; [destruct E0 as [-> Q0]; apply ft_app in F | known | exact F].
  apply (clause_ft _ "if") in E1; [destruct E1 as [-> Q1]; apply ft_app in F | known | exact F].
  apply (clause_ft _ ":") in E2; [destruct E2 as [-> Q2]; apply ft_app in F | known | exact F].
  want X F ";". unfold field_body, field_ok, constraint_tokens. cbn [cf_align cf_offset cf_extend cf_optional cf_type cf_init cf_if cf_constraint].
  split; [flat; reflexivity|]. repeat split; try assumption; try discriminate; apply Q.
Qed.
Lemma alignment_sound : sound alignment (fun al => when al (fun e => ("ALIGN", "align") :: LP :: expr_tokens e ++ [RP; COLON])) (opt_ok proper).
Proof.
  intros ts al r F H. unfold alignment in H. destruct (next_is "ALIGN" ts) eqn:N.
  - have N F "align". get H. get H. get H. get H. injection H as <- <-. want X F "(". read_by (expr_sound false) E F. want X0 F ")". want X1 F ":".
    cbn [when opt_ok]. finish.
  - injection H as <- <-. finish.
Qed.
Lemma field_sound : sound struct_field field_tokens (field_ok false).
Proof.
  intros ts f r F H. unfold struct_field in H. get H. read_by alignment_sound E F. cbv beta.
  match type of H with match ?o with Some x => Some x | None => _ end = _ => destruct o as [[g s]|] eqn:B end.
  - injection H as -> ->. get B. get B. read_by (expr_sound false) E F. want X F ":".
    apply field_rest_sound in B; [|exact F | exact Q | exact Q0]. destruct B as (-> & Ok & A & O). split; [|exact Ok].
    rewrite field_split, A, O. cbn [when]. flat. reflexivity.
  - apply field_rest_sound in H; [|exact F | exact Q | exact I]. destruct H as (-> & Ok & A & O). split; [|exact Ok].
    rewrite field_split, A, O. cbn [when]. flat. reflexivity.
Qed.
Lemma choice_field_sound : sound choice_field choice_field_tokens (choice_field_ok false).
Proof.
  intros ts f r F H. unfold choice_field in H. get H. get H. injection H as <- <-. read_by field_type_sound E F.
  apply (clause_ft _ ":") in E0; [destruct E0 as [-> Q0]; apply ft_app in F | known | exact F].
  unfold choice_field_tokens, choice_field_ok, constraint_tokens. cbn [ccf_type ccf_constraint]. split; [flat; reflexivity | split; assumption].
Qed.
Lemma union_field_sound : sound union_field (fun f => choice_field_tokens f ++ [SEMI]) (choice_field_ok false).
Proof.
  intros ts f r F H. unfold union_field in H. get H. get H. injection H as <- <-. read_by choice_field_sound E F. want X F ";". split; [flat; reflexivity | exact Q].
Qed.

(** ** Declarations *)

Lemma function_sound : sound function_def function_tokens function_ok.
Proof.
  intros ts f r F H. unfold function_def in H. repeat get H. injection H as <- <-. want X F "function". read_by parse_type_sound E F. read_by id_sound E0 F.
  want X0 F "(". want X1 F ")". want X2 F "{". want X3 F "return". read_by (expr_sound false) E1 F. want X4 F ";". want X5 F "}".
  unfold function_tokens, function_ok. cbn [cfn_type cfn_name cfn_body]. split; [flat; reflexivity | split; assumption].
Qed.
Lemma parameter_sound : sound parameter param_tokens (fun p => type_ok (fst p)).
Proof.
  intros ts p r F H. unfold parameter in H. repeat get H. injection H as <- <-. read_by parse_type_sound E F. read_by id_sound E0 F.
  unfold param_tokens. cbn [fst snd]. split; [flat; reflexivity | assumption].
Qed.
Lemma templates_sound : sound template_parameters template_tokens (fun _ => True).
Proof.
  intros ts l r F H. apply (bracketed_sound _ _ _ _ "LT" "GT" "<" ">" id_sound) in H; [|known | known | exact F]. destruct H as [-> _]. split; [reflexivity | exact I].
Qed.
Lemma params_sound : sound type_parameters params_tokens params_ok.
Proof.
  intros ts l r F H. apply (bracketed_sound _ _ _ _ "LPAREN" "RPAREN" "(" ")" parameter_sound) in H; [|known | known | exact F]. destruct H as [-> H]. split; [reflexivity | exact H].
Qed.
Lemma closing_sound ts r : from_text ts -> closing ts = Some r -> ts = RBRACE :: SEMI :: r.
Proof. intros F H. unfold closing in H. get H. want X F "}". apply (expect_ft _ ";") in H; [subst; reflexivity | known | exact F]. Qed.
Lemma functions_sound : sound functions (flat_map function_tokens) (all function_ok).
Proof. intros ts l r F H. exact (many_sound _ _ _ _ function_sound _ _ _ _ F H). Qed.
Lemma structure_sound ts s r : from_text ts -> structure ts = Some (s, r) -> ("STRUCTURE", "struct") :: ts = struct_tokens s ++ r /\ struct_ok false s.
Proof.
  intros F H. unfold structure in H. repeat get H. injection H as <- <-. read_by id_sound E F. read_by templates_sound E0 F. read_by params_sound E1 F. want X F "{".
  read_by (many_sound _ _ _ ["FUNCTION"; "RBRACE"] field_sound) E2 F. read_by functions_sound E3 F. apply closing_sound in X0; [subst | exact F].
  rewrite struct_split. unfold struct_ok. cbn [cs_name cs_templates cs_params cs_fields cs_functions]. split; [flat; reflexivity | repeat split; assumption].
Qed.
Lemma union_sound ts u r : from_text ts -> union ts = Some (u, r) -> ("UNION", "union") :: ts = union_tokens u ++ r /\ union_ok false u.
Proof.
  intros F H. unfold union in H. repeat get H. injection H as <- <-. read_by id_sound E F. read_by templates_sound E0 F. read_by params_sound E1 F. want X F "{".
  read_by (many_sound _ _ _ ["FUNCTION"; "RBRACE"] union_field_sound) E2 F. read_by functions_sound E3 F. apply closing_sound in X0; [subst | exact F].
  rewrite union_split. unfold union_ok. cbn [cu_name cu_templates cu_params cu_fields cu_functions]. split; [flat; reflexivity | repeat split; assumption].
Qed.
Lemma slot_sound : sound choice_slot (fun o => when o choice_field_tokens ++ [SEMI]) (opt_ok (choice_field_ok false)).
Proof.
  intros ts o r F H. unfold choice_slot in H. destruct (next_is "SEMICOLON" ts) eqn:N.
  - have N F ";". injection H as <- <-. finish.
  - get H. get H. injection H as <- <-. read_by choice_field_sound E F. want X F ";". cbn [when opt_ok]. split; [flat; reflexivity | exact Q].
Qed.
Lemma labels_sound : forall fuel, sound (case_labels fuel) (flat_map label_tokens) (fun es => es <> [] /\ all proper es).
Proof.
  induction fuel as [|f IH]; intros ts es r F H; [discriminate|]. cbn [case_labels] in H. get H. get H. get H. want X F "case". read_by (expr_sound false) E F. want X0 F ":".
  match type of H with (if ?b then _ else _) = _ => destruct b end.
  - get H. injection H as <- <-. read_by IH E F. destruct Q0 as [_ Q0]. cbn [flat_map]. change (label_tokens x) with (("CASE", "case") :: expr_tokens x ++ [COLON]). split; [flat; reflexivity | split; [discriminate | split; assumption]].
  - injection H as <- <-. unfold label_tokens. cbn [flat_map]. rewrite app_nil_r. split; [flat; reflexivity | split; [discriminate | split; [assumption | exact I]]].
Qed.
Lemma cases_sound : sound choice_cases case_tokens (case_ok false).
Proof.
  intros ts c r F H. unfold choice_cases in H. get H. get H. injection H as <- <-. read_by labels_sound E F. read_by slot_sound E0 F. destruct Q as [Q1 Q2].
  unfold case_tokens, case_ok. cbn [fst snd]. split; [flat; reflexivity | repeat split; assumption].
Qed.
Lemma default_sound : sound choice_default default_tokens (opt_ok (opt_ok (choice_field_ok false))).
Proof.
  intros ts o r F H. unfold choice_default in H. destruct (next_is "DEFAULT" ts) eqn:N.
  - have N F "default". get H. get H. injection H as <- <-. want X F ":". read_by slot_sound E F. unfold default_tokens. cbn [when opt_ok]. split; [flat; reflexivity | exact Q].
  - injection H as <- <-. finish.
Qed.
Lemma choice_sound ts c r : from_text ts -> choice ts = Some (c, r) -> ("CHOICE", "choice") :: ts = choice_tokens c ++ r /\ choice_ok false c.
Proof.
  intros F H. unfold choice in H. get H. get H. get H. read_by id_sound E F. read_by templates_sound E0 F. read_by params_sound E1 F.
  destruct x1 as [|p ps]; [discriminate|]. cbv iota in H. repeat get H. injection H as <- <-. want X F "on". read_by (expr_sound false) E F. want X0 F "{".
  read_by (many_sound _ _ _ ["DEFAULT"; "FUNCTION"; "RBRACE"] cases_sound) E0 F. read_by default_sound E1 F. read_by functions_sound E2 F. apply closing_sound in X1; [subst | exact F].
  rewrite choice_split. unfold choice_ok. cbn [cc_name cc_templates cc_params cc_on cc_cases cc_default cc_functions].
  split; [flat; reflexivity | split; [discriminate | repeat split; try assumption; apply Q1]].
Qed.
Lemma item_sound : sound enum_item item_tokens (fun x => opt_ok proper (snd x)).
Proof.
  intros ts x r F H. unfold enum_item in H.
  assert (B : forall m r0, from_text r0 -> bind (identifier r0) (fun y => match y with (n, r1) => bind (clause "ASSIGN" (parse_expression false) r1) (fun z => match z with (e, r2) => Some ((m, n, e), r2) end) end) = Some (x, r) ->
    r0 = tok_id (snd (fst x)) :: value_tokens (snd x) ++ r /\ fst (fst x) = m /\ opt_ok proper (snd x)).
  { intros m r0 F0 H0. get H0. get H0. injection H0 as <- <-. read_by id_sound E F0. apply (clause_ft _ "=") in E0; [destruct E0 as [-> Q0] | known | exact F0]. finish. }
  unfold item_tokens. destruct (next_is "DEPRECATED" ts) eqn:N; [|destruct (next_is "REMOVED" ts) eqn:N2].
  - have N F "@deprecated". destruct (B _ _ F H) as (-> & -> & Ok). split; [reflexivity | exact Ok].
  - have N2 F "@removed". destruct (B _ _ F H) as (-> & -> & Ok). split; [reflexivity | exact Ok].
  - destruct (B _ _ F H) as (-> & -> & Ok). split; [reflexivity | exact Ok].
Qed.
Lemma enum_sound ts e r : from_text ts -> enum ts = Some (e, r) -> exists comma, ("ENUM", "enum") :: ts = enum_tokens comma e ++ r /\ enum_ok false e.
Proof.
  intros F H. unfold enum in H. repeat get H. injection H as <- <-. read_by inst_sound E F. read_by id_sound E0 F. want X F "{".
  apply (items_comma_sound _ _ _ item_sound) in E1; [|exact F]. destruct E1 as (comma & -> & Hn & Ha). apply ft_app, ft_app in F. apply closing_sound in X0; [subst | exact F].
  exists comma. rewrite enum_split. unfold enum_ok. cbn [ce_type ce_name ce_items]. split; [flat; reflexivity | repeat split; try assumption; apply Q].
Qed.
Lemma bit_sound : sound bitmask_value bit_tokens (fun x => opt_ok proper (snd x)).
Proof.
  intros ts x r F H. unfold bitmask_value in H. get H. get H. injection H as <- <-. read_by id_sound E F. apply (clause_ft _ "=") in E0; [destruct E0 as [-> Q0] | known | exact F].
  unfold bit_tokens. cbn [fst snd]. split; [flat; reflexivity | exact Q0].
Qed.
Lemma bitmask_sound ts b r : from_text ts -> bitmask ts = Some (b, r) -> exists comma, ("BITMASK", "bitmask") :: ts = bitmask_tokens comma b ++ r /\ bitmask_ok false b.
Proof.
  intros F H. unfold bitmask in H. repeat get H. injection H as <- <-. read_by inst_sound E F. read_by id_sound E0 F. want X F "{".
  apply (items_comma_sound _ _ _ bit_sound) in E1; [|exact F]. destruct E1 as (comma & -> & Hn & Ha). apply ft_app, ft_app in F. apply closing_sound in X0; [subst | exact F].
  exists comma. rewrite bitmask_split. unfold bitmask_ok. cbn [cb_type cb_name cb_values]. split; [flat; reflexivity | repeat split; try assumption; apply Q].
Qed.
Lemma directive_sound ts d r : from_text ts -> directive ts = Some (d, r) -> exists comma, ts = directive_tokens comma d ++ r /\ directive_ok false d.
Proof.
  intros F H. destruct ts as [|[n t] ts]; [discriminate|]. cbn [directive] in H.
  destruct (String.eqb n "CONST") eqn:K.
  { apply String.eqb_eq in K. subst n. pose proof (ft_head _ _ "const" _ ltac:(known) F). subst t. apply ft_tail in F. repeat get H. injection H as <- <-. exists false.
    read_by inst_sound E F. read_by id_sound E0 F. want X F "=". read_by (expr_sound false) E1 F. want X0 F ";". cbn [directive_tokens directive_ok]. split; [flat; reflexivity | split; assumption]. }
  clear K. destruct (String.eqb n "SUBTYPE") eqn:K.
  { apply String.eqb_eq in K. subst n. pose proof (ft_head _ _ "subtype" _ ltac:(known) F). subst t. apply ft_tail in F. repeat get H. injection H as <- <-. exists false.
    read_by parse_type_sound E F. read_by id_sound E0 F. want X F ";". cbn [directive_tokens directive_ok]. split; [flat; reflexivity | assumption]. }
  clear K. destruct (String.eqb n "INSTANTIATE") eqn:K.
  { apply String.eqb_eq in K. subst n. pose proof (ft_head _ _ "instantiate" _ ltac:(known) F). subst t. apply ft_tail in F. repeat get H. injection H as <- <-. exists false.
    read_by parse_type_sound E F. read_by id_sound E0 F. want X F ";". cbn [directive_tokens directive_ok]. split; [flat; reflexivity | assumption]. }
  clear K. destruct (String.eqb n "STRUCTURE") eqn:K.
  { apply String.eqb_eq in K. subst n. pose proof (ft_head _ _ "struct" _ ltac:(known) F). subst t. apply ft_tail in F. get H. injection H as <- <-. exists false. exact (structure_sound _ _ _ F E). }
  clear K. destruct (String.eqb n "CHOICE") eqn:K.
  { apply String.eqb_eq in K. subst n. pose proof (ft_head _ _ "choice" _ ltac:(known) F). subst t. apply ft_tail in F. get H. injection H as <- <-. exists false. exact (choice_sound _ _ _ F E). }
  clear K. destruct (String.eqb n "UNION") eqn:K.
  { apply String.eqb_eq in K. subst n. pose proof (ft_head _ _ "union" _ ltac:(known) F). subst t. apply ft_tail in F. get H. injection H as <- <-. exists false. exact (union_sound _ _ _ F E). }
  clear K. destruct (String.eqb n "ENUM") eqn:K.
  { apply String.eqb_eq in K. subst n. pose proof (ft_head _ _ "enum" _ ltac:(known) F). subst t. apply ft_tail in F. get H. injection H as <- <-. exact (enum_sound _ _ _ F E). }
  clear K. destruct (String.eqb n "BITMASK") eqn:K; [|discriminate].
  apply String.eqb_eq in K. subst n. pose proof (ft_head _ _ "bitmask" _ ltac:(known) F). subst t. apply ft_tail in F. get H. injection H as <- <-. exact (bitmask_sound _ _ _ F E).
Qed.
Lemma directives_sound : forall fuel ts ds, from_text ts -> all_directives fuel ts = Some ds -> directives_written ds ts /\ all (directive_ok false) ds.
Proof.
  induction fuel as [|f IH]; intros ts ds F H; destruct ts as [|a ts]; cbn [all_directives] in H; try discriminate; try (injection H as <-; split; [constructor | exact I]).
  get H. get H. injection H as <-. apply directive_sound in E; [|exact F]. destruct E as (comma & E & Ok). rewrite E in *. apply ft_app in F.
  destruct (IH _ _ F X) as [W Ok']. split; [constructor; exact W | split; assumption].
Qed.
Lemma import_sound : sound import_decl import_tokens (fun i => cim_names i <> []).
Proof.
  intros ts i r F H. unfold import_decl in H. get H. get H. want X F "import". read_by id_sound E F. destruct (dots r1) as [l r2] eqn:D.
  apply dots_sound with (n := length r1) in D; [|lia | exact F]. rewrite D in *. apply ft_app in F. destruct (next_is "DOT" r2 && next_is "MULTIPLY" (tl r2)) eqn:K.
  - apply andb_prop in K. destruct K as [K1 K2]. have K1 F ".". have K2 F "*". get H. injection H as <- <-. want X F ";".
    unfold import_tokens. cbn [cim_names cim_symbol]. split; [|discriminate]. flat. change (@flat_map string (string * string)) with (@flat_map string ptok). rewrite import_turn. reflexivity.
  - destruct l as [|m l]; [discriminate|]. get H. destruct (exists_last (l := m :: l) ltac:(discriminate)) as (l' & z & Ez). rewrite Ez in *.
    change (x :: l' ++ [z]) with ((x :: l') ++ [z]) in H. rewrite last_last, removelast_last in H. injection H as <- <-. want X F ";". unfold import_tokens. cbn [cim_names cim_symbol].
    split; [|discriminate]. flat. rewrite import_turn, flat_map_app. flat. reflexivity.
Qed.
Lemma imports_sound : forall fuel, sound (imports fuel) (flat_map import_tokens) (all (fun i => cim_names i <> [])).
Proof.
  induction fuel as [|f IH]; intros ts l r F H; [discriminate|]. cbn [imports] in H. destruct (next_is "IMPORT" ts).
  - get H. get H. injection H as <- <-. read_by import_sound E F. read_by IH E0 F. cbn [flat_map]. split; [flat; reflexivity | split; assumption].
  - injection H as <- <-. split; [reflexivity | exact I].
Qed.
Lemma file_sound ts f : from_text ts -> parse_file ts = Some f -> file_written f ts /\ file_ok false f.
Proof.
  intros F H. unfold parse_file in H. get H. get H. get H. get H. injection H as <-.
  assert (C : ts = when x (fun t => [("COMPAT_VERSION", "zserio_compatibility_version"); LP; ("STRING_LITERAL", t); RP; SEMI]) ++ r).
  { unfold compat in E. destruct (next_is "COMPAT_VERSION" ts) eqn:N; [|injection E as <- <-; reflexivity]. have N F "zserio_compatibility_version". get E. want X0 F "(".
    destruct r4 as [|[n t] r4]; [discriminate|]. destruct (String.eqb n "STRING_LITERAL") eqn:K; [|discriminate]. apply String.eqb_eq in K. subst n. apply ft_tail in F.
    get E. get E. injection E as <- <-. want X0 F ")". want X1 F ";". reflexivity. }
  subst ts. apply ft_app in F.
  assert (C : r = when x0 (fun l => ("PACKAGE", "package") :: name_tokens l ++ [SEMI]) ++ r0 /\ opt_ok (fun l => l <> []) x0).
  { unfold package_name in E0. destruct (next_is "PACKAGE" r) eqn:N; [|injection E0 as <- <-; split; [reflexivity | exact I]]. have N F "package". get E0.
    read_by id_sound E2 F. destruct (dots r) as [l r5] eqn:D. apply dots_sound with (n := length r) in D; [|lia | exact F]. rewrite D in *. apply ft_app in F.
    get E0. injection E0 as <- <-. want X0 F ";". cbn [when opt_ok]. rewrite name_cons. split; [flat; reflexivity | discriminate]. }
  destruct C as [-> Op]. apply ft_app in F. read_by imports_sound E1 F. apply directives_sound in X; [|exact F]. destruct X as [W Ok].
  split; [|repeat split; assumption]. exists r1. split; [exact W|]. unfold head_tokens. cbn [cfl_compat cfl_package cfl_imports]. flat. reflexivity.
Qed.

(** ** Texts *)

Lemma word_rules_ok : forallb (fun p => forallb (fun q => negb (String.eqb (fst q) (fst p)) ||
    match snd q with Lexer.Lit l => String.eqb (string_of_list_ascii l) (snd p) | _ => false end) Lexer.rules) (fixed_texts ++ word_texts) = true.
Proof. vm_compute. reflexivity. Qed.
Lemma decimal_rule n r : In (n, r) Lexer.rules -> n = "DECIMAL_LITERAL" -> r = Lexer.Re Lexer.DECIMAL_LITERAL.
Proof. intros H. repeat (destruct H as [H|H]; [injection H as <- <-; (discriminate || reflexivity)|]). destruct H. Qed.
Lemma stream_from_text s : from_text (stream s).
Proof.
  split.
  - intros n t w H Hw. unfold stream in H. apply in_map_iff in H. destruct H as ([m x] & E & Hin). cbn in E. injection E as -> <-.
    destruct (token_rule _ _ _ Hin) as (r & Hr & Ht).
    pose proof word_rules_ok as F. rewrite forallb_forall in F. specialize (F _ Hw). rewrite forallb_forall in F. specialize (F _ Hr).
    cbn [fst snd] in F. rewrite String.eqb_refl in F. cbn [negb orb] in F.
    destruct r as [l|?|? ?]; try discriminate F. cbn in Ht. subst x. apply String.eqb_eq. exact F.
  - intros t H. unfold stream in H. apply in_map_iff in H. destruct H as ([m x] & E & Hin). cbn in E. injection E as -> <-.
    destruct (token_rule _ _ _ Hin) as (r & Hr & Ht). rewrite (decimal_rule _ _ Hr eq_refl) in Ht.
    destruct (LexerLiteralFacts.matches_int Literals.TDecimal x) as [z Hz]; [cbn; auto | exact Ht|]. inversion Hz; subst; [left; reflexivity|].
    right. exists c, (string_of_list_ascii t). split; [reflexivity | assumption].
Qed.
Lemma text_reads f ts s : file_ok true f -> file_written f ts -> text_of ts s -> parse_file (stream s) = Some f.
Proof. intros Ok W T. rewrite (stream_text _ _ T). apply read_file; [exact Ok | exact W|]. rewrite <- (stream_text _ _ T). apply stream_lexed. Qed.
Lemma text_file_sound s f : parse_file (stream s) = Some f -> file_written f (stream s) /\ file_ok false f.
Proof. apply file_sound, stream_from_text. Qed.
Lemma ok_loose f : file_ok true f -> file_ok false f.
Proof.
  assert (I : forall i, inst_ok true i -> inst_ok false i) by (intros [t [|l|e]] [H1 H2]; (split; [exact H1|]); cbn in *; intuition discriminate).
  assert (FT : forall t, field_type_ok true t -> field_type_ok false t) by (intros t [H1 H2]; split; [apply I, H1 | exact H2]).
  assert (Fd : forall x, field_ok true x -> field_ok false x).
  { intros x (H1 & H2 & H3 & H4 & H5 & H6 & _). unfold field_ok. repeat split; try assumption; try (apply FT in H3; apply H3); discriminate. }
  assert (CF : forall x, choice_field_ok true x -> choice_field_ok false x) by (intros x [H1 H2]; split; [apply FT, H1 | exact H2]).
  assert (O : forall A (P Q : A -> Prop) o, (forall x, P x -> Q x) -> opt_ok P o -> opt_ok Q o) by (intros A P Q [x|] H K; [apply H, K | exact K]).
  assert (A : forall A (P Q : A -> Prop) l, (forall x, P x -> Q x) -> all P l -> all Q l) by
    (intros A P Q l H; induction l as [|x l IH]; intros K; [exact K | destruct K as [K1 K2]; split; [apply H, K1 | apply IH, K2]]).
  intros (H1 & H2 & H3). split; [exact H1|]. split; [exact H2|]. revert H3. apply A. intros d. destruct d; cbn [directive_ok]; auto.
  - intros [K1 K2]. split; [apply I, K1 | exact K2].
  - intros (K1 & K2 & K3). split; [exact K1|]. split; [revert K2; apply A, Fd | exact K3].
  - intros (K1 & K2 & K3 & K4 & K5 & K6). split; [exact K1|]. split; [exact K2|]. split; [exact K3|]. split.
    + revert K4. apply A. intros c' (L1 & L2 & L3). split; [exact L1|]. split; [exact L2|]. revert L3. apply O, CF.
    + split; [|exact K6]. revert K5. apply O. intros o. apply O, CF.
  - intros (K1 & K2 & K3). split; [exact K1|]. split; [revert K2; apply A, CF | exact K3].
  - intros (K1 & K2). split; [apply I, K1 | exact K2].
  - intros (K1 & K2). split; [apply I, K1 | exact K2].
Qed.

Lemma type_end t : type_ok t -> exists k n u, type_tokens t = k ++ [(n, u)] /\ existsb (String.eqb n) type_ends = true.
Proof.
  destruct t as [n|s w|names args]; cbn [type_ok type_tokens]; intros H.
  - destruct (keyword_read n H) as (k & E & K). exists [], k, n. rewrite E. split; [reflexivity|]. apply lookup_in in K.
    repeat (destruct K as [K|K]; [injection K as <- <-; reflexivity|]). destruct K.
  - destruct w as [w|]; cbn [when].
    + exists [if s then ("INT_FIELD", "int") else ("BIT_FIELD", "bit"); COLON]. eexists _, _. split; reflexivity.
    + exists []. destruct s; eexists _, _; split; reflexivity.
  - destruct H as [Hn _]. destruct args as [|a args].
    + cbn [map bracket]. rewrite app_nil_r. destruct names as [|n l]; [contradiction|]. rewrite name_cons. destruct l as [|m l] using rev_ind.
      * exists [], "ID", n. split; reflexivity.
      * rewrite flat_map_app. cbn [flat_map app]. exists (tok_id n :: flat_map (fun n => [DOT; tok_id n]) l ++ [DOT]), "ID", m. split; [|reflexivity].
        cbn [app]. rewrite <- app_assoc. reflexivity.
    + rewrite bracket_some by discriminate. exists (name_tokens names ++ LT :: sep_by COMMA (map type_tokens (a :: args))), "GT", ">". split; [|reflexivity].
      rewrite <- app_assoc. reflexivity.
Qed.
Lemma inst_end i : inst_ok false i -> exists k n u, inst_tokens i = k ++ [(n, u)] /\ existsb (String.eqb n) type_ends = true.
Proof.
  intros [Ot _]. unfold inst_tokens. destruct (ci_params i) as [|l|e].
  - rewrite app_nil_r. apply type_end, Ot.
  - exists (type_tokens (ci_type i) ++ LP :: sep_by COMMA (map arg_tokens l)), "RPAREN", ")". split; [rewrite <- app_assoc; reflexivity | reflexivity].
  - exists (type_tokens (ci_type i) ++ LT :: expr_tokens e), "GT", ">". split; [rewrite <- app_assoc; reflexivity | reflexivity].
Qed.
Lemma name_after_app a x b : existsb (String.eqb x) type_ends = true -> name_after_type (a ++ x :: "ID" :: b) = true.
Proof. intros H. induction a as [|y a IH]; cbn [app name_after_type]; [rewrite H; reflexivity | rewrite IH; apply orb_true_r]. Qed.
Lemma like_field_name c : like_field c -> name_after_type (map fst (expr_tokens c ++ [SEMI])) = true.
Proof.
  intros (i & n & r & Ok & E). unfold ptok in *. rewrite E. destruct (inst_end i Ok) as (k & m & u & T & H). rewrite T, <- app_assoc. cbn [app]. rewrite map_app. cbn [map fst tok_id].
  apply name_after_app, H.
Qed.
