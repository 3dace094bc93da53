(** The parser reads every schema file that can be written: declarations. *)

Require Import ZArith String Ascii List Bool Lia.
Require Import ZifyBool ZifyNat.
From Verif Require VisitorFacts.
From Verif Require Import Visitor Parser ParserSpec ParserFacts ParserTextFacts FileParser FileParserSpec FileParserFacts.
Import ListNotations.
Open Scope nat_scope.
Open Scope string_scope.
Open Scope list_scope.

Lemma field_type_next m t r : field_type_ok true t -> existsb (String.eqb m) ("PACKED" :: "IMPLICIT" :: type_starts) = false -> next_is m (field_type_tokens t ++ r) = false.
Proof.
  intros Ot H. cbn [existsb] in H. apply orb_false_elim in H. destruct H as [H1 H]. apply orb_false_elim in H. destruct H as [H2 H].
  rewrite String.eqb_sym in H1, H2. unfold field_type_tokens. rewrite <- !app_assoc.
  destruct (ft_packed t); [exact H1|]. destruct (ft_implicit t); [exact H2|]. cbn [flag app]. apply inst_next; [exact (proj1 Ot) | exact H].
Qed.
Lemma read_alignment al r : opt_ok proper al -> next_is "ALIGN" r = false ->
  alignment (when al (fun e => ("ALIGN", "align") :: LP :: expr_tokens e ++ [RP; COLON]) ++ r) = Some (al, r).
Proof.
  intros P H. unfold alignment. destruct al as [e|]; cbn [when app].
  - rewrite next_ok. cbn [tl]. unfold LP at 1. rewrite expect_ok. cbn [bind]. rewrite <- app_assoc. cbn [app]. rewrite read_expr by (assumption || reflexivity). reflexivity.
  - rewrite H. reflexivity.
Qed.
Definition field_body (f : cfield) : list ptok :=
  flag (cf_extend f) "EXTEND" "extend" ++ flag (cf_optional f) "OPTIONAL" "optional" ++ field_type_tokens (cf_type f) ++
  when (cf_init f) (fun e => ("ASSIGN", "=") :: expr_tokens e) ++ when (cf_if f) (fun e => ("IF", "if") :: expr_tokens e) ++
  constraint_tokens (cf_constraint f) ++ [SEMI].
Lemma body_app f rest : field_body f ++ rest = flag (cf_extend f) "EXTEND" "extend" ++ flag (cf_optional f) "OPTIONAL" "optional" ++ field_type_tokens (cf_type f) ++
  when (cf_init f) (fun e => ("ASSIGN", "=") :: expr_tokens e) ++ when (cf_if f) (fun e => ("IF", "if") :: expr_tokens e) ++
  constraint_tokens (cf_constraint f) ++ SEMI :: rest.
Proof. unfold field_body. rewrite <- !app_assoc. reflexivity. Qed.
Lemma body_next m f rest : field_ok true f -> existsb (String.eqb m) ("EXTEND" :: "OPTIONAL" :: "PACKED" :: "IMPLICIT" :: type_starts) = false ->
  next_is m (field_body f ++ rest) = false.
Proof.
  intros Ok H. rewrite body_app. cbn [existsb] in H. apply orb_false_elim in H. destruct H as [H1 H]. apply orb_false_elim in H. destruct H as [H2 H].
  rewrite String.eqb_sym in H1, H2. destruct (cf_extend f); [exact H1|]. destruct (cf_optional f); [exact H2|]. cbn [flag app].
  apply field_type_next; [apply Ok | exact H].
Qed.
Lemma field_split f rest : field_tokens f ++ rest =
  when (cf_align f) (fun e => ("ALIGN", "align") :: LP :: expr_tokens e ++ [RP; COLON]) ++ when (cf_offset f) (fun e => expr_tokens e ++ [COLON]) ++ field_body f ++ rest.
Proof. unfold field_tokens, field_body. rewrite <- !app_assoc. reflexivity. Qed.
Lemma body_read al off f rest : field_ok true f ->
  field_rest al off (field_body f ++ rest) = Some (mkCF al off (cf_extend f) (cf_optional f) (cf_type f) (cf_init f) (cf_if f) (cf_constraint f), rest).
Proof. intros Ok. rewrite body_app. apply field_rest_read, Ok. Qed.
Lemma read_field f rest : field_ok true f -> well_lexed (field_tokens f ++ rest) -> struct_field (field_tokens f ++ rest) = Some (f, rest).
Proof.
  intros Ok W. rewrite field_split in *. unfold struct_field.
  assert (Z := Ok). destruct Z as (Oa & Oo & Ot & _ & _ & _ & L). rewrite read_alignment; [|exact Oa |].
  - cbn [bind]. destruct (cf_offset f) as [e|] eqn:E; cbn [when app] in *.
    + rewrite <- app_assoc. cbn [app]. rewrite read_expr by (exact Oo || reflexivity). cbn [bind]. unfold COLON at 1. rewrite expect_ok. cbn [bind].
      rewrite body_read by exact Ok. rewrite <- E. destruct f; reflexivity.
    + match goal with |- match ?o with Some x => Some x | None => _ end = _ => replace o with (@None (cfield * list ptok)) end.
      * rewrite body_read by exact Ok. rewrite <- E. destruct f; reflexivity.
      * symmetry. apply lexed_app in W. rewrite body_app in *.
        destruct (cf_extend f); cbn [flag app] in *; [rewrite not_start; reflexivity|].
        destruct (cf_optional f); cbn [flag app] in *; [rewrite not_start; reflexivity|].
        apply (no_offset _ _ _ rest); [exact Ot | | exact W]. eexists _, _, _. split; [reflexivity | exact (L eq_refl eq_refl)].
  - destruct (cf_offset f) as [e|]; cbn [when app]; [rewrite <- app_assoc; apply expr_next; left; reflexivity | apply body_next; [exact Ok | reflexivity]].
Qed.
Lemma field_next m f rest : field_ok true f -> existsb (String.eqb m) ("ALIGN" :: "EXTEND" :: "OPTIONAL" :: "PACKED" :: "IMPLICIT" :: type_starts) = false -> expr_kind m = false ->
  next_is m (field_tokens f ++ rest) = false.
Proof.
  intros Ok H K. rewrite field_split. cbn [existsb] in H. apply orb_false_elim in H. destruct H as [H1 H]. rewrite String.eqb_sym in H1.
  destruct (cf_align f); [exact H1|]. cbn [when app]. destruct (cf_offset f); cbn [when app]; [rewrite <- app_assoc; apply expr_next; left; exact K|].
  apply body_next; [exact Ok | exact H].
Qed.

Lemma read_choice_field f p r : choice_field_ok true f -> fst p = "SEMICOLON" -> choice_field (choice_field_tokens f ++ p :: r) = Some (f, p :: r).
Proof.
  intros [Ot Oc] H. destruct p as [n t]. cbn in H. subst n. unfold choice_field, choice_field_tokens. rewrite <- app_assoc. rewrite read_field_type; [|exact Ot|].
  - cbn [bind]. unfold constraint_tokens. rewrite (read_clause "COLON" ":"); [destruct f; reflexivity | exact Oc | reflexivity..].
  - unfold constraint_tokens, declared_end. eapply when_head; [reflexivity | cbn; auto|]. eexists _, _, _. split; [reflexivity | cbn; auto].
Qed.
Lemma read_union_field f rest : choice_field_ok true f -> union_field ((choice_field_tokens f ++ [SEMI]) ++ rest) = Some (f, rest).
Proof. intros Ok. unfold union_field. rewrite <- app_assoc. cbn [app]. rewrite read_choice_field by (assumption || reflexivity). reflexivity. Qed.
Lemma read_id n r : identifier (tok_id n :: r) = Some (n, r).
Proof. reflexivity. Qed.
Lemma read_function f rest : function_ok f -> function_def (function_tokens f ++ rest) = Some (f, rest).
Proof.
  intros [Ot Ob]. unfold function_def, function_tokens. cbn [app]. rewrite expect_ok. cbn [bind]. rewrite <- app_assoc. cbn [app].
  rewrite read_type by (try exact Ot; apply follow_id). cbn [bind]. rewrite read_id. cbn [bind]. unfold LP at 1, RP at 1, LBRACE at 1. rewrite !expect_ok. cbn [bind].
  rewrite expect_ok. cbn [bind]. rewrite expect_ok. cbn [bind]. rewrite expect_ok. cbn [bind].
  rewrite <- app_assoc. cbn [app]. rewrite read_expr by (exact Ob || reflexivity). destruct f; reflexivity.
Qed.
Lemma read_parameter p q r : type_ok (fst p) -> parameter (param_tokens p ++ q :: r) = Some (p, q :: r).
Proof.
  intros Ok. unfold parameter, param_tokens. rewrite <- app_assoc. cbn [app]. rewrite read_type by (try exact Ok; apply follow_id). cbn [bind]. rewrite read_id. destruct p; reflexivity.
Qed.
Lemma read_templates l rest : next_is "LT" rest = false -> template_parameters (template_tokens l ++ rest) = Some (l, rest).
Proof.
  intros H. unfold template_parameters, template_tokens, bracketed. destruct l as [|n l]; [cbn [map bracket app]; rewrite H; reflexivity|].
  rewrite bracket_some by discriminate. cbn [app]. change (next_is "LT" (LT :: ?x)) with true. cbn [tl]. rewrite <- app_assoc. cbn [app].
  rewrite (items_read identifier (fun n => [tok_id n])); [reflexivity | discriminate | | reflexivity | reflexivity | reflexivity].
  pose proof (sep_length (fun n => [tok_id n]) COMMA (n :: l) ltac:(discriminate)) as L. cbn [length] in *. rewrite app_length in *. cbn [length]. lia.
Qed.
Lemma read_params l rest : params_ok l -> next_is "LPAREN" rest = false -> type_parameters (params_tokens l ++ rest) = Some (l, rest).
Proof.
  intros Ok H. unfold type_parameters, params_tokens, bracketed. destruct l as [|n l]; [cbn [map bracket app]; rewrite H; reflexivity|].
  rewrite bracket_some by discriminate. cbn [app]. change (next_is "LPAREN" (LP :: ?x)) with true. cbn [tl]. rewrite <- app_assoc. cbn [app].
  rewrite (items_read parameter param_tokens); [reflexivity | discriminate | | reflexivity | |].
  - assert (N : forall x, In x (n :: l) -> param_tokens x <> []) by (intros x _; unfold param_tokens; destruct (type_tokens (fst x)); discriminate).
    pose proof (sep_length param_tokens COMMA (n :: l) N) as L. cbn [length] in *. rewrite app_length in *. cbn [length]. lia.
  - intros x r Hx. apply read_parameter. exact (all_in _ _ Ok x Hx).
  - intros x Hx. apply read_parameter. exact (all_in _ _ Ok x Hx).
Qed.
Lemma read_functions l rest : all function_ok l -> well_lexed (flat_map function_tokens l ++ RBRACE :: rest) ->
  functions (flat_map function_tokens l ++ RBRACE :: rest) = Some (l, RBRACE :: rest).
Proof.
  intros Ok W. apply many_read; [| reflexivity | exact W | reflexivity |].
  - rewrite app_length. pose proof (flat_length function_tokens l ltac:(discriminate)). lia.
  - intros x r Hx _. apply read_function. exact (all_in _ _ Ok x Hx).
Qed.
Lemma starts_functions stop l rest : one_of_names stop [("FUNCTION", "function")] = true -> one_of_names stop [RBRACE] = true ->
  one_of_names stop (flat_map function_tokens l ++ RBRACE :: rest) = true.
Proof. intros H1 H2. destruct l; [exact H2 | exact H1]. Qed.

Lemma one_of_next stop ts : (forall n, In n stop -> next_is n ts = false) -> one_of_names stop ts = false.
Proof.
  intros H. destruct ts as [|[m t] r]; [reflexivity|]. cbn [one_of_names]. destruct (existsb (String.eqb m) stop) eqn:E; [|reflexivity].
  apply existsb_exists in E. destruct E as (n & Hn & E). specialize (H n Hn). cbn in H. congruence.
Qed.
Lemma lexed_cons_app a b r : well_lexed (a :: b ++ r) -> well_lexed r.
Proof. intros W. apply lexed_tail in W. exact (lexed_app _ _ W). Qed.
Lemma bracket_next m l (tok : string -> list ptok) r a b : String.eqb (fst a) m = false -> next_is m r = false -> next_is m (bracket a b (map tok l) ++ r) = false.
Proof. intros Ha H. destruct l; [exact H|]. destruct a. exact Ha. Qed.
Lemma params_next m l r : String.eqb "LPAREN" m = false -> next_is m r = false -> next_is m (params_tokens l ++ r) = false.
Proof. intros Ha H. destruct l; [exact H | exact Ha]. Qed.

Lemma struct_split s rest : struct_tokens s ++ rest = ("STRUCTURE", "struct") :: tok_id (cs_name s) :: template_tokens (cs_templates s) ++ params_tokens (cs_params s) ++ LBRACE ::
  flat_map field_tokens (cs_fields s) ++ flat_map function_tokens (cs_functions s) ++ RBRACE :: SEMI :: rest.
Proof. unfold struct_tokens. cbn [app]. rewrite <- !app_assoc. cbn [app]. rewrite <- !app_assoc. reflexivity. Qed.
Lemma read_structure s rest : struct_ok true s -> well_lexed (struct_tokens s ++ rest) -> structure (tl (struct_tokens s ++ rest)) = Some (s, rest).
Proof.
  intros (Op & Of & Ofn) W. rewrite struct_split in *. cbn [tl]. unfold structure. rewrite read_id. cbn [bind].
  rewrite read_templates by (apply params_next; reflexivity). cbn [bind]. rewrite read_params by (exact Op || reflexivity). cbn [bind].
  unfold LBRACE at 1. rewrite expect_ok. cbn [bind].
  do 2 apply lexed_tail in W. apply lexed_app, lexed_app, lexed_tail in W.
  rewrite (many_read _ struct_field field_tokens); [| |apply starts_functions; reflexivity | exact W | |].
  - cbn [bind]. apply lexed_app in W. rewrite read_functions by assumption. destruct s; reflexivity.
  - rewrite app_length. enough (length (cs_fields s) <= length (flat_map field_tokens (cs_fields s))) by lia. apply flat_length.
    intros f Hf. unfold field_tokens. repeat (match goal with |- ?a ++ ?b <> [] => intros HH; apply app_eq_nil in HH; destruct HH as [_ HH]; revert HH; change (b <> []) end). discriminate.
  - intros f r Hf. apply one_of_next. intros n [<-|[<-|[]]]; apply field_next; try reflexivity; exact (all_in _ _ Of f Hf).
  - intros f r Hf Wf. apply read_field; [exact (all_in _ _ Of f Hf) | exact Wf].
Qed.

Lemma union_split u rest : union_tokens u ++ rest = ("UNION", "union") :: tok_id (cu_name u) :: template_tokens (cu_templates u) ++ params_tokens (cu_params u) ++ LBRACE ::
  flat_map (fun f => choice_field_tokens f ++ [SEMI]) (cu_fields u) ++ flat_map function_tokens (cu_functions u) ++ RBRACE :: SEMI :: rest.
Proof. unfold union_tokens. cbn [app]. rewrite <- !app_assoc. cbn [app]. rewrite <- !app_assoc. reflexivity. Qed.
Lemma choice_field_next m f r : choice_field_ok true f -> existsb (String.eqb m) ("PACKED" :: "IMPLICIT" :: type_starts) = false -> next_is m (choice_field_tokens f ++ r) = false.
Proof. intros [Ot _] H. unfold choice_field_tokens. rewrite <- app_assoc. apply field_type_next; assumption. Qed.
Lemma read_union u rest : union_ok true u -> well_lexed (union_tokens u ++ rest) -> union (tl (union_tokens u ++ rest)) = Some (u, rest).
Proof.
  intros (Op & Of & Ofn) W. rewrite union_split in *. cbn [tl]. unfold union. rewrite read_id. cbn [bind].
  rewrite read_templates by (apply params_next; reflexivity). cbn [bind]. rewrite read_params by (exact Op || reflexivity). cbn [bind].
  unfold LBRACE at 1. rewrite expect_ok. cbn [bind].
  do 2 apply lexed_tail in W. apply lexed_app, lexed_app, lexed_tail in W.
  rewrite (many_read _ union_field (fun f => choice_field_tokens f ++ [SEMI])); [| |apply starts_functions; reflexivity | exact W | |].
  - cbn [bind]. apply lexed_app in W. rewrite read_functions by assumption. destruct u; reflexivity.
  - rewrite app_length. enough (length (cu_fields u) <= length (flat_map (fun f => choice_field_tokens f ++ [SEMI]) (cu_fields u))) by lia. apply flat_length.
    intros f Hf HH. apply app_eq_nil in HH. destruct HH as [_ HH]. discriminate HH.
  - intros f r Hf. apply one_of_next. rewrite <- app_assoc. intros n [<-|[<-|[]]]; apply choice_field_next; try reflexivity; exact (all_in _ _ Of f Hf).
  - intros f r Hf _. apply read_union_field. exact (all_in _ _ Of f Hf).
Qed.

Lemma read_slot o rest : opt_ok (choice_field_ok true) o -> choice_slot (when o choice_field_tokens ++ SEMI :: rest) = Some (o, rest).
Proof.
  intros Ok. unfold choice_slot. destruct o as [f|]; cbn [when app]; [|reflexivity].
  rewrite choice_field_next by (exact Ok || reflexivity). rewrite read_choice_field by (exact Ok || reflexivity). reflexivity.
Qed.
Lemma read_labels : forall es fuel rest, es <> [] -> all proper es -> length es <= fuel -> next_is "CASE" rest = false ->
  case_labels fuel (flat_map label_tokens es ++ rest) = Some (es, rest).
Proof.
  induction es as [|e es IH]; intros fuel rest Hn HA L N; [contradiction|]. destruct HA as [Hp Ha]. destruct fuel as [|f]; [cbn in L; lia|].
  unfold label_tokens at 1. cbn [flat_map app case_labels]. rewrite expect_ok. cbn [bind]. rewrite <- !app_assoc. cbn [app].
  rewrite read_expr by (exact Hp || reflexivity). cbn [bind]. unfold COLON at 1. rewrite expect_ok. cbn [bind].
  destruct es as [|e' es].
  - cbn [flat_map app]. rewrite N. reflexivity.
  - change (next_is "CASE" (flat_map label_tokens (e' :: es) ++ rest)) with true. cbv iota. rewrite IH; [reflexivity | discriminate | exact Ha | cbn in *; lia | exact N].
Qed.
Lemma slot_next m o rest : opt_ok (choice_field_ok true) o -> existsb (String.eqb m) ("PACKED" :: "IMPLICIT" :: type_starts) = false -> String.eqb "SEMICOLON" m = false ->
  next_is m (when o choice_field_tokens ++ SEMI :: rest) = false.
Proof. intros Ok H1 H2. destruct o as [f|]; cbn [when app]; [apply choice_field_next; assumption | exact H2]. Qed.
Lemma read_cases c rest : case_ok true c -> choice_cases (case_tokens c ++ rest) = Some (c, rest).
Proof.
  intros (Hn & Hp & Ho). destruct c as [es o]. cbn [fst snd] in *. unfold choice_cases, case_tokens. cbn [fst snd]. rewrite <- !app_assoc. cbn [app].
  rewrite read_labels; [|exact Hn | exact Hp | | apply slot_next; (exact Ho || reflexivity)].
  - cbn [bind]. rewrite read_slot by exact Ho. reflexivity.
  - rewrite app_length. pose proof (flat_length label_tokens es ltac:(discriminate)). lia.
Qed.
Lemma case_starts c r : case_ok true c -> exists t r', case_tokens c ++ r = ("CASE", t) :: r'.
Proof. intros (Hn & _). destruct c as [[|e es] o]; [contradiction|]. eexists _, _. reflexivity. Qed.
Definition default_tokens (o : option (option cchoicefield)) : list ptok := when o (fun f => ("DEFAULT", "default") :: COLON :: when f choice_field_tokens ++ [SEMI]).
Lemma read_default o rest : opt_ok (opt_ok (choice_field_ok true)) o -> next_is "DEFAULT" rest = false -> choice_default (default_tokens o ++ rest) = Some (o, rest).
Proof.
  intros Ok N. unfold choice_default, default_tokens. destruct o as [f|]; cbn [when app]; [|rewrite N; reflexivity].
  rewrite next_ok. cbn [tl]. unfold COLON at 1. rewrite expect_ok. cbn [bind]. rewrite <- app_assoc. cbn [app]. rewrite read_slot by exact Ok. reflexivity.
Qed.
Lemma choice_split c rest : choice_tokens c ++ rest = ("CHOICE", "choice") :: tok_id (cc_name c) :: template_tokens (cc_templates c) ++ params_tokens (cc_params c) ++
  ("ON", "on") :: expr_tokens (cc_on c) ++ LBRACE :: flat_map case_tokens (cc_cases c) ++ default_tokens (cc_default c) ++
  flat_map function_tokens (cc_functions c) ++ RBRACE :: SEMI :: rest.
Proof. unfold choice_tokens, default_tokens. cbn [app]. rewrite <- !app_assoc. cbn [app]. rewrite <- !app_assoc. cbn [app]. rewrite <- !app_assoc. reflexivity. Qed.
Lemma read_choice c rest : choice_ok true c -> well_lexed (choice_tokens c ++ rest) -> choice (tl (choice_tokens c ++ rest)) = Some (c, rest).
Proof.
  intros (Hn & Op & Oe & Oc & Od & Ofn) W. rewrite choice_split in *. cbn [tl]. unfold choice. rewrite read_id. cbn [bind].
  rewrite read_templates by (apply params_next; reflexivity). cbn [bind]. rewrite read_params by (exact Op || reflexivity). cbn [bind].
  replace (match cc_params c with [] => true | _ => false end) with false by (destruct (cc_params c); [contradiction | reflexivity]).
  rewrite expect_ok. cbn [bind]. rewrite read_expr by (exact Oe || reflexivity). cbn [bind]. unfold LBRACE at 1. rewrite expect_ok. cbn [bind].
  do 2 apply lexed_tail in W. apply lexed_app, lexed_app, lexed_tail, lexed_app, lexed_tail in W.
  rewrite (many_read _ choice_cases case_tokens); [| | | exact W | |].
  - cbn [bind]. apply lexed_app in W. rewrite read_default; [|exact Od|].
    + cbn [bind]. apply lexed_app in W. rewrite read_functions by assumption. destruct c; reflexivity.
    + destruct (cc_functions c); reflexivity.
  - rewrite app_length. enough (length (cc_cases c) <= length (flat_map case_tokens (cc_cases c))) by lia. apply flat_length.
    intros f Hf HH. destruct (case_starts f [] (all_in _ _ Oc f Hf)) as (t & r & E). rewrite HH in E. discriminate E.
  - destruct (cc_default c); [reflexivity|]. cbn [default_tokens when app]. apply starts_functions; reflexivity.
  - intros f r Hf. destruct (case_starts f r (all_in _ _ Oc f Hf)) as (t & r' & ->). reflexivity.
  - intros f r Hf _. apply read_cases. exact (all_in _ _ Oc f Hf).
Qed.

Lemma read_item x p r : opt_ok proper (snd x) -> fst p = "COMMA" \/ fst p = "RBRACE" -> enum_item (item_tokens x ++ p :: r) = Some (x, p :: r).
Proof.
  intros Ok H. destruct x as [[m n] e]. cbn [snd] in Ok. unfold enum_item, item_tokens. cbn [fst snd]. rewrite <- app_assoc.
  assert (C : clause "ASSIGN" (parse_expression false) (value_tokens e ++ p :: r) = Some (e, p :: r)).
  { unfold value_tokens. destruct p as [k u]. apply (read_clause "ASSIGN" "="); [exact Ok | reflexivity | |]; destruct H as [H|H]; cbn in H; subst k; reflexivity. }
  destruct m as [[|]|]; cbn [when app]; (change (next_is "DEPRECATED" (("DEPRECATED", ?t) :: ?x)) with true || change (next_is "REMOVED" (("REMOVED", ?t) :: ?x)) with true || idtac).
  - cbn [tl]. rewrite read_id. cbn [bind]. rewrite C. reflexivity.
  - change (next_is "DEPRECATED" (("REMOVED", "@removed") :: ?x)) with false. cbn [tl]. rewrite read_id. cbn [bind]. rewrite C. reflexivity.
  - change (next_is "DEPRECATED" (tok_id n :: ?x)) with false. change (next_is "REMOVED" (tok_id n :: ?x)) with false. cbv iota. rewrite read_id. cbn [bind]. rewrite C. reflexivity.
Qed.
Lemma item_next x r : next_is "RBRACE" (item_tokens x ++ r) = false /\ item_tokens x <> [].
Proof. destruct x as [[[[|]|] n] e]; split; (reflexivity || discriminate). Qed.
Lemma enum_split comma e rest : enum_tokens comma e ++ rest = ("ENUM", "enum") :: inst_tokens (ce_type e) ++ tok_id (ce_name e) :: LBRACE ::
  sep_by COMMA (map item_tokens (ce_items e)) ++ flag comma "COMMA" "," ++ RBRACE :: SEMI :: rest.
Proof. unfold enum_tokens. cbn [app]. rewrite <- !app_assoc. cbn [app]. rewrite <- !app_assoc. reflexivity. Qed.
Lemma after_brace n r : after_length (GT :: tok_id n :: LBRACE :: r).
Proof. apply ALName. cbn; auto 6. Qed.
Lemma read_enum comma e rest : enum_ok true e -> enum (tl (enum_tokens comma e ++ rest)) = Some (e, rest).
Proof.
  intros (Oi & Hn & Oe). rewrite enum_split. cbn [tl]. unfold enum. rewrite read_inst by (try exact Oi; apply after_brace). cbn [bind]. rewrite read_id. cbn [bind].
  unfold LBRACE at 1. rewrite expect_ok. cbn [bind]. rewrite (items_comma_read enum_item item_tokens).
  - destruct e; reflexivity.
  - exact Hn.
  - rewrite app_length. pose proof (sep_length item_tokens COMMA (ce_items e) (fun x _ => proj2 (item_next x []))). lia.
  - intros x r Hx. apply read_item; [exact (all_in _ _ Oe x Hx) | left; reflexivity].
  - intros x Hx. apply read_item; [exact (all_in _ _ Oe x Hx) | right; reflexivity].
  - intros x r Hx. apply item_next.
Qed.
Lemma read_bit x p r : opt_ok proper (snd x) -> fst p = "COMMA" \/ fst p = "RBRACE" -> bitmask_value (bit_tokens x ++ p :: r) = Some (x, p :: r).
Proof.
  intros Ok H. destruct x as [n e]. cbn [snd] in Ok. unfold bitmask_value, bit_tokens. cbn [fst snd app]. rewrite read_id. cbn [bind].
  unfold value_tokens. destruct p as [k u]. rewrite (read_clause "ASSIGN" "="); [reflexivity | exact Ok | reflexivity | |]; destruct H as [H|H]; cbn in H; subst k; reflexivity.
Qed.
Lemma bitmask_split comma b rest : bitmask_tokens comma b ++ rest = ("BITMASK", "bitmask") :: inst_tokens (cb_type b) ++ tok_id (cb_name b) :: LBRACE ::
  sep_by COMMA (map bit_tokens (cb_values b)) ++ flag comma "COMMA" "," ++ RBRACE :: SEMI :: rest.
Proof. unfold bitmask_tokens. cbn [app]. rewrite <- !app_assoc. cbn [app]. rewrite <- !app_assoc. reflexivity. Qed.
Lemma read_bitmask comma b rest : bitmask_ok true b -> bitmask (tl (bitmask_tokens comma b ++ rest)) = Some (b, rest).
Proof.
  intros (Oi & Hn & Oe). rewrite bitmask_split. cbn [tl]. unfold bitmask. rewrite read_inst by (try exact Oi; apply after_brace). cbn [bind]. rewrite read_id. cbn [bind].
  unfold LBRACE at 1. rewrite expect_ok. cbn [bind]. rewrite (items_comma_read bitmask_value bit_tokens).
  - destruct b; reflexivity.
  - exact Hn.
  - rewrite app_length. pose proof (sep_length bit_tokens COMMA (cb_values b) ltac:(discriminate)). lia.
  - intros x r Hx. apply read_bit; [exact (all_in _ _ Oe x Hx) | left; reflexivity].
  - intros x Hx. apply read_bit; [exact (all_in _ _ Oe x Hx) | right; reflexivity].
  - reflexivity.
Qed.

(** ** Directives and files *)

Lemma read_directive comma d rest : directive_ok true d -> well_lexed (directive_tokens comma d ++ rest) -> directive (directive_tokens comma d ++ rest) = Some (d, rest).
Proof.
  intros Ok W. destruct d; cbn [directive_ok directive_tokens] in *; try contradiction.
  - destruct Ok as [Oi Oe]. cbn [app directive String.eqb Ascii.eqb Bool.eqb]. rewrite <- app_assoc. cbn [app]. rewrite read_inst by (try exact Oi; apply ALName; cbn; auto).
    cbn [bind]. rewrite read_id. cbn [bind]. rewrite expect_ok. cbn [bind]. rewrite <- app_assoc. cbn [app]. rewrite read_expr by (exact Oe || reflexivity). reflexivity.
  - cbn [app directive String.eqb Ascii.eqb Bool.eqb]. rewrite <- app_assoc. cbn [app]. rewrite read_type by (try exact Ok; apply follow_id). reflexivity.
  - assert (R := read_structure s rest Ok W). rewrite struct_split in *. cbn [tl] in R. cbn [directive String.eqb Ascii.eqb Bool.eqb]. rewrite R. reflexivity.
  - assert (R := read_choice c rest Ok W). rewrite choice_split in *. cbn [tl] in R. cbn [directive String.eqb Ascii.eqb Bool.eqb]. rewrite R. reflexivity.
  - assert (R := read_union u rest Ok W). rewrite union_split in *. cbn [tl] in R. cbn [directive String.eqb Ascii.eqb Bool.eqb]. rewrite R. reflexivity.
  - assert (R := read_enum comma e rest Ok). rewrite enum_split in *. cbn [tl] in R. cbn [directive String.eqb Ascii.eqb Bool.eqb]. rewrite R. reflexivity.
  - assert (R := read_bitmask comma b rest Ok). rewrite bitmask_split in *. cbn [tl] in R. cbn [directive String.eqb Ascii.eqb Bool.eqb]. rewrite R. reflexivity.
  - cbn [app directive String.eqb Ascii.eqb Bool.eqb]. rewrite <- app_assoc. cbn [app]. rewrite read_type by (try exact Ok; apply follow_id). reflexivity.
Qed.
Lemma directive_head comma d r : directive_ok true d -> exists n t r', directive_tokens comma d ++ r = (n, t) :: r' /\
  In n ["CONST"; "SUBTYPE"; "INSTANTIATE"; "STRUCTURE"; "CHOICE"; "UNION"; "ENUM"; "BITMASK"].
Proof. destruct d; intros H; try contradiction; (eexists _, _, _; split; [reflexivity | cbn; auto 20]). Qed.
Lemma read_directives ds ts : directives_written ds ts -> all (directive_ok true) ds -> well_lexed ts -> forall fuel, length ts <= fuel -> all_directives fuel ts = Some ds.
Proof.
  induction 1 as [|comma d ds ts Hw IH]; intros Ok W fuel L; [destruct fuel; reflexivity|]. destruct Ok as [Od Ok].
  destruct (directive_head comma d ts Od) as (n & t & r' & E & _). assert (R := read_directive comma d ts Od W).
  destruct fuel as [|f]; [rewrite E in L; cbn in L; lia|]. cbn [all_directives]. rewrite R. rewrite E. cbn [bind].
  rewrite (IH Ok (lexed_app _ _ W)); [reflexivity|]. rewrite app_length in L.
  assert (directive_tokens comma d <> []) by (intros Z; destruct (directive_head comma d [] Od) as (? & ? & ? & F & _); rewrite Z in F; discriminate).
  destruct (directive_tokens comma d); [contradiction | cbn in L; lia].
Qed.
Lemma body_starts ds ts n : directives_written ds ts -> all (directive_ok true) ds -> In n ["COMPAT_VERSION"; "PACKAGE"; "IMPORT"] -> next_is n ts = false.
Proof.
  intros H Ok Hn. destruct H as [|comma d ds ts H]; [reflexivity|]. destruct Ok as [Od _]. destruct (directive_head comma d ts Od) as (m & t & r & -> & Hm). cbn [next_is].
  apply String.eqb_neq. intros ->. cbn in Hm, Hn. repeat (destruct Hn as [<-|Hn]; [repeat (destruct Hm as [Hm|Hm]; [discriminate Hm|]); exact Hm|]). exact Hn.
Qed.

Lemma dots_stop : forall l rest, dots rest = ([], rest) -> dots (flat_map (fun n => [DOT; tok_id n]) l ++ rest) = (l, rest).
Proof.
  induction l as [|n l IH]; intros rest H; [exact H|].
  change (dots (("DOT", ".") :: ("ID", n) :: flat_map (fun n => [DOT; tok_id n]) l ++ rest) = (n :: l, rest)). cbn [dots]. rewrite (IH rest H). reflexivity.
Qed.
Lemma import_turn : forall l n r, flat_map (fun n => [tok_id n; DOT]) (n :: l) ++ r = tok_id n :: flat_map (fun n => [DOT; tok_id n]) l ++ DOT :: r.
Proof. induction l as [|m l IH]; intros n r; [reflexivity|]. change (tok_id n :: DOT :: flat_map (fun n => [tok_id n; DOT]) (m :: l) ++ r = tok_id n :: DOT :: tok_id m :: flat_map (fun n => [DOT; tok_id n]) l ++ DOT :: r). rewrite IH. reflexivity. Qed.
Lemma read_import i rest : cim_names i <> [] -> import_decl (import_tokens i ++ rest) = Some (i, rest).
Proof.
  intros H. destruct i as [names sym]. cbn [cim_names] in H. destruct names as [|n l]; [contradiction|]. unfold import_decl, import_tokens. cbn [cim_names cim_symbol].
  cbn [app]. rewrite expect_ok. cbn [bind]. rewrite <- app_assoc. cbn [app]. rewrite import_turn, read_id. cbn [bind]. destruct sym as [m|].
  - replace (flat_map (fun n => [DOT; tok_id n]) l ++ DOT :: tok_id m :: SEMI :: rest) with (flat_map (fun n => [DOT; tok_id n]) (l ++ [m]) ++ SEMI :: rest)
      by (rewrite flat_map_app, <- app_assoc; reflexivity).
    rewrite dots_read by reflexivity. change (next_is "DOT" (SEMI :: rest)) with false. cbn [andb].
    assert (E : l ++ [m] <> []) by (destruct l; discriminate). destruct (l ++ [m]) as [|x y] eqn:Q; [contradiction|]. rewrite <- Q. unfold SEMI. rewrite expect_ok. cbn [bind].
    rewrite last_last. change (n :: l ++ [m]) with ((n :: l) ++ [m]). rewrite removelast_last. reflexivity.
  - rewrite dots_stop by reflexivity. reflexivity.
Qed.
Lemma read_imports : forall l fuel rest, all (fun i => cim_names i <> []) l -> next_is "IMPORT" rest = false -> length l < fuel ->
  imports fuel (flat_map import_tokens l ++ rest) = Some (l, rest).
Proof.
  induction l as [|i l IH]; intros fuel rest Ok N L; (destruct fuel as [|f]; [cbn in L; lia|]); cbn [flat_map app imports].
  - rewrite N. reflexivity.
  - rewrite <- app_assoc. destruct Ok as [Oi Ok]. change (next_is "IMPORT" (import_tokens i ++ flat_map import_tokens l ++ rest)) with true. cbv iota.
    rewrite read_import by exact Oi. cbn [bind]. rewrite IH; [reflexivity | exact Ok | exact N | cbn in L; lia].
Qed.
Lemma read_file f ts : file_ok true f -> file_written f ts -> well_lexed ts -> parse_file ts = Some f.
Proof.
  intros (Op & Oi & Od) (body & B & ->) W. unfold parse_file, head_tokens in *. rewrite <- !app_assoc in *.
  set (imp := flat_map import_tokens (cfl_imports f) ++ body) in *.
  set (pack := when (cfl_package f) (fun l => ("PACKAGE", "package") :: name_tokens l ++ [SEMI]) ++ imp) in *.
  assert (I : forall n, In n ["COMPAT_VERSION"; "PACKAGE"] -> next_is n imp = false).
  { intros n Hn. unfold imp. destruct (cfl_imports f) as [|i l]; [apply (body_starts _ _ _ B Od); cbn in *; tauto|]. cbn in Hn.
    repeat (destruct Hn as [<-|Hn]; [reflexivity|]). contradiction. }
  assert (P : next_is "COMPAT_VERSION" pack = false) by (unfold pack; destruct (cfl_package f); [reflexivity | apply I; cbn; auto]).
  assert (C : compat (when (cfl_compat f) (fun t => [("COMPAT_VERSION", "zserio_compatibility_version"); LP; ("STRING_LITERAL", t); RP; SEMI]) ++ pack) = Some (cfl_compat f, pack)).
  { unfold compat. destruct (cfl_compat f) as [t|]; cbn [when app]; [reflexivity | rewrite P; reflexivity]. }
  rewrite C. cbn [bind].
  assert (Q : package_name pack = Some (cfl_package f, imp)).
  { unfold package_name, pack. destruct (cfl_package f) as [l|]; cbn [when app]; [|rewrite (I "PACKAGE") by (cbn; auto); reflexivity].
    cbn in Op. destruct l as [|n l]; [contradiction|]. rewrite next_ok. cbn [tl]. rewrite name_cons, <- app_assoc. cbn [app]. rewrite read_id. cbn [bind].
    rewrite dots_read by reflexivity. reflexivity. }
  rewrite Q. cbn [bind]. unfold imp. rewrite read_imports.
  - cbn [bind]. apply lexed_app in W. unfold pack in W. apply lexed_app in W. unfold imp in W. apply lexed_app in W.
    rewrite (read_directives _ _ B Od W); [destruct f; reflexivity | lia].
  - exact Oi.
  - apply (body_starts _ _ _ B Od). cbn; auto.
  - rewrite app_length. pose proof (flat_length import_tokens (cfl_imports f) ltac:(discriminate)). lia.
Qed.
