(** Proofs that the syntax tree has the words of the parse tree. *)

Require Import ZArith String Ascii List Bool Lia.
From Verif Require Literals LiteralsSpec AstExpr AstTypes Files.
From Verif Require Import Packages Visitor VisitorSpec VisitorWords VisitorFacts.
Import ListNotations.
Open Scope string_scope.
Open Scope list_scope.

Lemma expr_shown : forall e, show_expr (visit_expr e) = expr_words e.
Proof.
  induction e; cbn [visit_expr show_expr expr_words]; rewrite ?IHe, ?IHe1, ?IHe2, ?IHe3; try reflexivity.
  - destruct op; reflexivity.
  - destruct op; cbn; rewrite ?IHe1, ?IHe2; reflexivity.
Qed.
Lemma opt_shown : forall o (w : list string), when (visit_opt o) (fun e => w ++ show_expr e) = when o (fun e => w ++ expr_words e).
Proof. intros [e|] w; cbn; [now rewrite expr_shown|reflexivity]. Qed.
Lemma opt_shown_cons : forall o (w : string), when (visit_opt o) (fun e => w :: show_expr e) = when o (fun e => w :: expr_words e).
Proof. intros [e|] w; cbn; [now rewrite expr_shown|reflexivity]. Qed.

Lemma join_dotted : forall l, join "." l = dotted_name l.
Proof. induction l as [|a l IH]; [reflexivity|]. destruct l as [|b l]; [reflexivity|]. cbn in *. now rewrite IH. Qed.
Lemma builtin_shown : forallb (fun t => if list_eq_dec string_dec (show_ref (visit_type t)) (type_words (strip_type t)) then true else false) builtins = true.
Proof. vm_compute. reflexivity. Qed.
Lemma dotted_snoc : forall l n, l <> [] -> dotted_name (l ++ [n]) = (dotted_name l ++ "." ++ n)%string.
Proof. intros l n H. rewrite <- !join_dotted. now apply join_snoc. Qed.
Lemma type_shown : forall t, proper_type t -> show_ref (visit_type t) = type_words (strip_type t).
Proof.
  assert (K : forall t, is_builtin t = true -> proper_type t -> show_ref (visit_type t) = type_words (strip_type t)).
  { intros t Hb Hp. pose proof builtin_shown as B. rewrite forallb_forall in B. specialize (B t (proper_builtin t Hp Hb)). cbv beta in B.
    destruct (list_eq_dec string_dec (show_ref (visit_type t)) (type_words (strip_type t))) as [E|]; [exact E|discriminate B]. }
  intros t. induction t as [n|s w|names args IH] using ctype_ind'; intros Hp; [now apply K|now apply K|].
  destruct Hp as (Hn & Hi & Ha). rewrite (visit_named names args Hn Hi). cbn [show_ref strip_type type_words]. f_equal; [|f_equal].
  - destruct (exists_last Hn) as (l & n & ->). rewrite removelast_last, last_last. destruct l as [|a l]; [reflexivity|].
    rewrite dotted_snoc by discriminate. rewrite join_dotted. apply Forall_app in Hi as [Hi _].
    destruct (String.eqb_spec (dotted_name (a :: l)) "") as [E|_]; [|reflexivity].
    exfalso. rewrite <- join_dotted in E. inversion Hi; subst. now apply (join_ident a l).
  - rewrite !map_map. apply proper_args in Ha. rewrite Forall_forall in IH, Ha. apply map_ext_in. auto.
Qed.
Lemma arg_shown : forall a, show_expr (visit_arg a) = arg_words (strip_arg a).
Proof. intros [n|e]; [reflexivity|]. cbn. apply expr_shown. Qed.
Lemma inst_shown : forall i, proper_inst i -> show_inst (visit_inst i) = inst_words (strip_inst i).
Proof.
  intros [t p] [Ht Hp]. unfold show_inst, visit_inst, inst_words, strip_inst. cbn [ci_type ci_params] in *.
  destruct p as [|l|e]; cbn [ti_ref ti_args ti_length map bracket when]; rewrite (type_shown t Ht); f_equal.
  - rewrite app_nil_r, !map_map. f_equal. apply map_ext. exact arg_shown.
  - cbn. now rewrite expr_shown.
Qed.

Import LiteralsSpec.
Definition value_of (l : Files.text) : Z := fold_left (fun z c => (z * 10 + (Z.of_nat (nat_of_ascii c) - 48))%Z) l 0%Z.
Definition digit_char (c : ascii) : bool := ((48 <=? nat_of_ascii c) && (nat_of_ascii c <=? 57))%nat.
Lemma digit_char_digit : forall c, digit_char c = true -> exists d, digit c d /\ (d < 10)%nat /\ Z.of_nat d = (Z.of_nat (nat_of_ascii c) - 48)%Z.
Proof.
  intros c H. apply andb_true_iff in H as [H1 H2]. apply Nat.leb_le in H1, H2. exists (nat_of_ascii c - 48)%nat. split; [|lia].
  left. rewrite <- (ascii_nat_embedding c) at 2. set (n := nat_of_ascii c) in *. clearbody n.
  do 48 (destruct n as [|n]; [lia|]). do 10 (destruct n as [|n]; [reflexivity|]). lia.
Qed.
Lemma numeral_value : forall l t z, numeral 10 t z -> forallb digit_char l = true ->
  numeral 10 (t ++ l) (fold_left (fun z c => (z * 10 + (Z.of_nat (nat_of_ascii c) - 48))%Z) l z).
Proof.
  induction l as [|c l IH]; intros t z H Hd; [now rewrite app_nil_r|].
  cbn in Hd. apply andb_true_iff in Hd as [Hc Hd]. destruct (digit_char_digit c Hc) as (d & D & Dl & De).
  cbn [fold_left]. rewrite <- De. replace (t ++ c :: l) with ((t ++ [c]) ++ l) by now rewrite <- app_assoc.
  apply IH; [|assumption]. constructor; [assumption|assumption|lia].
Qed.
Lemma small_numbers : forallb (fun n => match Files.decimal n with [] => false | c :: t => negb (c =? "0")%char && forallb digit_char (c :: t) && (value_of (c :: t) =? Z.of_nat n)%Z end) (seq 1 255) = true.
Proof. vm_compute. reflexivity. Qed.
Lemma small_literal : forall n, (1 <= n <= 255)%nat -> LiteralsSpec.int_literal Literals.TDecimal (Files.decimal n) (Z.of_nat n).
Proof.
  intros n Hn. pose proof small_numbers as S. rewrite forallb_forall in S. specialize (S n (proj2 (in_seq 255 1 n) ltac:(lia))). cbv beta in S.
  destruct (Files.decimal n) as [|c t]; [discriminate|]. apply andb_true_iff in S as [S1 S2]. apply andb_true_iff in S1 as [S0 S1].
  apply Z.eqb_eq in S2. rewrite <- S2. constructor; [now intros ->|]. apply (numeral_value (c :: t) [] 0%Z); [constructor|assumption].
Qed.

Lemma align_shown : forall a z, proper_align a -> align_of a = Some z ->
  (if (z =? 0)%Z then [] else ["align"; "("; number (Z.to_nat z); ")"; ":"]) =
  when (strip_align a) (fun e => ["align"; "("] ++ expr_words e ++ [")"; ":"]).
Proof.
  intros [e|] z Hp H; [|cbn in H; injection H as <-; reflexivity].
  destruct (align_other _ _ H) as (t & ->). destruct (Hp t eq_refl) as (z' & Hz). cbn [align_of] in H. rewrite (align_literal _ _ Hz) in H.
  destruct (Z.leb_spec z' 255); [|discriminate]. assert (z' = z) by congruence. subst z'.
  destruct (Z.eqb_spec z 0) as [->|Hn]; [now rewrite (literal_zero t Hz)|].
  assert (Hpos : (0 <= z)%Z) by (inversion Hz; subst; [lia|eapply numeral_nonneg; eassumption]).
  assert (E : number (Z.to_nat z) = t).
  { unfold number. rewrite <- (string_of_list_ascii_of_string t). f_equal. apply (decimal_literal_unique _ _ z); [|assumption].
    rewrite <- (Z2Nat.id z) at 2 by lia. apply small_literal. lia. }
  rewrite E. assert (Hs : strip_align (Some (CLiteral Literals.TDecimal t)) = Some (CLiteral Literals.TDecimal t)); [|rewrite Hs; reflexivity].
  destruct (string_dec t "0") as [->|Ht].
  - exfalso. apply Hn. inversion Hz; subst; [reflexivity|congruence].
  - unfold strip_align. destruct t as [|c t]; [reflexivity|]. destruct c as [[|] [|] [|] [|] [|] [|] [|] [|]]; try reflexivity. destruct t; [now elim Ht|reflexivity].
Qed.
Lemma field_type_shown : forall t n i a, proper_inst (ft_inst t) -> visit_field_type t = Some (n, i, a) ->
  when a (fun a => flag (a_packed a) "packed") ++ show_inst i ++ [n] ++ when a (fun a => ["["] ++ when (a_length a) show_expr ++ ["]"]) =
  field_type_words (strip_field_type t).
Proof.
  intros [p im inst n0 r] n i a Hp H. unfold visit_field_type, field_type_words, strip_field_type in *. cbn in Hp, H |- *.
  destruct r as [r|].
  - destruct im; [discriminate|]. inversion H; subst. cbn. rewrite (inst_shown _ Hp). destruct r as [r|]; cbn; rewrite ?expr_shown; reflexivity.
  - inversion H; subst. cbn. now rewrite (inst_shown _ Hp).
Qed.
Lemma field_shown : forall f x, proper_field f -> visit_field f = Some x -> show_field x ++ [";"] = field_words (strip_field f).
Proof.
  intros f x [Hi Ha] H. rewrite visit_field_eq in H. destruct (visit_field_type (cf_type f)) as [[[n t] a]|] eqn:Et; [|discriminate].
  destruct (align_of (cf_align f)) as [al|] eqn:El; [|discriminate]. injection H as <-.
  unfold show_field, field_words, strip_field. cbn [f_alignment f_optional f_array f_type f_name f_init f_if f_constraint
    cf_align cf_offset cf_extend cf_optional cf_type cf_init cf_if cf_constraint when flag app].
  rewrite <- (field_type_shown _ _ _ _ Hi Et), (align_shown _ _ Ha El), !opt_shown_cons. rewrite <- !app_assoc. cbn [app]. rewrite <- !app_assoc. reflexivity.
Qed.
Lemma choice_field_shown : forall f x, proper_choice_field f -> visit_choice_field f = Some x -> show_field x = choice_field_words (strip_choice_field f).
Proof.
  intros f x Hi H. unfold visit_choice_field in H. destruct (visit_field_type (ccf_type f)) as [[[n t] a]|] eqn:Et; [|discriminate]. injection H as <-.
  unfold show_field, choice_field_words, strip_choice_field. cbn [f_alignment f_optional f_array f_type f_name f_init f_if f_constraint ccf_type ccf_constraint when flag app Z.eqb].
  rewrite <- (field_type_shown _ _ _ _ Hi Et). now rewrite !app_nil_r.
Qed.
Lemma param_shown : forall l, Forall proper_param l -> map show_param (map visit_param l) = map param_words (map strip_param l).
Proof.
  intros l H. rewrite Forall_forall in H. rewrite !map_map. apply map_ext_in. intros [t n] Hx. specialize (H _ Hx).
  unfold show_param, visit_param, param_words, strip_param. cbn. now rewrite (type_shown t H).
Qed.
Lemma functions_shown : forall l, Forall proper_function l -> flat_map show_function (map visit_function l) = flat_map function_words (map strip_function l).
Proof.
  intros l H. induction H as [|f l Hf _ IH]; [reflexivity|]. cbn [map flat_map]. rewrite IH. f_equal.
  unfold show_function, visit_function, function_words, strip_function. cbn. now rewrite (type_shown _ Hf), expr_shown.
Qed.
Lemma all_shown : forall {A B} (f : A -> option B) (show : B -> list string) (words : A -> list string) (good : A -> Prop),
  (forall x y, good x -> f x = Some y -> show y = words x) ->
  forall l r, Forall good l -> visit_all f l = Some r -> flat_map show r = flat_map words l.
Proof.
  intros A B f show words good H. induction l as [|x l IH]; intros r Hg Hr; cbn in Hr.
  - injection Hr as <-. reflexivity.
  - destruct (f x) as [y|] eqn:E; [|discriminate]. destruct (visit_all f l) as [r'|] eqn:El; [|discriminate]. injection Hr as <-.
    inversion Hg; subst. cbn. rewrite (H x y) by assumption. f_equal. now apply IH.
Qed.
Lemma struct_shown : forall s x, proper_struct s -> visit_struct s = Some x -> show_struct x = struct_words (strip_struct s).
Proof.
  intros s x (H1 & H2 & H3) H. unfold visit_struct in H. destruct (visit_all visit_field (cs_fields s)) as [fs|] eqn:E; [|discriminate]. injection H as <-.
  unfold show_struct, struct_words, strip_struct. cbn [s_name s_templates s_params s_fields s_functions cs_name cs_templates cs_params cs_fields cs_functions].
  rewrite param_shown, functions_shown by assumption.
  rewrite (all_shown visit_field (fun f => show_field f ++ [";"]) (fun f => field_words (strip_field f)) proper_field field_shown _ _ H2 E).
  replace (flat_map field_words (map strip_field (cs_fields s))) with (flat_map (fun f => field_words (strip_field f)) (cs_fields s)); [reflexivity|].
  clear. induction (cs_fields s) as [|f l IH]; [reflexivity|]. cbn. now rewrite IH.
Qed.
Lemma flat_map_map : forall {A B C} (f : B -> list C) (g : A -> B) l, flat_map f (map g l) = flat_map (fun x => f (g x)) l.
Proof. intros A B C f g l. induction l as [|x l IH]; [reflexivity|]. cbn. now rewrite IH. Qed.
Lemma union_shown : forall u x, proper_union u -> visit_union u = Some x -> show_union x = union_words (strip_union u).
Proof.
  intros s x (H1 & H2 & H3) H. unfold visit_union in H. destruct (visit_all visit_choice_field (cu_fields s)) as [fs|] eqn:E; [|discriminate]. injection H as <-.
  unfold show_union, union_words, strip_union. cbn [u_name u_templates u_params u_fields u_functions cu_name cu_templates cu_params cu_fields cu_functions].
  rewrite param_shown, functions_shown by assumption. rewrite !flat_map_map.
  rewrite (all_shown visit_choice_field (fun f => show_field f ++ [";"]) (fun f => choice_field_words (strip_choice_field f) ++ [";"]) proper_choice_field
    (fun a b Ha Hb => f_equal (fun l => l ++ [";"]) (choice_field_shown a b Ha Hb)) _ _ H2 E). reflexivity.
Qed.
Lemma case_shown : forall c x, proper_slot (snd c) -> visit_case c = Some x ->
  flat_map (fun e => ["case"] ++ show_expr e ++ [":"]) (fst x) ++ when (snd x) show_field ++ [";"] =
  flat_map (fun e => ["case"] ++ expr_words e ++ [":"]) (fst (strip_case c)) ++ when (snd (strip_case c)) choice_field_words ++ [";"].
Proof.
  intros [l f] x Hp H. unfold visit_case in H. cbn [fst snd] in *.
  assert (L : flat_map (fun e => ["case"] ++ show_expr e ++ [":"]) (map visit_expr l) = flat_map (fun e => ["case"] ++ expr_words e ++ [":"]) l).
  { clear. rewrite flat_map_map. induction l as [|e l IH]; [reflexivity|]. cbn [flat_map]. now rewrite IH, expr_shown. }
  destruct f as [f|].
  - destruct (visit_choice_field f) as [y|] eqn:E; [|discriminate]. injection H as <-. unfold strip_case. cbn [fst snd option_map when].
    now rewrite L, (choice_field_shown f y Hp E).
  - injection H as <-. unfold strip_case. cbn [fst snd option_map when]. now rewrite L.
Qed.
Lemma choice_shown : forall c x, proper_choice c -> visit_choice c = Some x -> show_choice x = choice_words (strip_choice c).
Proof.
  intros c x (H1 & H2 & H3 & H4) H. rewrite visit_choice_eq in H. destruct (visit_all visit_case (cc_cases c)) as [cs|] eqn:E; [|discriminate].
  destruct (default_of (cc_default c)) as [d|] eqn:Ed; [|discriminate]. injection H as <-.
  unfold show_choice, choice_words, strip_choice. cbn [c_name c_templates c_params c_selector c_cases c_default c_functions cc_name cc_templates cc_params cc_on cc_cases cc_default cc_functions].
  rewrite param_shown, functions_shown by assumption. rewrite expr_shown, !flat_map_map.
  pose proof (all_shown visit_case _ _ (fun x => proper_slot (snd x)) case_shown _ _ H2 E) as K. unfold case in K, d |- *. unfold strip_case in K.
  match goal with |- context [flat_map ?f cs] => match type of K with flat_map ?g _ = _ => change (flat_map f cs) with (flat_map g cs) end end. rewrite K. clear K.
  replace (when (option_map (option_map strip_choice_field) (cc_default c)) (fun f => ["default"; ":"] ++ when f choice_field_words ++ [";"]))
    with (when d (fun x => ["default"; ":"] ++ when (snd x) show_field ++ [";"])); [reflexivity|].
  destruct (cc_default c) as [f|]; cbn [default_of] in Ed; [|injection Ed as <-; reflexivity].
  destruct (visit_case ([], f)) as [y|] eqn:Ey; [|discriminate]. injection Ed as <-. cbn [when option_map].
  pose proof (case_shown ([], f) y H3 Ey) as K. unfold visit_case in Ey. cbn [fst snd] in *.
  destruct f as [f|]; [destruct (visit_choice_field f); [|discriminate]|]; injection Ey as <-; cbn in K |- *; congruence.
Qed.
Lemma item_shown : forall n v, show_item (n, visit_opt v) = [n] ++ when v (fun e => ["="] ++ expr_words e).
Proof. intros n v. unfold show_item. cbn [fst snd]. now rewrite opt_shown. Qed.
Lemma enum_shown : forall e, proper_inst (ce_type e) -> show_enum (visit_enum e) = enum_words (strip_enum e).
Proof.
  intros e H. unfold show_enum, visit_enum, enum_words, strip_enum. cbn [e_type e_name e_items ce_type ce_name ce_items].
  rewrite (inst_shown _ H), !map_map. do 4 f_equal. f_equal. apply map_ext. intros [[m n] v]. apply item_shown.
Qed.
Lemma bitmask_shown : forall b, proper_inst (cb_type b) -> show_bitmask (visit_bitmask b) = bitmask_words (strip_bitmask b).
Proof.
  intros e H. unfold show_bitmask, visit_bitmask, bitmask_words, strip_bitmask. cbn [b_type b_name b_values cb_type cb_name cb_values].
  rewrite (inst_shown _ H), !map_map. do 4 f_equal. f_equal. apply map_ext. intros [n v]. apply item_shown.
Qed.
Lemma const_shown : forall t n e, proper_inst t -> show_const (visit_const t n e) = const_words (strip_inst t) n e.
Proof. intros t n e H. unfold show_const, visit_const, const_words. cbn. now rewrite (inst_shown _ H), expr_shown. Qed.
