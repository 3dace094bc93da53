(** The parser reads every schema file that can be written. *)

Require Import ZArith String Ascii List Bool Lia.
Require Import ZifyBool ZifyNat DecimalString DecimalNat.
From Verif Require Files FilesFacts Literals VisitorFacts.
From Verif Require Import Visitor Parser ParserSpec ParserFacts ParserTextFacts FileParser FileParserSpec.
Import ListNotations.
Open Scope nat_scope.
Open Scope string_scope.
Open Scope list_scope.

(** ** Lists *)

Lemma expect_ok n t r : expect n ((n, t) :: r) = Some r.
Proof. cbn. rewrite String.eqb_refl. reflexivity. Qed.
Lemma next_ok n t r : next_is n ((n, t) :: r) = true.
Proof. apply String.eqb_refl. Qed.

Lemma sep_cons {A} (tok : A -> list ptok) x y xs : sep_by COMMA (map tok (x :: y :: xs)) = tok x ++ COMMA :: sep_by COMMA (map tok (y :: xs)).
Proof. reflexivity. Qed.
Lemma items_read {A} p (tok : A -> list ptok) : forall xs fuel rest, xs <> [] -> length xs <= fuel -> next_is "COMMA" rest = false ->
  (forall x r, In x xs -> p (tok x ++ COMMA :: r) = Some (x, COMMA :: r)) -> (forall x, In x xs -> p (tok x ++ rest) = Some (x, rest)) ->
  items fuel p (sep_by COMMA (map tok xs) ++ rest) = Some (xs, rest).
Proof.
  induction xs as [|x xs IH]; intros fuel rest Hn Hf Hr H1 H2; [contradiction|]. destruct fuel as [|f]; [cbn in Hf; lia|].
  destruct xs as [|y xs].
  - cbn [map sep_by items]. rewrite (H2 x (or_introl eq_refl)). cbn [bind]. rewrite Hr. reflexivity.
  - rewrite sep_cons, <- app_assoc. cbn [app items]. rewrite (H1 x _ (or_introl eq_refl)). cbn [bind]. unfold COMMA at 1. rewrite next_ok. cbn [tl].
    rewrite IH; [reflexivity | discriminate | cbn in *; lia | exact Hr | |]; intros; [apply H1 | apply H2]; right; assumption.
Qed.
Lemma items_comma_read {A} p (tok : A -> list ptok) comma : forall xs fuel rest, xs <> [] -> length xs <= fuel ->
  (forall x r, In x xs -> p (tok x ++ COMMA :: r) = Some (x, COMMA :: r)) -> (forall x, In x xs -> p (tok x ++ RBRACE :: rest) = Some (x, RBRACE :: rest)) ->
  (forall x r, In x xs -> next_is "RBRACE" (tok x ++ r) = false) ->
  items_comma fuel p (sep_by COMMA (map tok xs) ++ flag comma "COMMA" "," ++ RBRACE :: rest) = Some (xs, RBRACE :: rest).
Proof.
  induction xs as [|x xs IH]; intros fuel rest Hn Hf H1 H2 H3; [contradiction|]. destruct fuel as [|f]; [cbn in Hf; lia|].
  destruct xs as [|y xs].
  - cbn [map sep_by items_comma]. destruct comma; cbn [flag app].
    + rewrite (H1 x _ (or_introl eq_refl)). reflexivity.
    + rewrite (H2 x (or_introl eq_refl)). reflexivity.
  - rewrite sep_cons, <- app_assoc. cbn [app items_comma]. rewrite (H1 x _ (or_introl eq_refl)). cbn [bind]. unfold COMMA at 1. rewrite next_ok. cbn [tl].
    replace (next_is "RBRACE" _) with false.
    + rewrite IH; [reflexivity | discriminate | cbn in *; lia | | |]; intros; [apply H1 | apply H2 | apply H3]; right; assumption.
    + symmetry. destruct xs as [|z xs]; [|rewrite sep_cons, <- app_assoc]; apply H3; right; left; reflexivity.
Qed.
Lemma many_read {A} stop p (tok : A -> list ptok) : forall xs fuel rest, length xs < fuel -> one_of_names stop rest = true ->
  well_lexed (flat_map tok xs ++ rest) ->
  (forall x r, In x xs -> one_of_names stop (tok x ++ r) = false) ->
  (forall x r, In x xs -> well_lexed (tok x ++ r) -> p (tok x ++ r) = Some (x, r)) ->
  many fuel stop p (flat_map tok xs ++ rest) = Some (xs, rest).
Proof.
  induction xs as [|x xs IH]; intros fuel rest Hf Hs W H1 H2; (destruct fuel as [|f]; [cbn in Hf; lia|]).
  - cbn [flat_map app many]. rewrite Hs. reflexivity.
  - cbn [flat_map] in *. rewrite <- app_assoc in *. cbn [many]. rewrite (H1 x _ (or_introl eq_refl)), (H2 x _ (or_introl eq_refl) W). cbn [bind].
    rewrite IH; [reflexivity | cbn in *; lia | exact Hs | eapply lexed_app; exact W | |]; intros; [apply H1 | apply H2]; try right; assumption.
Qed.
Lemma flat_length {A} (tok : A -> list ptok) xs : (forall x, In x xs -> tok x <> []) -> length xs <= length (flat_map tok xs).
Proof.
  induction xs as [|x xs IH]; intros H; [cbn; lia|]. cbn [flat_map length]. rewrite app_length.
  pose proof (H x (or_introl eq_refl)) as Hx. specialize (IH (fun y Hy => H y (or_intror Hy))). destruct (tok x); [contradiction | cbn; lia].
Qed.
Lemma sep_length {A} (tok : A -> list ptok) s xs : (forall x, In x xs -> tok x <> []) -> length xs <= length (sep_by s (map tok xs)).
Proof.
  induction xs as [|x xs IH]; intros H; [cbn; lia|].
  pose proof (H x (or_introl eq_refl)) as Hx. specialize (IH (fun y Hy => H y (or_intror Hy))).
  destruct xs as [|y xs]; cbn [map sep_by length] in *; [destruct (tok x); [contradiction | cbn; lia]|].
  rewrite app_length. cbn [length]. lia.
Qed.
Lemma sep_part {A} (tok : A -> list ptok) s xs x : In x xs -> length (tok x) <= length (sep_by s (map tok xs)).
Proof.
  induction xs as [|y xs IH]; intros H; [contradiction|]. destruct xs as [|z xs].
  - destruct H as [->|[]]. cbn. lia.
  - change (length (tok x) <= length (tok y ++ s :: sep_by s (map tok (z :: xs)))). rewrite app_length. cbn [length].
    destruct H as [->|H]; [lia|]. specialize (IH H). lia.
Qed.
Lemma all_in {A} (P : A -> Prop) l : all P l -> forall x, In x l -> P x.
Proof. induction l as [|y l IH]; intros H x Hx; [contradiction|]. destruct H as [H1 H2]. destruct Hx as [->|Hx]; [exact H1 | exact (IH H2 x Hx)]. Qed.

(** ** Expressions *)

Lemma ends_tok n t r : existsb (String.eqb n) continues = false -> ends ((n, t) :: r).
Proof.
  cbn [ends]. intros H Hin. assert (existsb (String.eqb n) continues = true) by (apply existsb_exists; exists n; split; [exact Hin | apply String.eqb_refl]).
  congruence.
Qed.
Lemma read_expr e p r : proper e -> existsb (String.eqb (fst p)) continues = false ->
  parse_expression false (expr_tokens e ++ p :: r) = Some (e, p :: r).
Proof. intros P H. destruct p as [n t]. apply reads_expression; [exact P | apply ends_tok, H]. Qed.

(** The kinds of tokens in expressions. *)
Definition expr_kinds : list string :=
  ["LPAREN"; "RPAREN"; "LBRACKET"; "RBRACKET"; "DOT"; "COMMA"; "QUESTIONMARK"; "COLON"; "ISSET"; "LENGTHOF"; "VALUEOF"; "NUMBITS"; "INDEX";
   "BANG"; "TILDE"; "MULTIPLY"; "DIVIDE"; "MODULO"; "PLUS"; "MINUS"; "LSHIFT"; "GT"; "LT"; "LE"; "GE"; "EQ"; "NE"; "AND"; "XOR"; "OR";
   "LOGICAL_AND"; "LOGICAL_OR"; "ID"; "BINARY_LITERAL"; "OCTAL_LITERAL"; "DECIMAL_LITERAL"; "HEXADECIMAL_LITERAL"; "BOOL_LITERAL";
   "STRING_LITERAL"; "FLOAT_LITERAL"; "DOUBLE_LITERAL"].
Definition expr_kind (n : string) : bool := existsb (String.eqb n) expr_kinds.
Lemma expr_head e r : exists n t r', expr_tokens e ++ r = (n, t) :: r' /\ expr_kind n = true /\ n <> "RPAREN" /\ n <> "RBRACKET" /\ n <> "COLON".
Proof.
  revert r. induction e; intros r; cbn [expr_tokens]; repeat (rewrite <- app_assoc; cbn [app]); cbn [app]; try apply IHe; try apply IHe1;
    try (eexists _, _, _; split; [reflexivity | repeat split; discriminate]).
  - destruct op; eexists _, _, _; (split; [reflexivity | repeat split; discriminate]).
  - destruct k; eexists _, _, _; (split; [reflexivity | repeat split; discriminate]).
Qed.
Lemma expr_next n e r : expr_kind n = false \/ In n ["RPAREN"; "RBRACKET"; "COLON"] -> next_is n (expr_tokens e ++ r) = false.
Proof.
  intros H. destruct (expr_head e r) as (m & t & r' & -> & K & N). cbn [next_is]. apply String.eqb_neq. intros ->.
  destruct H as [H|H]; [congruence|]. cbn in H. intuition congruence.
Qed.

(** The first colon that does not belong to a question mark, if only tokens of expressions
    come before it; what comes after it. *)
Fixpoint surplus (d : nat) (l : list ptok) : option (list ptok) :=
  match l with
  | [] => None
  | (n, _) :: l' =>
      if negb (expr_kind n) then None
      else if String.eqb n "QUESTIONMARK" then surplus (S d) l'
      else if String.eqb n "COLON" then match d with 0 => Some l' | S d' => surplus d' l' end
      else surplus d l'
  end.
Lemma surplus_expr : forall e d l, surplus d (expr_tokens e ++ l) = surplus d l.
Proof.
  induction e; intros d l; cbn [expr_tokens]; repeat (rewrite <- app_assoc; cbn [app]); cbn [app].
  - cbn. repeat rewrite <- app_assoc. rewrite IHe. reflexivity.
  - rewrite IHe. reflexivity.
  - rewrite IHe1. cbn. repeat rewrite <- app_assoc. rewrite IHe2. reflexivity.
  - rewrite IHe. reflexivity.
  - cbn. repeat rewrite <- app_assoc. rewrite IHe1. cbn. repeat rewrite <- app_assoc. rewrite IHe2. reflexivity.
  - cbn. repeat rewrite <- app_assoc. rewrite IHe. reflexivity.
  - cbn. repeat rewrite <- app_assoc. rewrite IHe. reflexivity.
  - cbn. repeat rewrite <- app_assoc. rewrite IHe. reflexivity.
  - destruct op; cbn; apply IHe.
  - rewrite IHe1. destruct op; cbn; apply IHe2.
  - rewrite IHe1. cbn. repeat rewrite <- app_assoc. rewrite IHe2. cbn. apply IHe3.
  - destruct k; reflexivity.
  - reflexivity.
  - reflexivity.
Qed.
Lemma not_primary n t r i f : expr_kind n = false -> primary f i ((n, t) :: r) = None.
Proof.
  intros H. destruct f as [|f]; [reflexivity|]. cbn [primary].
  assert (Q : forall m, expr_kind m = true -> String.eqb n m = false) by (intros m Hm; apply String.eqb_neq; intros ->; congruence).
  rewrite (Q "LPAREN" eq_refl), (Q "ISSET" eq_refl), (Q "INDEX" eq_refl), (Q "ID" eq_refl).
  unfold builtins, unops, literals. cbn [lookup].
  rewrite (Q "LENGTHOF" eq_refl), (Q "VALUEOF" eq_refl), (Q "NUMBITS" eq_refl), (Q "PLUS" eq_refl), (Q "MINUS" eq_refl), (Q "BANG" eq_refl), (Q "TILDE" eq_refl),
    (Q "BINARY_LITERAL" eq_refl), (Q "OCTAL_LITERAL" eq_refl), (Q "DECIMAL_LITERAL" eq_refl), (Q "HEXADECIMAL_LITERAL" eq_refl), (Q "BOOL_LITERAL" eq_refl),
    (Q "STRING_LITERAL" eq_refl), (Q "FLOAT_LITERAL" eq_refl), (Q "DOUBLE_LITERAL" eq_refl). reflexivity.
Qed.
Lemma not_expression n t r i p f : expr_kind n = false -> expression f i p ((n, t) :: r) = None.
Proof. intros H. destruct f as [|f]; [reflexivity|]. cbn [expression]. rewrite not_primary by exact H. reflexivity. Qed.
Lemma not_start n t r i : expr_kind n = false -> parse_expression i ((n, t) :: r) = None.
Proof. apply not_expression. Qed.

(** ** Types *)

Lemma name_cons n l : name_tokens (n :: l) = tok_id n :: flat_map (fun n => [DOT; tok_id n]) l.
Proof.
  revert n. induction l as [|m l IH]; intros n; [reflexivity|].
  change (name_tokens (n :: m :: l)) with (tok_id n :: DOT :: name_tokens (m :: l)). rewrite IH. reflexivity.
Qed.
Lemma dots_read : forall l rest, next_is "DOT" rest = false -> dots (flat_map (fun n => [DOT; tok_id n]) l ++ rest) = (l, rest).
Proof.
  induction l as [|n l IH]; intros rest H.
  - cbn [flat_map app]. destruct rest as [|[a t] [|[b u] r]]; try reflexivity. cbn [dots next_is] in *. rewrite H. reflexivity.
  - change (flat_map (fun n => [DOT; tok_id n]) (n :: l)) with (DOT :: tok_id n :: flat_map (fun n => [DOT; tok_id n]) l). cbn [app dots DOT tok_id].
    change (dots (("DOT", ".") :: ("ID", n) :: flat_map (fun n => [DOT; tok_id n]) l ++ rest) = (n :: l, rest)).
    cbn [dots]. rewrite (IH rest H). reflexivity.
Qed.
Lemma width_read w : width_of (number w) = Some w.
Proof.
  unfold width_of, number. rewrite FilesFacts.decimal_uint. unfold Files.str. rewrite string_of_list_ascii_of_string, NilEmpty.usu. cbn [option_map].
  rewrite Unsigned.of_to. reflexivity.
Qed.
Lemma keyword_read n : lookup n type_names <> None -> exists k, keyword_token n = (k, n) /\ lookup k type_keywords = Some n.
Proof.
  intros H. unfold keyword_token. destruct (lookup n type_names) as [k|] eqn:E; [|contradiction]. exists k. split; [reflexivity|].
  apply lookup_in in E. repeat (destruct E as [E|E]; [injection E as <- <-; reflexivity|]). destruct E.
Qed.
Definition type_follow (t : ctype) (rest : list ptok) : Prop :=
  match t with
  | CNamed _ [] => next_is "DOT" rest = false /\ next_is "LT" rest = false
  | CBitField _ None => next_is "COLON" rest = false
  | _ => True
  end.
Lemma type_nonempty t : type_ok t -> type_tokens t <> [].
Proof. destruct t as [n|s w|[|n l] args]; cbn; intros H; try discriminate. - destruct H as [H _]. contradiction. - destruct l; discriminate. Qed.
Lemma args_in args : fold_right (fun a P => type_ok a /\ P) True args -> forall a, In a args -> type_ok a.
Proof. induction args as [|b args IH]; intros H a Ha; [contradiction|]. destruct H as [H1 H2]. destruct Ha as [->|Ha]; [exact H1 | exact (IH H2 a Ha)]. Qed.
Lemma bracket_some a b l : l <> [] -> bracket a b l = a :: sep_by COMMA l ++ [b].
Proof. destruct l; [contradiction | reflexivity]. Qed.
Lemma type_ref_read : forall t fuel rest, type_ok t -> type_follow t rest -> length (type_tokens t) < fuel ->
  type_ref fuel (type_tokens t ++ rest) = Some (t, rest).
Proof.
  induction t as [n|s w|names args IH] using VisitorFacts.ctype_ind'; intros fuel rest Ok F L; (destruct fuel as [|f]; [lia|]).
  - destruct (keyword_read n Ok) as (k & E & K). cbn [type_tokens app]. rewrite E. cbn [type_ref]. rewrite K. reflexivity.
  - destruct w as [w|]; destruct s; cbn [type_tokens when app type_ref lookup type_keywords String.eqb Ascii.eqb Bool.eqb]; unfold bit_width;
      try (change (next_is "COLON" (COLON :: ("DECIMAL_LITERAL", number w) :: rest)) with true; cbn [tl String.eqb Ascii.eqb Bool.eqb]; rewrite width_read; reflexivity);
      cbn [type_follow] in F; rewrite F; reflexivity.
  - destruct Ok as [Hn Ha]. destruct names as [|n l]; [contradiction|]. cbn [type_tokens] in *. rewrite name_cons in *.
    change ((tok_id n :: flat_map (fun n => [DOT; tok_id n]) l) ++ bracket LT GT (map type_tokens args)) with
      (tok_id n :: flat_map (fun n => [DOT; tok_id n]) l ++ bracket LT GT (map type_tokens args)) in *.
    cbn [app type_ref tok_id lookup type_keywords String.eqb Ascii.eqb Bool.eqb]. rewrite <- app_assoc. rewrite dots_read.
    + destruct args as [|a args].
      * cbn [map bracket app]. unfold bracketed. destruct F as [_ F]. rewrite F. reflexivity.
      * assert (N : map type_tokens (a :: args) <> []) by discriminate. rewrite (bracket_some _ _ _ N) in *. clear N.
        unfold bracketed. change (next_is "LT" ((LT :: sep_by COMMA (map type_tokens (a :: args)) ++ [GT]) ++ rest)) with true. cbn [app tl]. rewrite <- app_assoc. cbn [app].
        cbn [length] in L. rewrite app_length in L. cbn [length] in L. rewrite app_length in L. cbn [length] in L.
        assert (In_ok := args_in _ Ha).
        assert (Len : length (a :: args) <= length (sep_by COMMA (map type_tokens (a :: args)))) by (apply sep_length; intros x Hx; apply type_nonempty, In_ok, Hx).
        rewrite items_read.
        -- reflexivity.
        -- discriminate.
        -- lia.
        -- reflexivity.
        -- intros x r Hx. rewrite Forall_forall in IH. apply (IH x Hx); [exact (In_ok x Hx) | destruct x as [|? [|]|? []]; cbn; auto |].
           pose proof (sep_part type_tokens COMMA _ _ Hx). lia.
        -- intros x Hx. rewrite Forall_forall in IH. apply (IH x Hx); [exact (In_ok x Hx) | destruct x as [|? [|]|? []]; cbn; auto |].
           pose proof (sep_part type_tokens COMMA _ _ Hx). lia.
    + destruct args as [|a args]; [exact (proj1 F) | reflexivity].
Qed.
Lemma read_type t rest : type_ok t -> type_follow t rest -> parse_type (type_tokens t ++ rest) = Some (t, rest).
Proof. intros Ok F. apply type_ref_read; [exact Ok | exact F | rewrite app_length; lia]. Qed.
Lemma follow_id t n r : type_follow t (tok_id n :: r).
Proof. destruct t as [|? [|]|? []]; cbn; auto. Qed.

Lemma read_arg a p r : arg_ok a -> existsb (String.eqb (fst p)) continues = false -> type_argument (arg_tokens a ++ p :: r) = Some (a, p :: r).
Proof.
  intros Ok E. destruct a as [x|e]; [reflexivity|]. cbn [arg_tokens]. unfold type_argument. rewrite expr_next by (left; reflexivity).
  rewrite read_expr by assumption. reflexivity.
Qed.
Lemma expr_nonempty e : expr_tokens e <> [].
Proof. destruct (expr_head e []) as (n & t & r & E & _). rewrite app_nil_r in E. rewrite E. discriminate. Qed.
Lemma arg_nonempty a : arg_tokens a <> [].
Proof. destruct a; [discriminate | apply expr_nonempty]. Qed.
Lemma read_inst i rest : inst_ok true i -> after_length (GT :: rest) -> type_inst (inst_tokens i ++ rest) = Some (i, rest).
Proof.
  intros [Ok P] A.
  assert (R : exists x r, rest = tok_id x :: r) by (inversion A; subst; eexists _, _; reflexivity).
  unfold type_inst, inst_tokens. rewrite <- app_assoc. destruct i as [t p]. cbn [ci_type ci_params] in *. destruct p as [|l|e].
  - cbn [app]. destruct R as (x & r & ->). rewrite read_type; [reflexivity | exact Ok | apply follow_id].
  - destruct P as [Hn Hl]. cbn [app]. rewrite <- app_assoc. cbn [app]. rewrite read_type; [|exact Ok | destruct t as [|? [|]|? []]; cbn; auto].
    cbn [bind]. change (next_is "LPAREN" (LP :: ?x)) with true. cbn [tl].
    rewrite items_read; [reflexivity | exact Hn | | reflexivity | |].
    + cbn [length]. rewrite app_length. pose proof (sep_length arg_tokens COMMA l (fun x _ => arg_nonempty x)). lia.
    + intros x r Hx. apply read_arg; [exact (all_in _ _ Hl x Hx) | reflexivity].
    + intros x Hx. apply read_arg; [exact (all_in _ _ Hl x Hx) | reflexivity].
  - destruct P as [Hp Ht]. specialize (Ht eq_refl). cbn [app]. rewrite <- app_assoc. cbn [app]. rewrite read_type; [|exact Ok | destruct t as [|? [|]|? []]; cbn; auto; contradiction].
    cbn [bind]. change (next_is "LPAREN" (LT :: ?x)) with false. change (next_is "LT" (LT :: ?x)) with true. cbn [tl].
    rewrite reads_length by assumption. reflexivity.
Qed.

(** ** Fields *)

Definition declared_end (rest : list ptok) : Prop := exists n t r, rest = (n, t) :: r /\ In n after_declared.
Lemma declared_length x range rest : declared_end rest -> after_length (GT :: tok_id x :: when range range_tokens ++ rest).
Proof.
  intros (n & t & r & -> & H). destruct range as [e|]; cbn [when app].
  - unfold range_tokens. cbn [app]. rewrite <- app_assoc. cbn [app].
    replace (when e expr_tokens) with (match e with Some e => expr_tokens e | None => [] end) by (destruct e; reflexivity). apply ALArray, H.
  - apply ALName, H.
Qed.
Lemma read_range range rest : opt_ok (opt_ok proper) range -> next_is "LBRACKET" rest = false -> array_range (when range range_tokens ++ rest) = Some (range, rest).
Proof.
  intros P H. unfold array_range. destruct range as [[e|]|]; cbn [when app range_tokens].
  - change (next_is "LBRACKET" (LBRACKET :: ?x)) with true. cbn [tl]. rewrite <- app_assoc. cbn [app]. rewrite expr_next by (right; cbn; auto).
    rewrite read_expr by (assumption || reflexivity). reflexivity.
  - reflexivity.
  - rewrite H. reflexivity.
Qed.
Lemma read_flag b n t r : next_is n r = false -> keyword_opt n (flag b n t ++ r) = (b, r).
Proof. intros H. unfold keyword_opt. destruct b; cbn [flag app]; [rewrite next_ok; reflexivity | rewrite H; reflexivity]. Qed.
Lemma flag_next m b n t r : String.eqb n m = false -> next_is m (flag b n t ++ r) = next_is m r \/ (next_is m (flag b n t ++ r) = false).
Proof. intros H. destruct b; [right; exact H | left; reflexivity]. Qed.
(** The tokens that types begin with. *)
Definition type_starts : list string := ["ID"; "BIT_FIELD"; "INT_FIELD"] ++ map fst type_keywords.
Lemma type_next m t r : type_ok t -> existsb (String.eqb m) type_starts = false -> next_is m (type_tokens t ++ r) = false.
Proof.
  intros Ok H. assert (K : forall n, In n type_starts -> String.eqb n m = false).
  { intros n Hn. apply String.eqb_neq. intros ->. assert (existsb (String.eqb m) type_starts = true) by (apply existsb_exists; exists m; split; [exact Hn | apply String.eqb_refl]).
    congruence. }
  destruct t as [n|s w|[|n l] args]; cbn [type_tokens].
  - destruct (keyword_read n Ok) as (k & -> & E). cbn [app next_is]. apply K, in_or_app. right. apply lookup_in in E. apply (in_map fst) in E. exact E.
  - destruct s; cbn [app next_is]; apply K; cbn; auto.
  - destruct Ok as [Ok _]. contradiction.
  - rewrite name_cons. cbn [app next_is tok_id]. apply K. cbn; auto.
Qed.
Lemma inst_next m i r : inst_ok true i -> existsb (String.eqb m) type_starts = false -> next_is m (inst_tokens i ++ r) = false.
Proof. intros [Ok _] H. unfold inst_tokens. rewrite <- app_assoc. apply type_next; assumption. Qed.
Lemma read_field_type t rest : field_type_ok true t -> declared_end rest -> field_type (field_type_tokens t ++ rest) = Some (t, rest).
Proof.
  intros [Oi Or] D. destruct t as [packed implicit i n range]. unfold field_type, field_type_tokens. cbn [ft_packed ft_implicit ft_inst ft_name ft_range] in *.
  rewrite <- !app_assoc. cbn [app].
  rewrite read_flag.
  - rewrite read_flag by (apply inst_next; [exact Oi | reflexivity]). rewrite read_inst by (try exact Oi; apply declared_length, D). cbn [bind tok_id identifier].
    change (String.eqb "ID" "ID") with true. cbv iota. cbn [bind].
    rewrite read_range; [reflexivity | exact Or|]. destruct D as (m & t & r & -> & D). cbn [next_is].
    apply String.eqb_neq. intros ->. cbn in D. intuition discriminate.
  - destruct implicit; [reflexivity|]. cbn [flag app]. apply inst_next; [exact Oi | reflexivity].
Qed.
Lemma read_clause n t o f m u r : opt_ok proper o -> f = (fun e => (n, t) :: expr_tokens e) -> String.eqb m n = false -> existsb (String.eqb m) continues = false ->
  clause n (parse_expression false) (when o f ++ (m, u) :: r) = Some (o, (m, u) :: r).
Proof.
  intros P -> N E. unfold clause. destruct o as [e|]; cbn [when app].
  - rewrite next_ok. cbn [tl]. rewrite read_expr by assumption. reflexivity.
  - cbn [next_is]. rewrite N. reflexivity.
Qed.
(** The first token of an optional clause and what comes after. *)
Lemma when_head (o : option cexpr) n t f r (P : string -> Prop) : f = (fun e => (n, t) :: expr_tokens e) -> P n ->
  (exists m u r', r = (m, u) :: r' /\ P m) -> exists m u r', when o f ++ r = (m, u) :: r' /\ P m.
Proof. intros -> Hn H. destruct o as [e|]; cbn [when app]; [eexists _, _, _; split; [reflexivity | exact Hn] | exact H]. Qed.
Lemma field_rest_read al off f rest : field_ok true f ->
  field_rest al off (flag (cf_extend f) "EXTEND" "extend" ++ flag (cf_optional f) "OPTIONAL" "optional" ++ field_type_tokens (cf_type f) ++
    when (cf_init f) (fun e => ("ASSIGN", "=") :: expr_tokens e) ++ when (cf_if f) (fun e => ("IF", "if") :: expr_tokens e) ++
    constraint_tokens (cf_constraint f) ++ SEMI :: rest)
  = Some (mkCF al off (cf_extend f) (cf_optional f) (cf_type f) (cf_init f) (cf_if f) (cf_constraint f), rest).
Proof.
  intros (_ & _ & Ot & Oi & Oc & Ok & _). destruct f as [al' off' ext opt t init cond con]. cbn [cf_extend cf_optional cf_type cf_init cf_if cf_constraint] in *.
  unfold field_rest.
  assert (T : forall m r, existsb (String.eqb m) ("PACKED" :: "IMPLICIT" :: type_starts) = false -> next_is m (field_type_tokens t ++ r) = false).
  { intros m r H. cbn [existsb] in H. apply orb_false_elim in H. destruct H as [H1 H]. apply orb_false_elim in H. destruct H as [H2 H].
    rewrite String.eqb_sym in H1, H2. unfold field_type_tokens. rewrite <- !app_assoc.
    destruct (ft_packed t); [exact H1|]. destruct (ft_implicit t); [exact H2|]. cbn [flag app]. apply inst_next; [exact (proj1 Ot) | exact H]. }
  rewrite read_flag.
  2:{ destruct opt; [reflexivity|]. cbn [flag app]. apply T. reflexivity. }
  rewrite read_flag by (apply T; reflexivity).
  set (P := fun m : string => In m ["SEMICOLON"; "COLON"; "IF"; "ASSIGN"]).
  set (Q := fun m : string => In m ["SEMICOLON"; "COLON"; "IF"]).
  set (R := fun m : string => In m ["SEMICOLON"; "COLON"]).
  assert (HR : exists m u r', constraint_tokens con ++ SEMI :: rest = (m, u) :: r' /\ R m).
  { unfold constraint_tokens. eapply when_head; [reflexivity | cbn; auto|]. eexists _, _, _. split; [reflexivity | cbn; auto]. }
  assert (HQ : exists m u r', when cond (fun e => ("IF", "if") :: expr_tokens e) ++ constraint_tokens con ++ SEMI :: rest = (m, u) :: r' /\ Q m).
  { eapply when_head; [reflexivity | cbn; auto|]. destruct HR as (m & u & r' & E & H). exists m, u, r'. split; [exact E|]. cbn in *. tauto. }
  assert (HP : declared_end (when init (fun e => ("ASSIGN", "=") :: expr_tokens e) ++ when cond (fun e => ("IF", "if") :: expr_tokens e) ++ constraint_tokens con ++ SEMI :: rest)).
  { apply (when_head init "ASSIGN" "=" _ _ (fun m => In m after_declared)); [reflexivity | cbn; auto|].
    destruct HQ as (m & u & r' & E & H). exists m, u, r'. split; [exact E|]. cbn in *. tauto. }
  rewrite read_field_type by assumption. cbn [bind].
  destruct HQ as (m & u & r' & E & H). rewrite E. rewrite (read_clause "ASSIGN" "="); [|exact Oi | reflexivity | |].
  2,3: cbn in H; repeat (destruct H as [<-|H]; [reflexivity|]); contradiction.
  cbn [bind]. rewrite <- E. clear m u r' E H.
  destruct HR as (m & u & r' & E & H). rewrite E. rewrite (read_clause "IF" "if"); [|exact Oc | reflexivity | |].
  2,3: cbn in H; repeat (destruct H as [<-|H]; [reflexivity|]); contradiction.
  cbn [bind]. rewrite <- E. unfold SEMI, constraint_tokens. rewrite (read_clause "COLON" ":"); [reflexivity | exact Ok | reflexivity..].
Qed.

(** ** Whether a field has an offset *)

(** Soundness of types: the kinds of the tokens. *)
Definition consumed (ts : list ptok) (k : list ptok) (r : list ptok) : Prop := exists pre, ts = pre ++ r /\ map fst pre = map fst k.
Lemma consumed_app ts a r b r' : consumed ts a r -> consumed r b r' -> consumed ts (a ++ b) r'.
Proof. intros (p & -> & E) (q & -> & F). exists (p ++ q). rewrite app_assoc. split; [reflexivity|]. rewrite !map_app. f_equal; assumption. Qed.
Lemma consumed_one n t u r : consumed ((n, t) :: r) [(n, u)] r.
Proof. exists [(n, t)]. split; reflexivity. Qed.
Lemma consumed_nil r : consumed r [] r.
Proof. exists []. split; reflexivity. Qed.
Lemma next_head n ts : next_is n ts = true -> exists t, ts = (n, t) :: tl ts.
Proof. destruct ts as [|[m t] r]; cbn; [discriminate|]. intros H. apply String.eqb_eq in H. subst m. exists t. reflexivity. Qed.
Lemma expect_head n ts r : expect n ts = Some r -> exists t, ts = (n, t) :: r.
Proof. destruct ts as [|[m t] r']; cbn; [discriminate|]. destruct (String.eqb m n) eqn:E; [|discriminate]. apply String.eqb_eq in E. intros [= <-]. subst m. exists t. reflexivity. Qed.
Lemma next_consumed n u ts : next_is n ts = true -> consumed ts [(n, u)] (tl ts).
Proof. intros H. destruct (next_head n ts H) as [t E]. rewrite E at 1. apply consumed_one. Qed.
Lemma expect_consumed n u ts r : expect n ts = Some r -> consumed ts [(n, u)] r.
Proof. intros H. destruct (expect_head n ts r H) as [t ->]. apply consumed_one. Qed.
Lemma identifier_consumed ts n r : identifier ts = Some (n, r) -> consumed ts [tok_id n] r.
Proof. destruct ts as [|[m t] r']; cbn; [discriminate|]. destruct (String.eqb m "ID") eqn:E; [|discriminate]. apply String.eqb_eq in E. intros [= <- <-]. subst m. apply consumed_one. Qed.
Lemma consumed_lexed ts k r : consumed ts k r -> well_lexed ts -> well_lexed r.
Proof. intros (p & -> & _). apply lexed_app. Qed.
Lemma items_consumed {A} p (tok : A -> list ptok) (W : list ptok -> Prop) (ok : A -> Prop) : (forall ts x r, W ts -> p ts = Some (x, r) -> consumed ts (tok x) r /\ W r /\ ok x) ->
  (forall a ts, W (a :: ts) -> W ts) ->
  forall fuel ts xs r, W ts -> items fuel p ts = Some (xs, r) -> consumed ts (sep_by COMMA (map tok xs)) r /\ W r /\ xs <> [] /\ all ok xs.
Proof.
  intros Hp Hw. induction fuel as [|f IH]; intros ts xs r Wt H; [discriminate|]. cbn [items] in H. apply bind_some in H. destruct H as ([x r1] & E & H).
  destruct (Hp _ _ _ Wt E) as (C & W1 & O1). destruct (next_is "COMMA" r1) eqn:N.
  - apply bind_some in H. destruct H as ([ys r2] & E2 & [= <- <-]).
    destruct (IH (tl r1) ys r2) as (C2 & W2 & Y & O2); [|exact E2|].
    + destruct (next_head _ _ N) as [t Et]. rewrite Et in W1. exact (Hw _ _ W1).
    + destruct ys as [|y ys]; [contradiction|]. split; [|split; [exact W2 | split; [discriminate | split; assumption]]]. rewrite sep_cons. eapply consumed_app; [exact C|].
      change (COMMA :: sep_by COMMA (map tok (y :: ys))) with ([COMMA] ++ sep_by COMMA (map tok (y :: ys))).
      eapply consumed_app; [apply (next_consumed _ _ _ N) | exact C2].
  - injection H as <- <-. split; [exact C | split; [exact W1 | split; [discriminate | split; [exact O1 | exact I]]]].
Qed.
Lemma dots_consumed : forall n ts l r, length ts <= n -> dots ts = (l, r) -> consumed ts (flat_map (fun n => [DOT; tok_id n]) l) r.
Proof.
  induction n as [|n IH]; intros ts l r L H; destruct ts as [|[a t] [|[b u] ts]]; cbn [dots length] in *; try lia; try (injection H as <- <-; apply consumed_nil).
  destruct (String.eqb a "DOT" && String.eqb b "ID") eqn:E; [|injection H as <- <-; apply consumed_nil].
  apply andb_prop in E. destruct E as [Ea Eb]. apply String.eqb_eq in Ea, Eb. subst a b. destruct (dots ts) as [l' r'] eqn:D. injection H as <- <-.
  assert (L' : length ts <= n) by (cbn in L; clear - L; lia). change (flat_map (fun n => [DOT; tok_id n]) (u :: l')) with ([DOT; tok_id u] ++ flat_map (fun n => [DOT; tok_id n]) l').
  eapply consumed_app; [|exact (IH _ _ _ L' D)]. exists [("DOT", t); ("ID", u)]. split; reflexivity.
Qed.
Lemma args_all args : all type_ok args -> fold_right (fun a P => type_ok a /\ P) True args.
Proof. induction args as [|a args IH]; [auto|]. intros [H1 H2]. split; [exact H1 | exact (IH H2)]. Qed.
Lemma type_consumed : forall fuel ts t r, type_ref fuel ts = Some (t, r) -> consumed ts (type_tokens t) r /\ type_ok t.
Proof.
  induction fuel as [|f IH]; intros ts t r H; destruct ts as [|[n u] ts]; try discriminate. cbn [type_ref] in H.
  destruct (lookup n type_keywords) as [k|] eqn:K.
  - injection H as <- <-. cbn [type_tokens]. apply lookup_in in K.
    repeat (destruct K as [K|K]; [injection K as <- <-; split; [apply consumed_one | discriminate]|]). destruct K.
  - assert (B : forall s k, bit_width s ts = Some (t, r) -> k = (if s then ("INT_FIELD", "int") else ("BIT_FIELD", "bit")) -> fst k = n -> consumed ((n, u) :: ts) (type_tokens t) r /\ type_ok t).
    { intros s k E -> Hk. unfold bit_width in E. destruct (next_is "COLON" ts) eqn:C.
      - destruct (next_head _ _ C) as [c Ec]. destruct (tl ts) as [|[m w] ts'] eqn:T; [discriminate|]. destruct (String.eqb m "DECIMAL_LITERAL") eqn:D; [|discriminate].
        apply String.eqb_eq in D. subst m. apply bind_some in E. destruct E as (w' & _ & [= <- <-]). rewrite Ec.
        split; [|exact I]. exists [(n, u); ("COLON", c); ("DECIMAL_LITERAL", w)]. split; [reflexivity|]. destruct s; cbn in *; congruence.
      - injection E as <- <-. split; [|exact I]. exists [(n, u)]. split; [reflexivity|]. destruct s; cbn in *; congruence. }
    destruct (String.eqb n "BIT_FIELD") eqn:E1; [apply String.eqb_eq in E1; eapply B; [exact H | reflexivity | symmetry; exact E1]|].
    destruct (String.eqb n "INT_FIELD") eqn:E2; [apply String.eqb_eq in E2; eapply B; [exact H | reflexivity | symmetry; exact E2]|].
    destruct (String.eqb n "ID") eqn:E3; [|discriminate]. apply String.eqb_eq in E3. subst n. destruct (dots ts) as [l r1] eqn:D.
    apply dots_consumed with (n := length ts) in D; [|lia].
    assert (D' : consumed (("ID", u) :: ts) (name_tokens (u :: l)) r1).
    { rewrite name_cons. change (tok_id u :: flat_map (fun n => [DOT; tok_id n]) l) with ([tok_id u] ++ flat_map (fun n => [DOT; tok_id n]) l).
      eapply consumed_app; [apply consumed_one | exact D]. }
    destruct (bracketed f "LT" "GT" (type_ref f) r1) as [[args r2]|] eqn:Br; injection H as <- <-; cbn [type_tokens].
    + unfold bracketed in Br. destruct (next_is "LT" r1) eqn:N.
      * apply bind_some in Br. destruct Br as ([xs r3] & I & Br). apply bind_some in Br. destruct Br as (r4 & X & [= <- <-]).
        destruct (items_consumed (type_ref f) type_tokens (fun _ => True) type_ok) with (fuel := f) (ts := tl r1) (xs := xs) (r := r3) as (C & _ & Y & O); auto.
        { intros ts' x r' _ E. destruct (IH _ _ _ E). auto. }
        split; [|split; [discriminate | apply args_all, O]]. eapply consumed_app; [exact D'|].
        rewrite bracket_some by (destruct xs; [contradiction | discriminate]).
        change (LT :: sep_by COMMA (map type_tokens xs) ++ [GT]) with ([LT] ++ sep_by COMMA (map type_tokens xs) ++ [GT]).
        eapply consumed_app; [exact (next_consumed _ _ _ N)|]. eapply consumed_app; [exact C | exact (expect_consumed _ _ _ _ X)].
      * injection Br as <- <-. cbn [map bracket]. rewrite app_nil_r. split; [exact D' | split; [discriminate | exact I]].
    + cbn [map bracket]. rewrite app_nil_r. split; [exact D' | split; [discriminate | exact I]].
Qed.
Lemma expr_consumed i ts e r : well_lexed ts -> parse_expression i ts = Some (e, r) -> consumed ts (expr_tokens e) r /\ proper e.
Proof. intros W H. destruct (parse_sound _ _ _ _ W H) as [-> P]. split; [|exact P]. exists (expr_tokens e). split; reflexivity. Qed.
Lemma inst_consumed ts i r : well_lexed ts -> type_inst ts = Some (i, r) -> consumed ts (inst_tokens i) r /\ inst_ok false i.
Proof.
  intros W H. unfold type_inst in H. apply bind_some in H. destruct H as ([t r1] & T & H). apply type_consumed in T. destruct T as [T Ot]. assert (W1 := consumed_lexed _ _ _ T W).
  unfold inst_ok. destruct (next_is "LPAREN" r1) eqn:N.
  - apply bind_some in H. destruct H as ([l r2] & I & H). apply bind_some in H. destruct H as (r3 & X & [= <- <-]). unfold inst_tokens. cbn [ci_type ci_params].
    destruct (items_consumed type_argument arg_tokens well_lexed arg_ok) with (fuel := length r1) (ts := tl r1) (xs := l) (r := r2) as (C & _ & Hn & Ha).
    + intros ts' x r' W' A. unfold type_argument in A. destruct (next_is "EXPLICIT" ts') eqn:N'.
      * apply bind_some in A. destruct A as ([n r4] & E & [= <- <-]).
        assert (C : consumed ts' (arg_tokens (CExplicit n)) r4) by
          (change (arg_tokens (CExplicit n)) with ([("EXPLICIT", "explicit")] ++ [tok_id n]); eapply consumed_app; [exact (next_consumed _ _ _ N') | exact (identifier_consumed _ _ _ E)]).
        split; [exact C | split; [exact (consumed_lexed _ _ _ C W') | constructor]].
      * apply bind_some in A. destruct A as ([e r4] & E & [= <- <-]). destruct (expr_consumed _ _ _ _ W' E) as [C P]. split; [exact C | split; [exact (consumed_lexed _ _ _ C W') | exact P]].
    + intros a ts' W'. exact (lexed_tail _ _ W').
    + destruct (next_head _ _ N) as [u Eu]. rewrite Eu in W1. exact (lexed_tail _ _ W1).
    + exact I.
    + split; [|split; [exact Ot | split; assumption]]. eapply consumed_app; [exact T|]. change (LP :: sep_by COMMA (map arg_tokens l) ++ [RP]) with ([LP] ++ sep_by COMMA (map arg_tokens l) ++ [RP]).
      eapply consumed_app; [exact (next_consumed _ _ _ N)|]. eapply consumed_app; [exact C | exact (expect_consumed _ _ _ _ X)].
  - destruct (next_is "LT" r1) eqn:N2.
    + apply bind_some in H. destruct H as ([e r2] & E & H). apply bind_some in H. destruct H as (r3 & X & [= <- <-]). unfold inst_tokens. cbn [ci_type ci_params].
      apply expr_consumed in E; [destruct E as [E P]|destruct (next_head _ _ N2) as [u Eu]; rewrite Eu in W1; exact (lexed_tail _ _ W1)].
      split; [|split; [exact Ot | split; [exact P | discriminate]]]. eapply consumed_app; [exact T|]. change (LT :: expr_tokens e ++ [GT]) with ([LT] ++ expr_tokens e ++ [GT]).
      eapply consumed_app; [exact (next_consumed _ _ _ N2)|]. eapply consumed_app; [exact E|exact (expect_consumed _ _ _ _ X)].
    + injection H as <- <-. unfold inst_tokens. cbn [ci_type ci_params]. rewrite app_nil_r. split; [exact T | split; [exact Ot | exact I]].
Qed.

Definition passes (k : list ptok) : Prop := forall d l, surplus d (k ++ l) = surplus d l \/ surplus d (k ++ l) = None.
Lemma passes_nil : passes [].
Proof. intros d l. left. reflexivity. Qed.
Lemma passes_app a b : passes a -> passes b -> passes (a ++ b).
Proof.
  intros Ha Hb d l. rewrite <- app_assoc. destruct (Ha d (b ++ l)) as [E|E]; [|right; exact E]. rewrite E. apply Hb.
Qed.
Lemma passes_one n t : existsb (String.eqb n) ["QUESTIONMARK"; "COLON"] = false -> passes [(n, t)].
Proof.
  cbn [existsb]. intros H d l. apply orb_false_elim in H. destruct H as [H1 H]. apply orb_false_elim in H. destruct H as [H2 _].
  cbn [app surplus]. rewrite H1, H2. destruct (negb (expr_kind n)); [right | left]; reflexivity.
Qed.
Lemma passes_bad n t k : expr_kind n = false -> passes ((n, t) :: k).
Proof. intros H d l. right. cbn [app surplus]. rewrite H. reflexivity. Qed.
Lemma passes_expr e : passes (expr_tokens e).
Proof. intros d l. left. apply surplus_expr. Qed.
Lemma passes_sep {A} (tok : A -> list ptok) xs : (forall x, In x xs -> passes (tok x)) -> passes (sep_by COMMA (map tok xs)).
Proof.
  induction xs as [|x xs IH]; intros H; [apply passes_nil|]. destruct xs as [|y xs].
  - apply H. left. reflexivity.
  - rewrite sep_cons. apply passes_app; [apply H; left; reflexivity|]. apply (passes_app [COMMA]); [apply passes_one; reflexivity|].
    apply IH. intros z Hz. apply H. right. exact Hz.
Qed.
Lemma passes_name l : passes (name_tokens l).
Proof.
  destruct l as [|n l]; [apply passes_nil|]. rewrite name_cons. apply (passes_app [tok_id n]); [apply passes_one; reflexivity|].
  induction l as [|m l IH]; [apply passes_nil|]. apply (passes_app [DOT; tok_id m]); [|exact IH]. intros d r. left. reflexivity.
Qed.
Lemma keyword_bad n : expr_kind (fst (keyword_token n)) = false.
Proof.
  unfold keyword_token. destruct (lookup n type_names) as [k|] eqn:E; [|reflexivity]. apply lookup_in in E.
  repeat (destruct E as [E|E]; [injection E as <- <-; reflexivity|]). destruct E.
Qed.
Lemma passes_type : forall t, passes (type_tokens t).
Proof.
  induction t as [n|s w|names args IH] using VisitorFacts.ctype_ind'.
  - cbn [type_tokens]. pose proof (keyword_bad n) as H. destruct (keyword_token n) as [k u]. apply passes_bad. exact H.
  - destruct s; apply passes_bad; reflexivity.
  - cbn [type_tokens]. apply passes_app; [apply passes_name|]. destruct args as [|a args]; [apply passes_nil|]. rewrite bracket_some by discriminate.
    apply (passes_app [LT]); [apply passes_one; reflexivity|]. apply passes_app; [|apply passes_one; reflexivity].
    apply passes_sep. rewrite Forall_forall in IH. exact IH.
Qed.
Lemma passes_inst i : passes (inst_tokens i).
Proof.
  unfold inst_tokens. apply passes_app; [apply passes_type|]. destruct (ci_params i) as [|l|e]; [apply passes_nil| |].
  - apply (passes_app [LP]); [apply passes_one; reflexivity|]. apply passes_app; [|apply passes_one; reflexivity]. apply passes_sep.
    intros [n|e] _; [apply passes_bad; reflexivity | apply passes_expr].
  - apply (passes_app [LT]); [apply passes_one; reflexivity|]. apply passes_app; [apply passes_expr | apply passes_one; reflexivity].
Qed.

Definition no_semi (k : list ptok) : Prop := ~ In "SEMICOLON" (map fst k).
Lemma no_semi_app a b : no_semi a -> no_semi b -> no_semi (a ++ b).
Proof. unfold no_semi. rewrite map_app, in_app_iff. tauto. Qed.
Lemma no_semi_one n t : String.eqb n "SEMICOLON" = false -> no_semi [(n, t)].
Proof. intros H [E|[]]. cbn in E. subst n. discriminate. Qed.
Lemma no_semi_expr : forall e, no_semi (expr_tokens e).
Proof.
  assert (O : forall n t k, String.eqb n "SEMICOLON" = false -> no_semi k -> no_semi ((n, t) :: k)) by
    (intros n t k H K; apply (no_semi_app [(n, t)]); [apply no_semi_one, H | exact K]).
  assert (N : no_semi []) by (intros []).
  induction e; cbn [expr_tokens]; repeat (apply O; [reflexivity|] || apply no_semi_app); try assumption; try (apply O; [reflexivity|]); try exact N.
  - destruct op; apply O; auto.
  - destruct op; repeat (apply O; [reflexivity|]); exact N.
  - destruct k; apply O; auto.
Qed.
Lemma no_semi_sep {A} (tok : A -> list ptok) xs : (forall x, In x xs -> no_semi (tok x)) -> no_semi (sep_by COMMA (map tok xs)).
Proof.
  induction xs as [|x xs IH]; intros H; [intros []|]. destruct xs as [|y xs].
  - apply H. left. reflexivity.
  - rewrite sep_cons. apply no_semi_app; [apply H; left; reflexivity|]. apply (no_semi_app [COMMA]); [apply no_semi_one; reflexivity|].
    apply IH. intros z Hz. apply H. right. exact Hz.
Qed.
Lemma no_semi_name l : no_semi (name_tokens l).
Proof.
  destruct l as [|n l]; [intros []|]. rewrite name_cons. apply (no_semi_app [tok_id n]); [apply no_semi_one; reflexivity|].
  induction l as [|m l IH]; [intros []|]. apply (no_semi_app [DOT; tok_id m]); [|exact IH]. intros H; cbn in H; repeat (destruct H as [H|H]; [discriminate H|]); exact H.
Qed.
Lemma no_semi_type : forall t, no_semi (type_tokens t).
Proof.
  induction t as [n|s w|names args IH] using VisitorFacts.ctype_ind'.
  - cbn [type_tokens]. unfold keyword_token. apply no_semi_one. destruct (lookup n type_names) as [k|] eqn:E; [|reflexivity]. apply lookup_in in E.
    repeat (destruct E as [E|E]; [injection E as <- <-; reflexivity|]). destruct E.
  - destruct s, w; intros H; cbn in H; repeat (destruct H as [H|H]; [discriminate H|]); exact H.
  - cbn [type_tokens]. apply no_semi_app; [apply no_semi_name|]. destruct args as [|a args]; [intros []|]. rewrite bracket_some by discriminate.
    apply (no_semi_app [LT]); [apply no_semi_one; reflexivity|]. apply no_semi_app; [|apply no_semi_one; reflexivity].
    apply no_semi_sep. rewrite Forall_forall in IH. exact IH.
Qed.
Lemma no_semi_inst i : no_semi (inst_tokens i).
Proof.
  unfold inst_tokens. apply no_semi_app; [apply no_semi_type|]. destruct (ci_params i) as [|l|e]; [intros []| |].
  - apply (no_semi_app [LP]); [apply no_semi_one; reflexivity|]. apply no_semi_app; [|apply no_semi_one; reflexivity]. apply no_semi_sep.
    intros [n|e] _; [intros H; cbn in H; repeat (destruct H as [H|H]; [discriminate H|]); exact H | apply no_semi_expr].
  - apply (no_semi_app [LT]); [apply no_semi_one; reflexivity|]. apply no_semi_app; [apply no_semi_expr | apply no_semi_one; reflexivity].
Qed.
(** What does not reach the semicolon comes before it. *)
Lemma before_semi {A} (x : A) : forall p a q b, ~ In x p -> p ++ q = a ++ x :: b -> exists q', a = p ++ q'.
Proof.
  induction p as [|y p IH]; intros a q b H E; [exists a; reflexivity|]. destruct a as [|z a]; cbn in E; injection E as E1 E.
  - subst y. exfalso. apply H. left. reflexivity.
  - subst z. destruct (IH a q b) as [q' ->]; [intros Hp; apply H; right; exact Hp | exact E | exists q'; reflexivity].
Qed.
Lemma reading_like_field c al off rest x : well_lexed (expr_tokens c ++ SEMI :: rest) -> field_rest al off (expr_tokens c ++ SEMI :: rest) = Some x -> like_field c.
Proof.
  intros W H. unfold field_rest, field_type, keyword_opt in H. rewrite (expr_next "EXTEND") in H by (left; reflexivity).
  rewrite (expr_next "OPTIONAL") in H by (left; reflexivity). apply bind_some in H. destruct H as ([t r] & H & _).
  rewrite (expr_next "PACKED") in H by (left; reflexivity). rewrite (expr_next "IMPLICIT") in H by (left; reflexivity).
  apply bind_some in H. destruct H as ([i r1] & T & H). apply bind_some in H. destruct H as ([n r2] & I & _).
  apply inst_consumed in T; [destruct T as [T Oi]|exact W]. apply identifier_consumed in I. assert (C := consumed_app _ _ _ _ _ T I). destruct C as (p & E & K).
  apply (f_equal (map fst)) in E. unfold ptok in *. rewrite !map_app in E. rewrite K in E. symmetry in E. cbn [map fst SEMI] in E.
  assert (S : ~ In "SEMICOLON" (map fst (inst_tokens i ++ [tok_id n]))) by (apply no_semi_app; [apply no_semi_inst | apply no_semi_one; reflexivity]).
  destruct (before_semi "SEMICOLON" _ _ _ _ S E) as [q Q].
  unfold like_field, ptok. exists i, n, (map (fun k => (k, "")) (q ++ ["SEMICOLON"])). split; [exact Oi|]. rewrite !map_app. cbn [map fst SEMI]. rewrite Q, !map_app. cbn [map].
  rewrite map_map. cbn [map fst]. rewrite map_id. rewrite <- !app_assoc. reflexivity.
Qed.

Definition chain (n : string) (l : list string) : cexpr := fold_left CDot l (CId n).
Lemma chain_snoc n l m : chain n (l ++ [m]) = CDot (chain n l) m.
Proof. unfold chain. rewrite fold_left_app. reflexivity. Qed.
Lemma chain_ok n l : proper (chain n l) /\ 13 <= level (chain n l).
Proof.
  induction l as [|m l IH] using rev_ind; [cbn; lia|]. rewrite chain_snoc. cbn [proper level]. split; [exact IH | lia].
Qed.
Lemma chain_tokens n l : expr_tokens (chain n l) = name_tokens (n :: l).
Proof.
  rewrite name_cons. induction l as [|m l IH] using rev_ind; [reflexivity|]. rewrite chain_snoc. cbn [expr_tokens]. rewrite IH, flat_map_app. reflexivity.
Qed.
Lemma no_offset al t more rest : field_type_ok true t -> 
  (exists a b c, more = when a (fun e => ("ASSIGN", "=") :: expr_tokens e) ++ when b (fun e => ("IF", "if") :: expr_tokens e) ++ constraint_tokens c ++ SEMI :: rest /\
    (template_type (ft_inst t) -> opt_ok (fun c => ~ like_field c) c)) ->
  well_lexed (field_type_tokens t ++ more) ->
  bind (parse_expression false (field_type_tokens t ++ more)) (fun x => match x with (e, r) => bind (expect "COLON" r) (fun r => field_rest al (Some e) r) end) = None.
Proof.
  intros [[Ok P] _] (a & b & c & -> & L) W. unfold field_type_tokens in *. rewrite <- !app_assoc in *. cbn [app] in *.
  destruct (ft_packed t); cbn [flag app] in *; [rewrite not_start; reflexivity|].
  destruct (ft_implicit t); cbn [flag app] in *; [rewrite not_start; reflexivity|].
  set (body := tok_id (ft_name t) :: _) in *. destruct (ft_inst t) as [ty ps]. cbn [ci_type ci_params] in *.
  destruct ty as [k|s w|names args].
  - unfold inst_tokens. cbn [ci_type ci_params type_tokens app]. pose proof (keyword_bad k) as H. destruct (keyword_token k) as [k' u]. rewrite not_start by exact H. reflexivity.
  - unfold inst_tokens. cbn [ci_type ci_params type_tokens app]. destruct s; rewrite not_start; reflexivity.
  - destruct args as [|x args].
    + destruct Ok as [Hn _]. destruct names as [|n l]; [contradiction|]. unfold inst_tokens. cbn [ci_type ci_params type_tokens map bracket]. rewrite app_nil_r, <- chain_tokens, <- app_assoc.
      destruct ps as [|as_|e]; [| |destruct P as [_ P]; destruct (P eq_refl)].
      * cbn [app]. unfold body. rewrite read_expr; [reflexivity | apply chain_ok | reflexivity].
      * destruct P as [Hn' Hl]. destruct as_ as [|z zs]; [contradiction|]. cbn [app].
        rewrite enough; [reflexivity | apply chain_ok | | discriminate].
        assert (H : next_is "RPAREN" ((sep_by COMMA (map arg_tokens (z :: zs)) ++ [RP]) ++ body) = false).
        { rewrite <- app_assoc. assert (Z : forall r, next_is "RPAREN" (arg_tokens z ++ r) = false) by (intros r; destruct z; [reflexivity | apply expr_next; right; cbn; auto]).
          destruct zs as [|z' zs]; [apply Z | rewrite sep_cons, <- app_assoc; apply Z]. }
        revert H. generalize ((sep_by COMMA (map arg_tokens (z :: zs)) ++ [RP]) ++ body). intros r H. unfold stops. cbn. cbn in H.
        destruct r as [|[m u] r]; cbn in *; [reflexivity|]. rewrite H. reflexivity.
    + match goal with |- bind ?o ?k = None => destruct (bind o k) as [y|] eqn:E; [exfalso | reflexivity] end.
      apply bind_some in E. destruct E as ([e r] & E & F). apply bind_some in F. destruct F as (r' & X & F).
      destruct (parse_sound _ _ _ _ W E) as [S _].
      assert (W' : well_lexed r) by (rewrite S in W; exact (lexed_app _ _ W)). destruct (expect_head _ _ _ X) as [u ->].
      apply (f_equal (surplus 0)) in S. rewrite surplus_expr in S. change (surplus 0 (("COLON", u) :: r')) with (Some r') in S.
      assert (Q : forall k l, passes k -> surplus 0 (k ++ l) = Some r' -> surplus 0 l = Some r') by (intros k l K J; destruct (K 0 l) as [Y|Y]; congruence).
      apply Q in S; [|apply passes_inst]. unfold body in S.
      apply (Q [tok_id (ft_name t)]) in S; [|apply passes_one; reflexivity].
      apply Q in S; [|destruct (ft_range t) as [[g|]|]; [|intros d l; left; reflexivity | apply passes_nil];
        apply (passes_app [LBRACKET]); [apply passes_one; reflexivity|]; apply passes_app; [apply passes_expr | apply passes_one; reflexivity]].
      apply Q in S; [|destruct a; [apply passes_bad; reflexivity | apply passes_nil]].
      apply Q in S; [|destruct b; [apply passes_bad; reflexivity | apply passes_nil]].
      destruct c as [c|]; [|discriminate S]. cbn in S. injection S as <-.
      apply (L I). eapply reading_like_field; [|exact F]. exact (lexed_tail _ _ W').
Qed.
