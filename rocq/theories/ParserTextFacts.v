(** The parser of expressions: the statements of C101. *)

Require Import ZArith String Ascii List Bool Lia.
Require Import ZifyBool ZifyNat.
From Verif Require Literals Lexer LexerSpec LexerFacts LexerWordFacts LexerLiteralFacts.
From Verif Require Import Visitor Parser ParserSpec ParserFacts.
Import ListNotations.
Open Scope nat_scope.
Open Scope string_scope.
Open Scope list_scope.

Lemma in_binops n o q : In (n, (o, q)) binops -> In n continues.
Proof. intros H. cbn in H. decompose [or] H; try contradiction; match goal with H : (_, _) = _ |- _ => injection H as <- _ _ end; fixed_text. Qed.
Lemma next_not n ts : In n continues -> ends ts -> next_is n ts = false.
Proof. destruct ts as [|[m t] r]; [reflexivity|]. cbn. intros Hn Hm. apply String.eqb_neq. intros ->. exact (Hm Hn). Qed.
Lemma ends_operator ts : ends ts -> operator false ts = None.
Proof.
  intros H. pose proof (next_not "GT" ts ltac:(fixed_text) H) as G. destruct ts as [|[n t] r]; [reflexivity|]. cbn in G, H.
  unfold operator. rewrite G. cbn [andb].
  destruct (lookup n binops) as [[o q]|] eqn:L; [|reflexivity]. exfalso. apply H. eapply in_binops, lookup_in, L.
Qed.
Lemma ends_stops rest : ends rest -> stops false 0 rest = true.
Proof.
  intros H. unfold stops. rewrite (ends_operator _ H). rewrite !(next_not _ rest) by (try exact H; fixed_text). reflexivity.
Qed.

Lemma enough e i rest : proper e -> stops i 0 rest = true -> (i = true -> calm rest) -> parse_expression i (expr_tokens e ++ rest) = Some (e, rest).
Proof.
  intros P S C. unfold parse_expression. apply reads_to; try assumption; try lia.
  - apply reads_all, P.
  - pose proof (cost_length e). rewrite app_length. lia.
Qed.
Lemma reads_expression e rest : proper e -> ends rest -> parse_expression false (expr_tokens e ++ rest) = Some (e, rest).
Proof. intros P E. apply enough; [exact P | apply ends_stops, E | discriminate]. Qed.

Lemma after_declared_names n (t : string) r : In n after_declared -> one_of_names after_name ((n, t) :: r) = true.
Proof. intros H. cbn [one_of_names]. apply existsb_exists. exists n. split; [exact H | apply String.eqb_refl]. Qed.
Lemma after_length_closes rest : after_length rest -> exists r, rest = ("GT", ">") :: r /\ closes r = true.
Proof.
  intros [x n t r Hn | x o n t r Hn]; eexists; (split; [reflexivity|]); unfold closes; cbn [String.eqb Ascii.eqb Bool.eqb andb].
  - pose proof (after_declared_names n t r Hn) as A. cbn [one_of_names] in *. rewrite A. reflexivity.
  - cbn [next_is]. replace (String.eqb "LBRACKET" "LBRACKET") with true by reflexivity. cbn [andb].
    match goal with |- context [skip_brackets 0 ?l] => replace (skip_brackets 0 l) with ((n, t) :: r) end.
    + pose proof (after_declared_names n t r Hn) as A. cbn [one_of_names] in *. rewrite A. apply orb_true_r.
    + cbn [skip_brackets]. replace (String.eqb "LBRACKET" "LBRACKET") with true by reflexivity.
      destruct o as [e|]; [rewrite skip_app|]; reflexivity.
Qed.
Lemma reads_length e rest : proper e -> after_length rest -> parse_expression true (expr_tokens e ++ rest) = Some (e, rest).
Proof.
  intros P E. destruct (after_length_closes _ E) as (r & -> & Hc). apply enough; [exact P | |].
  - unfold stops. cbn [operator]. rewrite Hc. reflexivity.
  - intros _. split; [reflexivity | discriminate].
Qed.

Lemma parse_sound i ts e rest : well_lexed ts -> parse_expression i ts = Some (e, rest) -> ts = expr_tokens e ++ rest /\ proper e.
Proof.
  intros W H. destruct (all_sound (3 * length ts + 3)) as (HS & _). destruct (HS i 0 ts e rest W ltac:(lia) H) as (E & P & _). split; assumption.
Qed.

Lemma proper_unique a b : proper a -> proper b -> expr_tokens a = expr_tokens b -> a = b.
Proof.
  intros Pa Pb E. pose proof (reads_expression a [] Pa I) as Ha. pose proof (reads_expression b [] Pb I) as Hb.
  rewrite E, Hb in Ha. injection Ha as ->. reflexivity.
Qed.

(** Every tree can be written. *)
Fixpoint parens (e : cexpr) : cexpr :=
  match e with
  | CParen a => parens a
  | CCall a => CCall (CParen (parens a))
  | CArray a b => CArray (CParen (parens a)) (parens b)
  | CDot a n => CDot (CParen (parens a)) n
  | CIsSet a b => CIsSet (parens a) (parens b)
  | CLengthof a => CLengthof (parens a)
  | CValueof a => CValueof (parens a)
  | CNumbits a => CNumbits (parens a)
  | CUnary o a => CUnary o (CParen (parens a))
  | CBinary o a b => CBinary o (CParen (parens a)) (CParen (parens b))
  | CTernary c a b => CTernary (CParen (parens c)) (parens a) (parens b)
  | CLiteral k t => CLiteral k t
  | CIndex => CIndex
  | CId n => CId n
  end.
Lemma parens_proper e : proper (parens e) /\ bare (parens e) = bare e.
Proof.
  induction e; cbn [parens proper bare level]; try tauto;
    repeat match goal with H : _ /\ _ |- _ => destruct H end; (split; [|congruence]); repeat split; try assumption; try lia;
    destruct op; cbn; lia.
Qed.
Lemma every_tree e : exists e', proper e' /\ bare e' = bare e.
Proof. exists (parens e). apply parens_proper. Qed.

(** Texts. *)
Lemma token_rule : forall s n t, In (n, t) (Lexer.tokens s) -> exists r, In (n, r) Lexer.rules /\ LexerSpec.rule_text r t.
Proof.
  assert (P : forall k s, length s <= k -> forall n t, In (n, t) (Lexer.tokens s) -> exists r, In (n, r) Lexer.rules /\ LexerSpec.rule_text r t).
  { induction k as [|k IH]; intros s Hk n t H.
    - destruct s; [contradiction H | cbn in Hk; lia].
    - unfold Lexer.tokens in H. destruct (Lexer.lex s) as [|[name x|x] l] eqn:E.
      + contradiction H.
      + destruct (LexerWordFacts.lex_starts _ _ _ _ E) as (rest & Hs & Hn & ->).
        destruct Hn as (before & r & after & rest' & Hl & _ & Hne & Ht & _).
        assert (Hr : length rest <= k).
        { subst s. rewrite app_length in Hk. destruct x; [contradiction | cbn in Hk; lia]. }
        unfold Lexer.visible in H. cbn [flat_map] in H. apply in_app_or in H. destruct H as [H|H].
        * destruct (Lexer.hidden name); [contradiction H|]. destruct H as [H|[]]. injection H as <- <-.
          exists r. split; [rewrite Hl; apply in_or_app; right; left; reflexivity | exact Ht].
        * exact (IH rest Hr n t H).
      + destruct (LexerWordFacts.lex_skips _ _ _ E) as (rest & Hs & Hne & _ & ->).
        assert (Hr : length rest <= k).
        { subst s. rewrite app_length in Hk. destruct x; [contradiction | cbn in Hk; lia]. }
        exact (IH rest Hr n t H). }
  intros s. apply (P (length s)). lia.
Qed.

Lemma fixed_rules_ok : forallb (fun p => forallb (fun q => negb (String.eqb (fst q) (fst p)) ||
    match snd q with Lexer.Lit l => String.eqb (string_of_list_ascii l) (snd p) | _ => false end) Lexer.rules) fixed_texts = true.
Proof. vm_compute. reflexivity. Qed.

Lemma stream_lexed s : well_lexed (stream s).
Proof.
  intros n t w H Hw. unfold stream in H. apply in_map_iff in H. destruct H as ([m x] & E & Hin). cbn in E. injection E as -> <-.
  destruct (token_rule _ _ _ Hin) as (r & Hr & Ht).
  pose proof fixed_rules_ok as F. rewrite forallb_forall in F. specialize (F _ Hw). rewrite forallb_forall in F. specialize (F _ Hr).
  cbn [fst snd] in F. rewrite String.eqb_refl in F. cbn [negb orb] in F.
  destruct r as [l|?|? ?]; try discriminate F. cbn in Ht. subst x. apply String.eqb_eq. exact F.
Qed.

Lemma stream_text ts s : text_of ts s -> stream s = ts.
Proof.
  intros (l & s' & -> & Hl & Hw). unfold stream. rewrite (LexerLiteralFacts.layout_written _ _ _ Hl Hw), map_map.
  rewrite <- (map_id ts) at 2. apply map_ext. intros [n t]. cbn. rewrite string_of_list_ascii_of_string. reflexivity.
Qed.
Lemma reads_text e s : proper e -> text_of (expr_tokens e) s -> parse_expression false (stream s) = Some (e, []).
Proof.
  intros P H. rewrite (stream_text _ _ H). rewrite <- (app_nil_r (expr_tokens e)). apply reads_expression; [exact P | exact I].
Qed.
Lemma text_sound s e rest : parse_expression false (stream s) = Some (e, rest) -> stream s = expr_tokens e ++ rest /\ proper e.
Proof. apply parse_sound, stream_lexed. Qed.
