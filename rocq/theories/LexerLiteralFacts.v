(** Facts about the lexer: literals, identifiers and keywords are words. *)

Require Import ZArith String Ascii List Bool Lia.
From Verif Require Import Files Lexer LexerSpec LexerFacts LexerWordFacts.
From Verif Require Literals LiteralsSpec.
Import ListNotations.
Open Scope nat_scope.
Open Scope char_scope.

(** A text of a rule that no rule before has. *)
Lemma word_intro : forall name r before after t, rules = before ++ (name, r) :: after ->
  hidden name = false -> name <> "INVALID_STRING_LITERAL"%string -> rule_text r t ->
  (forall name' r', In (name', r') before -> ~ rule_text r' t) -> word name t.
Proof.
  intros name r before after t Hl Hh Hn Ht Hno. 
  assert (Hin : In (name, r) rules) by (rewrite Hl; apply in_or_app; right; left; reflexivity).
  split; [|auto]. exists before, r, after, []. rewrite app_nil_r.
  repeat split; auto.
  - intros ->. exact (rules_never_empty _ _ Hin Ht).
  - intros n' r' t' rest' _ He _. apply (f_equal (@length _)) in He. rewrite app_length in He. lia.
  - intros n' r' t' rest' Hin' He Ht'. destruct rest' as [|c rest'].
    + rewrite app_nil_r in He. subst t'. destruct (Hno _ _ Hin' Ht').
    + apply (f_equal (@length _)) in He. rewrite app_length in He. cbn in He. lia.
Qed.
Lemma earlier : forall before c s name r l, In (name, r) before -> rule_text r (c :: s) ->
  filter (fun p : string * rule => can_start (snd p) c) before = l -> In (name, r) l.
Proof. intros before c s name r l Hin Ht <-. apply filter_In. split; [exact Hin|exact (can_start_ok _ _ _ Ht)]. Qed.

(** ** Keywords and operators *)

Lemma lit_words : forallb (fun p : string * rule => match snd p with
    | Lit l => negb (hidden (fst p)) && negb (String.eqb (fst p) "INVALID_STRING_LITERAL") &&
        match best rules l with Some (n, k) => String.eqb n (fst p) && Nat.eqb k (length l) | None => false end
    | _ => true end) rules = true.
Proof. vm_compute. reflexivity. Qed.
Lemma lit_word : forall name l, In (name, Lit l) rules -> word name l.
Proof.
  intros name l H. pose proof lit_words as Hall. rewrite forallb_forall in Hall. specialize (Hall _ H). cbn [fst snd] in Hall.
  apply andb_true_iff in Hall as [H1 Hb]. apply andb_true_iff in H1 as [Hh Hn].
  apply negb_true_iff in Hh. apply negb_true_iff, String.eqb_neq in Hn.
  destruct (best rules l) as [[n k]|] eqn:Eb; [|discriminate]. apply andb_true_iff in Hb as [Hb Hk].
  apply String.eqb_eq in Hb. apply Nat.eqb_eq in Hk. subst. apply best_next in Eb as (_ & Hnext & _).
  rewrite firstn_all in Hnext. split; auto.
Qed.

Lemma fixed_lits : flat_map (fun p : string * rule => match snd p with Lit l => [(fst p, l)] | _ => [] end) rules = map (fun p => (fst p, str (snd p))) fixed_words.
Proof. vm_compute. reflexivity. Qed.
Lemma fixed_rule : forall name l, In (name, Lit l) rules <-> exists w, In (name, w) fixed_words /\ l = str w.
Proof.
  intros name l. assert (E : In (name, Lit l) rules <-> In (name, l) (flat_map (fun p : string * rule => match snd p with Lit l => [(fst p, l)] | _ => [] end) rules)).
  { rewrite in_flat_map. split.
    - intros H. exists (name, Lit l). split; [exact H|left; reflexivity].
    - intros ([n [x|r|a b]] & H & I); cbn in I; try contradiction. destruct I as [I|[]]. injection I as <- <-. exact H. }
  rewrite E, fixed_lits, in_map_iff. split.
  - intros ([n w] & I & H). injection I as <- <-. exists w. auto.
  - intros (w & H & ->). exists (name, w). auto.
Qed.
Lemma fixed_word : forall name w, In (name, w) fixed_words -> word name (str w).
Proof. intros name w H. apply lit_word, fixed_rule. eauto. Qed.

(** ** Identifiers *)

Lemma star_all : forall p s, Forall (fun c => p c = true) s -> matches (Star (Ch p)) s.
Proof.
  intros p s H. induction H as [|c s Hc _ IH]; [constructor|]. apply m_star_cons. exists [], s. repeat split; [constructor; exact Hc|exact IH].
Qed.
Lemma star_ch : forall p s, matches (Star (Ch p)) s <-> Forall (fun c => p c = true) s.
Proof. intros p s. split; [|apply star_all]. intro H. apply (within_ok _ _ _ H). cbn. auto. Qed.
Lemma plus_ch : forall p s, matches (plus (Ch p)) s <-> s <> [] /\ Forall (fun c => p c = true) s.
Proof.
  intros p s. unfold plus. rewrite m_seq. split.
  - intros (x & y & -> & Hx & Hy). apply m_ch in Hx as (c & -> & Hc). apply star_ch in Hy. split; [discriminate|]. constructor; assumption.
  - intros [Hne H]. destruct s as [|c s]; [contradiction|]. inversion H; subst. exists [c], s. repeat split; [constructor; assumption|apply star_ch; assumption].
Qed.
Lemma id_text : forall t, matches ID t <-> exists c s, t = c :: s /\ letter c = true /\ Forall word_like s.
Proof.
  intro t. unfold ID. rewrite m_seq. split.
  - intros (x & y & -> & Hx & Hy). apply m_ch in Hx as (c & -> & Hc). apply star_ch in Hy. exists c, y. auto.
  - intros (c & s & -> & Hc & Hs). exists [c], s. repeat split; [constructor; exact Hc|apply star_ch; exact Hs].
Qed.
(** The rules before the n-th of [other_rules]. *)
Definition upto (n : nat) : list (string * rule) := fixed_rules ++ firstn n other_rules.
Lemma upto_split : forall n p, nth_error other_rules n = Some p -> rules = upto n ++ p :: skipn (S n) other_rules.
Proof.
  intros n p H. unfold rules, upto. rewrite <- app_assoc. f_equal. revert n p H.
  generalize other_rules as l. induction l as [|q l IH]; intros [|n] p H; try discriminate.
  - cbn in H. injection H as ->. reflexivity.
  - cbn [firstn app]. change (skipn (S (S n)) (q :: l)) with (skipn (S n) l). f_equal. apply IH. exact H.
Qed.
Lemma fixed_lit : forall name r, In (name, r) fixed_rules -> exists l, r = Lit l.
Proof.
  intros name r H. assert (Hf : forallb (fun p : string * rule => match snd p with Lit _ => true | _ => false end) fixed_rules = true) by (vm_compute; reflexivity).
  rewrite forallb_forall in Hf. specialize (Hf _ H). cbn [snd] in Hf. destruct r as [l| |]; try discriminate. eauto.
Qed.
Lemma letter_start : forall c, letter c = true -> digit c = false /\ c <> "." /\ c <> "/" /\ c <> quote /\ ~ In c blank.
Proof.
  intros c. each c; vm_compute; intro H; try discriminate H;
    (split; [reflexivity|split; [discriminate|split; [discriminate|split; [discriminate|intros [H1|[H1|[H1|[H1|[H1|[]]]]]]; discriminate]]]]).
Qed.
Lemma lit_in : forall n name r, In (name, r) (upto n) -> In (name, r) rules.
Proof.
  intros n name r H. apply in_app_or in H as [H|H]; apply in_or_app; [left; exact H|right].
  rewrite <- (firstn_skipn n other_rules). apply in_or_app. left. exact H.
Qed.
Lemma numeric_names_start : forall name e c s, In (name, Re e) rules ->
  In name ["BINARY_LITERAL"; "OCTAL_LITERAL"; "HEXADECIMAL_LITERAL"; "DOUBLE_LITERAL"; "FLOAT_LITERAL"; "DECIMAL_LITERAL"]%string ->
  rule_text (Re e) (c :: s) -> numeric_start c.
Proof. intros name e c s Hin Hn Ht. exact (numeric_starts _ _ Hin Hn _ (can_start_ok _ _ _ Ht)). Qed.
Lemma id_word : forall c s, letter c = true -> Forall word_like s -> ~ keyword (c :: s) -> word "ID" (c :: s).
Proof.
  intros c s Hc Hs Hk. destruct (letter_start c Hc) as (Hd & Hdot & Hsl & Hq & Hb).
  apply (word_intro "ID" (Re ID) (upto 14) (skipn 15 other_rules)).
  - apply upto_split. reflexivity.
  - reflexivity.
  - discriminate.
  - apply id_text. eauto.
  - intros name r Hin Ht. pose proof (lit_in _ _ _ Hin) as Hin'.
    assert (Hlit : forall l, r <> Lit l).
    { intros l ->. apply Hk. cbn in Ht. rewrite Ht. apply fixed_rule in Hin' as (w & Hw & Hl). exists name, w. auto. }
    assert (Hnum : forall e, r = Re e -> ~ In name ["BINARY_LITERAL"; "OCTAL_LITERAL"; "HEXADECIMAL_LITERAL"; "DOUBLE_LITERAL"; "FLOAT_LITERAL"; "DECIMAL_LITERAL"]%string).
    { intros e -> Hn. destruct (numeric_names_start _ _ _ _ Hin' Hn Ht) as [H|H]; congruence. }
    apply in_app_or in Hin as [Hin|Hin]; [destruct (fixed_lit _ _ Hin) as [l ->]; exact (Hlit l eq_refl)|].
    cbn [firstn other_rules In] in Hin.
    repeat (destruct Hin as [Heq|Hin]; [injection Heq as <- <-|]); try contradiction;
      try (apply (Hlit _ eq_refl)); try (apply (Hnum _ eq_refl); cbn; tauto);
      try (apply between_starts in Ht as (z & Hz); injection Hz as -> _; contradiction).
    + cbn in Ht. apply m_ch in Ht as (d & He & Hd'). injection He as -> _. apply one_of_in in Hd'. contradiction.
    + apply line_comment_text in Ht as (b & He & _). injection He as -> _. contradiction.
    + apply string_ends in Ht as (b & He). injection He as -> _. contradiction.
Qed.
Lemma word_id : forall t, word "ID" t -> exists c s, t = c :: s /\ letter c = true /\ Forall word_like s /\ ~ keyword t.
Proof.
  intros t Hw. pose proof Hw as [Hn _]. pose proof (next_best _ _ _ Hn) as Hb.
  destruct Hn as (before & r & after & rest & Hl & _ & _ & Ht & _).
  assert (Hin : In ("ID"%string, r) rules) by (rewrite Hl; apply in_or_app; right; left; reflexivity).
  assert (Hr : In ("ID"%string, r) (filter (fun p : string * rule => String.eqb (fst p) "ID") rules)) by (apply filter_In; auto).
  assert (Hf : filter (fun p : string * rule => String.eqb (fst p) "ID") rules = [("ID"%string, Re ID)]) by reflexivity.
  rewrite Hf in Hr. destruct Hr as [Hr|[]]. injection Hr as <-.
  apply id_text in Ht as (c & s & -> & Hc & Hs). exists c, s. repeat split; auto.
  intros (name & w & Hk & Hkw). destruct (fixed_word _ _ Hk) as [Hn' _]. rewrite <- Hkw in Hn'. apply next_best in Hn'. rewrite Hb in Hn'.
  injection Hn' as <-. assert (Hr : In ("ID"%string, Lit (c :: s)) (filter (fun p : string * rule => String.eqb (fst p) "ID") rules)) by (apply filter_In; split; [apply fixed_rule; eauto|reflexivity]).
  rewrite Hf in Hr. destruct Hr as [Hr|[]]. discriminate.
Qed.

(** ** Numerals *)

Lemma digits_of : forall base c d, LiteralsSpec.digit c d -> (Z.of_nat d < base)%Z ->
  (base = 2%Z -> one_of (str "01") c = true) /\ (base = 8%Z -> octal c = true) /\ (base = 10%Z -> digit c = true) /\ (base = 16%Z -> hex c = true).
Proof.
  intros base c d H Hd. unfold LiteralsSpec.digit in H.
  do 16 (destruct d as [|d]; [destruct H as [H|H]; injection H as <-; repeat split; intros ->; try reflexivity; vm_compute in Hd; discriminate Hd|]).
  destruct H as [H|H]; destruct d; discriminate.
Qed.
Lemma numeral_all : forall base p t z, (forall c d, LiteralsSpec.digit c d -> (Z.of_nat d < base)%Z -> p c = true) ->
  LiteralsSpec.numeral base t z -> Forall (fun c => p c = true) t.
Proof.
  intros base p t z Hp H. induction H as [|t z c d _ IH Hc Hd]; [constructor|]. apply Forall_app. split; [exact IH|].
  constructor; [exact (Hp c d Hc Hd)|constructor].
Qed.
Lemma all_numeral : forall base p t, (forall c, p c = true -> exists d, LiteralsSpec.digit c d /\ (Z.of_nat d < base)%Z) ->
  Forall (fun c => p c = true) t -> exists z, LiteralsSpec.numeral base t z.
Proof.
  intros base p t Hp. induction t as [|c t IH] using rev_ind; intro H; [exists 0%Z; constructor|].
  apply Forall_app in H as [H1 H2]. inversion H2; subst. destruct (IH H1) as [z Hz]. destruct (Hp c H3) as (d & Hd & Hl).
  eexists. econstructor; eassumption.
Qed.
Lemma has_digit : forall c, 
  (one_of (str "01") c = true -> exists d, LiteralsSpec.digit c d /\ (Z.of_nat d < 2)%Z) /\
  (octal c = true -> exists d, LiteralsSpec.digit c d /\ (Z.of_nat d < 8)%Z) /\
  (digit c = true -> exists d, LiteralsSpec.digit c d /\ (Z.of_nat d < 10)%Z) /\
  (hex c = true -> exists d, LiteralsSpec.digit c d /\ (Z.of_nat d < 16)%Z).
Proof.
  intro c. unfold LiteralsSpec.digit.
  assert (Hall : forall base n, (Z.of_nat n = base)%Z -> 
     existsb (fun d => match nth_error (str "0123456789abcdef") d with Some x => x =? c | None => false end ||
                       match nth_error (str "0123456789ABCDEF") d with Some x => x =? c | None => false end) (seq 0 n) = true ->
     exists d, (nth_error (str "0123456789abcdef") d = Some c \/ nth_error (str "0123456789ABCDEF") d = Some c) /\ (Z.of_nat d < base)%Z).
  { intros base n Hb H. apply existsb_exists in H as (d & Hd & H). apply in_seq in Hd. exists d. split; [|lia].
    apply orb_true_iff in H as [H|H]; [left|right]; destruct (nth_error _ d); try discriminate; apply Ascii.eqb_eq in H; subst; reflexivity. }
  repeat split; intro H.
  - apply (Hall 2%Z 2); [reflexivity|]. revert H. clear. each c; vm_compute; auto.
  - apply (Hall 8%Z 8); [reflexivity|]. revert H. clear. each c; vm_compute; auto.
  - apply (Hall 10%Z 10); [reflexivity|]. revert H. clear. each c; vm_compute; auto.
  - apply (Hall 16%Z 16); [reflexivity|]. revert H. clear. each c; vm_compute; auto.
Qed.
Lemma numeral2 : forall t, (exists z, LiteralsSpec.numeral 2 t z) <-> Forall (fun c => one_of (str "01") c = true) t.
Proof.
  intro t. split.
  - intros [z H]. apply (numeral_all _ _ _ _ (fun c d Hc Hd => proj1 (digits_of 2 c d Hc Hd) eq_refl) H).
  - apply all_numeral. intros c. apply has_digit.
Qed.
Lemma numeral8 : forall t, (exists z, LiteralsSpec.numeral 8 t z) <-> Forall (fun c => octal c = true) t.
Proof.
  intro t. split.
  - intros [z H]. apply (numeral_all _ _ _ _ (fun c d Hc Hd => proj1 (proj2 (digits_of 8 c d Hc Hd)) eq_refl) H).
  - apply all_numeral. intros c. apply has_digit.
Qed.
Lemma numeral10 : forall t, (exists z, LiteralsSpec.numeral 10 t z) <-> Forall (fun c => digit c = true) t.
Proof.
  intro t. split.
  - intros [z H]. apply (numeral_all _ _ _ _ (fun c d Hc Hd => proj1 (proj2 (proj2 (digits_of 10 c d Hc Hd))) eq_refl) H).
  - apply all_numeral. intros c. apply has_digit.
Qed.
Lemma numeral16 : forall t, (exists z, LiteralsSpec.numeral 16 t z) <-> Forall (fun c => hex c = true) t.
Proof.
  intro t. split.
  - intros [z H]. apply (numeral_all _ _ _ _ (fun c d Hc Hd => proj2 (proj2 (proj2 (digits_of 16 c d Hc Hd))) eq_refl) H).
  - apply all_numeral. intros c. apply has_digit.
Qed.

(** The texts of the rules for numerals are the literals. *)
Definition rule_of (k : Literals.token) : string * re :=
  match k with
  | Literals.TBinary => ("BINARY_LITERAL"%string, BINARY_LITERAL)
  | Literals.TOctal => ("OCTAL_LITERAL"%string, OCTAL_LITERAL)
  | Literals.THex => ("HEXADECIMAL_LITERAL"%string, HEXADECIMAL_LITERAL)
  | _ => ("DECIMAL_LITERAL"%string, DECIMAL_LITERAL)
  end.
Lemma in_bB : forall c l, one_of l c = true -> In c l.
Proof. intros c l. apply one_of_in. Qed.

Lemma int_matches : forall k t z, LiteralsSpec.int_literal k t z -> matches (snd (rule_of k)) t.
Proof.
  intros k t z H. destruct H as [t z c Hne Hn Hc|t z Hne Hn|x t z Hx Hne Hn| |c t z Hc Hn]; cbn [rule_of snd].
  - apply m_seq. exists t, [c]. repeat split.
    + apply plus_ch. split; [exact Hne|]. apply numeral2. eauto.
    + constructor. apply one_of_in. exact Hc.
  - apply m_seq. exists ["0"], t. repeat split; [apply m_chr; reflexivity|]. apply plus_ch. split; [exact Hne|]. apply numeral8. eauto.
  - apply m_seq. exists ["0"], (x :: t). repeat split; [apply m_chr; reflexivity|].
    apply m_seq. exists [x], t. repeat split; [constructor; apply one_of_in; exact Hx|]. apply plus_ch. split; [exact Hne|]. apply numeral16. eauto.
  - apply m_alt. right. apply m_chr. reflexivity.
  - apply m_alt. left. assert (Ha : Forall (fun c => digit c = true) (c :: t)) by (apply numeral10; eauto).
    inversion Ha; subst. apply m_seq. exists [c], t. repeat split; [constructor|apply star_ch; assumption].
    clear - Hc H1. revert Hc H1. each c; vm_compute; auto.
Qed.
Lemma int_kind : forall k t z, LiteralsSpec.int_literal k t z ->
  In k [Literals.TBinary; Literals.TOctal; Literals.THex; Literals.TDecimal].
Proof. intros k t z H. destruct H; cbn; auto. Qed.
Lemma matches_int : forall k t, In k [Literals.TBinary; Literals.TOctal; Literals.THex; Literals.TDecimal] ->
  matches (snd (rule_of k)) t -> exists z, LiteralsSpec.int_literal k t z.
Proof.
  intros k t [<-|[<-|[<-|[<-|[]]]]] H; cbn [rule_of snd] in H.
  - apply m_seq in H as (x & y & -> & Hx & Hy). apply plus_ch in Hx as [Hne Hx]. apply m_ch in Hy as (c & -> & Hc).
    apply numeral2 in Hx as [z Hz]. exists z. constructor; auto. apply one_of_in. exact Hc.
  - apply m_seq in H as (x & y & -> & Hx & Hy). apply m_chr in Hx as ->. apply plus_ch in Hy as [Hne Hy].
    apply numeral8 in Hy as [z Hz]. exists z. constructor; auto.
  - apply m_seq in H as (x & y & -> & Hx & Hy). apply m_chr in Hx as ->.
    apply m_seq in Hy as (x & w & -> & Hx & Hy). apply m_ch in Hx as (c & -> & Hc). apply plus_ch in Hy as [Hne Hy].
    apply numeral16 in Hy as [z Hz]. exists z. constructor; auto. apply one_of_in. exact Hc.
  - apply m_alt in H as [H|H].
    + apply m_seq in H as (x & y & -> & Hx & Hy). apply m_ch in Hx as (c & -> & Hc). apply star_ch in Hy.
      assert (Hcd : digit c = true /\ c <> "0") by (revert Hc; clear; each c; vm_compute; intro H; try discriminate H; (split; [reflexivity|discriminate])).
      destruct Hcd as [Hd H0]. assert (Ha : Forall (fun c => digit c = true) (c :: y)) by (constructor; assumption).
      apply numeral10 in Ha as [z Hz]. exists z. constructor; assumption.
    + apply m_chr in H as ->. exists 0%Z. constructor.
Qed.

Lemma exponent_matches : forall x, (exists e, LiteralsSpec.exponent x e) <-> matches FLOAT_EXPONENT x.
Proof.
  intro x. unfold FLOAT_EXPONENT. cbn [seqs]. split.
  - intros [e H]. apply m_seq.
    destruct H as [c t z Hc Hne Hn|c t z Hc Hne Hn|c t z Hc Hne Hn].
    + exists [c], t. repeat split; [constructor; apply one_of_in; exact Hc|]. apply m_seq. exists [], t. repeat split.
      * apply m_alt. right. constructor.
      * apply plus_ch. split; [exact Hne|]. apply numeral10. eauto.
    + exists [c], ("+" :: t). repeat split; [constructor; apply one_of_in; exact Hc|]. apply m_seq. exists ["+"], t. repeat split.
      * apply m_alt. left. constructor. reflexivity.
      * apply plus_ch. split; [exact Hne|]. apply numeral10. eauto.
    + exists [c], ("-" :: t). repeat split; [constructor; apply one_of_in; exact Hc|]. apply m_seq. exists ["-"], t. repeat split.
      * apply m_alt. left. constructor. reflexivity.
      * apply plus_ch. split; [exact Hne|]. apply numeral10. eauto.
  - intro H. apply m_seq in H as (a & b & -> & Ha & Hb). apply m_ch in Ha as (c & -> & Hc). apply one_of_in in Hc.
    apply m_seq in Hb as (s & t & -> & Hs & Ht). apply plus_ch in Ht as [Hne Ht]. apply numeral10 in Ht as [z Hz].
    apply m_alt in Hs as [Hs|Hs].
    + apply m_ch in Hs as (d & -> & Hd). apply one_of_in in Hd. destruct Hd as [<-|[<-|[]]].
      * exists z. apply LiteralsSpec.XPlus; assumption.
      * exists (-z)%Z. apply LiteralsSpec.XMinus; assumption.
    + apply m_eps in Hs as ->. exists z. apply LiteralsSpec.XNone; assumption.
Qed.
Lemma exponent_opt : forall x, (exists e, LiteralsSpec.exponent_or_none x e) <-> matches (opt FLOAT_EXPONENT) x.
Proof.
  intro x. unfold opt, LiteralsSpec.exponent_or_none. rewrite m_alt, m_eps, <- exponent_matches. split.
  - intros [e [H|[-> _]]]; eauto.
  - intros [[e H]| -> ]; [eauto|]. exists 0%Z. auto.
Qed.
Lemma double_matches : forall t, (exists m e, LiteralsSpec.double_literal t m e) <-> matches DOUBLE_LITERAL t.
Proof.
  intro t. unfold DOUBLE_LITERAL. cbn [alts seqs]. rewrite !m_alt. split.
  - intros (m & e & H). destruct H as [i x m e Hne Hn Hx|i f x m e Hne Hn Hx].
    + left. apply m_seq. exists i, x. repeat split; [|apply exponent_matches; eauto].
      apply plus_ch. split; [exact Hne|]. apply numeral10. eauto.
    + assert (Hd : Forall (fun c => digit c = true) (i ++ f)) by (apply numeral10; eauto).
      apply Forall_app in Hd as [Hi Hf].
      assert (Hopt : matches (opt FLOAT_EXPONENT) x) by (apply exponent_opt; eauto).
      right. destruct i as [|c i].
      * right. apply m_seq. exists ["."], (f ++ x). repeat split; [apply m_chr; reflexivity|].
        apply m_seq. exists f, x. repeat split; [|exact Hopt]. apply plus_ch. split; [exact Hne|exact Hf].
      * left. apply m_seq. exists (c :: i), ("." :: f ++ x). repeat split; [apply plus_ch; split; [discriminate|exact Hi]|].
        apply m_seq. exists ["."], (f ++ x). repeat split; [apply m_chr; reflexivity|].
        apply m_seq. exists f, x. repeat split; [apply star_ch; exact Hf|exact Hopt].
  - intros [H|[H|H]].
    + apply m_seq in H as (i & x & -> & Hi & Hx). apply plus_ch in Hi as [Hne Hi]. apply numeral10 in Hi as [m Hm].
      apply exponent_matches in Hx as [e He]. exists m, e. constructor; assumption.
    + apply m_seq in H as (i & y & -> & Hi & Hy). apply plus_ch in Hi as [Hne Hi].
      apply m_seq in Hy as (d & y' & -> & Hd & Hy). apply m_chr in Hd as ->.
      apply m_seq in Hy as (f & x & -> & Hf & Hx). apply star_ch in Hf. apply exponent_opt in Hx as [e He].
      assert (Ha : Forall (fun c => digit c = true) (i ++ f)) by (apply Forall_app; auto).
      apply numeral10 in Ha as [m Hm]. exists m, (e - Z.of_nat (length f))%Z. apply (LiteralsSpec.DPoint i f x m e); auto.
      intro Hn. apply app_eq_nil in Hn as [-> _]. contradiction.
    + apply m_seq in H as (d & y' & -> & Hd & Hy). apply m_chr in Hd as ->.
      apply m_seq in Hy as (f & x & -> & Hf & Hx). apply plus_ch in Hf as [Hne Hf]. apply exponent_opt in Hx as [e He].
      apply numeral10 in Hf as [m Hm]. exists m, (e - Z.of_nat (length f))%Z. apply (LiteralsSpec.DPoint [] f x m e); assumption.
Qed.
Lemma float_matches : forall t, (exists m e, LiteralsSpec.float_literal t m e) <-> matches FLOAT_LITERAL t.
Proof.
  intro t. unfold FLOAT_LITERAL. rewrite m_seq. split.
  - intros (m & e & [t' m' e' c Hd Hc]). exists t', [c]. repeat split; [apply double_matches; eauto|]. constructor. apply one_of_in. exact Hc.
  - intros (x & y & -> & Hx & Hy). apply double_matches in Hx as (m & e & Hx). apply m_ch in Hy as (c & -> & Hc).
    exists m, e. constructor; [exact Hx|]. apply one_of_in. exact Hc.
Qed.

(** Which texts the rules for numerals can share. *)
Definition last_in (P : ascii -> Prop) (t : text) : Prop := exists s c, t = s ++ [c] /\ P c.
Lemma last_in_app : forall P s t, last_in P t -> last_in P (s ++ t).
Proof. intros P s t (x & c & -> & Hc). exists (s ++ x), c. rewrite app_assoc. auto. Qed.
Lemma last_in_all : forall (P : ascii -> Prop) t, t <> [] -> Forall P t -> last_in P t.
Proof.
  intros P t Hne H. destruct (exists_last Hne) as (s & c & ->). apply Forall_app in H as [_ H]. inversion H; subst.
  exists s, c. auto.
Qed.
Lemma last_in_two : forall P Q t, last_in P t -> last_in Q t -> exists c, P c /\ Q c.
Proof. intros P Q t (x & c & -> & Hc) (y & d & He & Hd). apply app_inj_tail in He as [_ ->]. eauto. Qed.

Lemma binary_last : forall t, matches BINARY_LITERAL t -> last_in (fun c => one_of (str "bB") c = true) t.
Proof. intros t H. apply m_seq in H as (x & y & -> & _ & Hy). apply m_ch in Hy as (c & -> & Hc). exists x, c. auto. Qed.
Lemma float_last : forall t, matches FLOAT_LITERAL t -> last_in (fun c => one_of (str "fF") c = true) t.
Proof. intros t H. apply m_seq in H as (x & y & -> & _ & Hy). apply m_ch in Hy as (c & -> & Hc). exists x, c. auto. Qed.
Lemma octal_digits : forall t, matches OCTAL_LITERAL t -> Forall (fun c => digit c = true) t /\ exists c s, t = "0" :: c :: s.
Proof.
  intros t H. apply m_seq in H as (x & y & -> & Hx & Hy). apply m_chr in Hx as ->. apply plus_ch in Hy as [Hne Hy]. split.
  - constructor; [reflexivity|]. revert Hy. apply Forall_impl. intros c. each c; vm_compute; auto.
  - destruct y as [|c y]; [contradiction|]. cbn. eauto.
Qed.
Lemma hex_second : forall t, matches HEXADECIMAL_LITERAL t -> exists x s, t = "0" :: x :: s /\ In x (str "xX").
Proof.
  intros t H. apply m_seq in H as (x & y & -> & Hx & Hy). apply m_chr in Hx as ->.
  apply m_seq in Hy as (x & z & -> & Hx & _). apply m_ch in Hx as (c & -> & Hc). exists c, z. split; [reflexivity|apply one_of_in; exact Hc].
Qed.
Definition floaty (c : ascii) : bool := digit c || one_of (str ".eE+-fF") c.
Lemma double_within : within (fun c => floaty c = true) DOUBLE_LITERAL.
Proof.
  assert (H1 : forall c, digit c = true -> floaty c = true) by (intros c H; unfold floaty; rewrite H; reflexivity).
  assert (H2 : forall c, one_of (str "eE") c = true -> floaty c = true) by (intro c; each c; vm_compute; auto).
  assert (H3 : forall c, one_of (str "+-") c = true -> floaty c = true) by (intro c; each c; vm_compute; auto).
  assert (H4 : forall c, ("." =? c) = true -> floaty c = true) by (intro c; each c; vm_compute; auto).
  spread. repeat split; auto.
Qed.
Lemma float_within : within (fun c => floaty c = true) FLOAT_LITERAL.
Proof. split; [exact double_within|]. intro c. each c; vm_compute; auto. Qed.
Lemma double_last : forall t, matches DOUBLE_LITERAL t -> last_in (fun c => digit c = true \/ c = ".") t.
Proof.
  assert (He : forall x, matches FLOAT_EXPONENT x -> last_in (fun c => digit c = true \/ c = ".") x).
  { intros x H. apply m_seq in H as (a & b & -> & _ & Hb). apply m_seq in Hb as (s & t & -> & _ & Ht).
    apply plus_ch in Ht as [Hne Ht]. apply last_in_app, last_in_app. apply last_in_all; [exact Hne|].
    revert Ht. apply Forall_impl. auto. }
  assert (Hopt : forall a x, last_in (fun c => digit c = true \/ c = ".") a -> matches (opt FLOAT_EXPONENT) x -> last_in (fun c => digit c = true \/ c = ".") (a ++ x)).
  { intros a x Ha H. apply m_alt in H as [H|H]; [apply last_in_app, He, H|]. apply m_eps in H as ->. rewrite app_nil_r. exact Ha. }
  intros t H. unfold DOUBLE_LITERAL in H. cbn [alts seqs] in H. rewrite !m_alt in H. destruct H as [H|[H|H]].
  - apply m_seq in H as (i & x & -> & _ & Hx). apply last_in_app, He, Hx.
  - apply m_seq in H as (i & y & -> & _ & Hy). apply m_seq in Hy as (d & z & -> & Hd & Hy). apply m_chr in Hd as ->.
    apply m_seq in Hy as (f & x & -> & Hf & Hx). apply star_ch in Hf. apply last_in_app.
    change (["."] ++ f ++ x) with (("." :: f) ++ x). apply Hopt; [|exact Hx]. apply last_in_all; [discriminate|].
    constructor; [right; reflexivity|]. revert Hf. apply Forall_impl. auto.
  - apply m_seq in H as (d & z & -> & Hd & Hy). apply m_chr in Hd as ->.
    apply m_seq in Hy as (f & x & -> & Hf & Hx). apply plus_ch in Hf as [Hne Hf].
    change (["."] ++ f ++ x) with (("." :: f) ++ x). apply Hopt; [|exact Hx]. apply last_in_all; [discriminate|].
    constructor; [right; reflexivity|]. revert Hf. apply Forall_impl. auto.
Qed.
Lemma double_mark : forall t, matches DOUBLE_LITERAL t -> Exists (fun c => digit c = false) t /\ 2 <= length t.
Proof.
  assert (Hx : forall x, matches FLOAT_EXPONENT x -> Exists (fun c => digit c = false) x /\ 2 <= length x).
  { intros x H. apply m_seq in H as (a & b & -> & Ha & Hb). apply m_ch in Ha as (c & -> & Hc).
    apply m_seq in Hb as (s & t & -> & _ & Ht). apply plus_ch in Ht as [Hne _]. split.
    - constructor. revert Hc. clear. each c; vm_compute; auto.
    - cbn. rewrite app_length. destruct t; [contradiction|cbn; lia]. }
  intros t H. unfold DOUBLE_LITERAL in H. cbn [alts seqs] in H. rewrite !m_alt in H. destruct H as [H|[H|H]].
  - apply m_seq in H as (i & x & -> & _ & H). destruct (Hx _ H) as [H1 H2]. split; [apply Exists_app; right; exact H1|rewrite app_length; lia].
  - apply m_seq in H as (i & y & -> & Hi & Hy). apply plus_ch in Hi as [Hne _].
    apply m_seq in Hy as (d & z & -> & Hd & Hy). apply m_chr in Hd as ->. split.
    + apply Exists_app. right. constructor. reflexivity.
    + rewrite !app_length. destruct i; [contradiction|cbn; lia].
  - apply m_seq in H as (d & z & -> & Hd & Hy). apply m_chr in Hd as ->.
    apply m_seq in Hy as (f & x & -> & Hf & _). apply plus_ch in Hf as [Hne _]. split.
    + constructor. reflexivity.
    + rewrite !app_length. destruct f; [contradiction|cbn; lia].
Qed.
Lemma decimal_digits : forall t, matches DECIMAL_LITERAL t -> Forall (fun c => digit c = true) t /\ t <> [] /\ (t = ["0"] \/ exists c s, t = c :: s /\ c <> "0").
Proof.
  intros t H. apply m_alt in H as [H|H].
  - apply m_seq in H as (x & y & -> & Hx & Hy). apply m_ch in Hx as (c & -> & Hc). apply star_ch in Hy.
    assert (Hcd : digit c = true /\ c <> "0") by (revert Hc; clear; each c; vm_compute; intro H; try discriminate H; (split; [reflexivity|discriminate])).
    split; [constructor; [apply Hcd|exact Hy]|]. split; [discriminate|]. right. exists c, y. split; [reflexivity|apply Hcd].
  - apply m_chr in H as ->. split; [constructor; [reflexivity|constructor]|]. split; [discriminate|auto].
Qed.


(** The rules before that can begin with a digit or a point. *)
Lemma before_numeric : forall k name r c s, In (name, r) (upto k) -> rule_text r (c :: s) -> numeric_start c ->
  (s = [] /\ c = ".") \/ In (name, r) (firstn (k - 8) (skipn 8 other_rules)).
Proof.
  intros k name r c s Hin Ht Hc. apply in_app_or in Hin as [Hin|Hin].
  - left. assert (Hf : forallb (fun p : string * rule => match snd p with
        | Lit (d :: l) => negb (digit d || (d =? ".")) || match l with [] => (d =? ".") | _ => false end | _ => false end) fixed_rules = true) by (vm_compute; reflexivity).
    rewrite forallb_forall in Hf. specialize (Hf _ Hin). cbn [snd] in Hf. destruct r as [[|d l]| |]; try discriminate.
    cbn in Ht. injection Ht as -> ->. 
    assert (Hd : digit d || (d =? ".") = true) by (destruct Hc as [Hc| -> ]; [rewrite Hc|]; reflexivity).
    rewrite Hd in Hf. cbn [negb orb] in Hf. destruct l; [|discriminate]. apply Ascii.eqb_eq in Hf. auto.
  - assert (Hsplit : other_rules = firstn 8 other_rules ++ skipn 8 other_rules) by (symmetry; apply firstn_skipn).
    rewrite Hsplit, firstn_app in Hin. apply in_app_or in Hin as [Hin|Hin].
    + exfalso. 
      assert (Hin8 : In (name, r) (firstn 8 other_rules)).
      { rewrite <- (firstn_skipn k (firstn 8 other_rules)). apply in_or_app. left. exact Hin. }
      clear Hin Hsplit. cbn [firstn other_rules In] in Hin8.
      assert (Hno : forall d, numeric_start d -> d <> "/" /\ d <> "t" /\ d <> "f" /\ d <> quote /\ ~ In d blank).
      { clear. intros d [H| -> ].
        - revert H. each d; vm_compute; intro H; try discriminate H;
            (split; [discriminate|split; [discriminate|split; [discriminate|split; [discriminate|intros [H1|[H1|[H1|[H1|[H1|[]]]]]]; discriminate]]]]).
        - vm_compute. split; [discriminate|split; [discriminate|split; [discriminate|split; [discriminate|intros [H1|[H1|[H1|[H1|[H1|[]]]]]]; discriminate]]]]. }
      destruct (Hno c Hc) as (H1 & H2 & H3 & H4 & H5).
      repeat (destruct Hin8 as [Heq|Hin8]; [injection Heq as <- <-|]); try contradiction;
        try (apply between_starts in Ht as (z & Hz); injection Hz as -> _; contradiction);
        try (cbn in Ht; injection Ht as -> _; contradiction).
      * cbn in Ht. apply m_ch in Ht as (d & He & Hd'). injection He as -> _. apply one_of_in in Hd'. contradiction.
      * apply line_comment_text in Ht as (b & He & _). injection He as -> _. contradiction.
      * apply string_ends in Ht as (b & He). injection He as -> _. contradiction.
    + right. replace (length (firstn 8 other_rules)) with 8 in Hin by reflexivity. exact Hin.
Qed.
Lemma digit_chars : forall c, digit c = true -> one_of (str "bB") c = false /\ one_of (str "fF") c = false /\ ~ In c (str "xX") /\ c <> ".".
Proof. intros c. each c; vm_compute; intro H; try discriminate H; (repeat split; try discriminate; intros [H1|[H1|[]]]; discriminate). Qed.
Lemma digits_not_binary : forall t, t <> [] -> Forall (fun c => digit c = true) t -> ~ matches BINARY_LITERAL t.
Proof.
  intros t Hne H Hb. apply binary_last in Hb. destruct (last_in_two _ _ _ Hb (last_in_all _ _ Hne H)) as (c & H1 & H2).
  destruct (digit_chars c H2) as (H3 & _). congruence.
Qed.
Lemma digits_not_hex : forall t, Forall (fun c => digit c = true) t -> ~ matches HEXADECIMAL_LITERAL t.
Proof.
  intros t H Hb. apply hex_second in Hb as (x & s & -> & Hx). inversion H as [|? ? _ H2]; subst. inversion H2; subst.
  destruct (digit_chars x H3) as (_ & _ & Hnx & _). contradiction.
Qed.
Lemma digits_not_double : forall t, Forall (fun c => digit c = true) t -> ~ matches DOUBLE_LITERAL t.
Proof.
  intros t H Hb. apply double_mark in Hb as [Hb _]. apply Exists_exists in Hb as (c & Hc & Hf). rewrite Forall_forall in H.
  rewrite (H c Hc) in Hf. discriminate.
Qed.
Lemma digits_not_float : forall t, t <> [] -> Forall (fun c => digit c = true) t -> ~ matches FLOAT_LITERAL t.
Proof.
  intros t Hne H Hb. apply float_last in Hb. destruct (last_in_two _ _ _ Hb (last_in_all _ _ Hne H)) as (c & H1 & H2).
  destruct (digit_chars c H2) as (_ & H3 & _). congruence.
Qed.
Lemma floaty_not_hex : forall t, Forall (fun c => floaty c = true) t -> ~ matches HEXADECIMAL_LITERAL t.
Proof.
  intros t H Hb. apply hex_second in Hb as (x & s & -> & Hx). inversion H as [|? ? _ H2]; subst. inversion H2; subst.
  destruct Hx as [<-|[<-|[]]]; discriminate.
Qed.
Lemma ends_ok : forall c, (digit c = true \/ c = ".") -> one_of (str "bB") c = false /\ one_of (str "fF") c = false.
Proof. intros c [H| -> ]; [destruct (digit_chars c H) as (H1 & H2 & _); auto|split; reflexivity]. Qed.

Definition kinds := [Literals.TBinary; Literals.TOctal; Literals.THex; Literals.TDecimal].
Lemma number_intro : forall k name e c s, nth_error other_rules k = Some (name, Re e) -> hidden name = false -> name <> "INVALID_STRING_LITERAL"%string ->
  matches e (c :: s) -> numeric_start c -> ~ (s = [] /\ c = ".") ->
  (forall name' r', In (name', r') (firstn (k - 8) (skipn 8 other_rules)) -> ~ rule_text r' (c :: s)) -> word name (c :: s).
Proof.
  intros k name e c s Hk Hh Hn Hm Hc Hnd Hno.
  apply (word_intro name (Re e) (upto k) (skipn (S k) other_rules)); auto.
  - apply upto_split. exact Hk.
  - intros name' r' Hin Ht. destruct (before_numeric _ _ _ _ _ Hin Ht Hc) as [H|H]; [exact (Hnd H)|exact (Hno _ _ H Ht)].
Qed.
Lemma nonempty_start : forall name e t, In (name, Re e) rules ->
  In name ["BINARY_LITERAL"; "OCTAL_LITERAL"; "HEXADECIMAL_LITERAL"; "DOUBLE_LITERAL"; "FLOAT_LITERAL"; "DECIMAL_LITERAL"]%string ->
  matches e t -> exists c s, t = c :: s /\ numeric_start c.
Proof.
  intros name e t Hin Hn Hm. destruct t as [|c s]; [destruct (rules_never_empty _ _ Hin Hm)|].
  exists c, s. split; [reflexivity|exact (numeric_names_start _ _ _ _ Hin Hn Hm)].
Qed.
Lemma nth_in_rules : forall k name r, nth_error other_rules k = Some (name, r) -> In (name, r) rules.
Proof. intros k name r H. apply nth_error_In in H. apply in_rule. exact H. Qed.

Lemma binary_word : forall t, matches BINARY_LITERAL t -> word "BINARY_LITERAL" t.
Proof.
  intros t H. destruct (nonempty_start "BINARY_LITERAL" _ _ (nth_in_rules 8 _ _ eq_refl) ltac:(cbn; tauto) H) as (c & s & -> & Hc).
  apply (number_intro 8 _ BINARY_LITERAL); auto; [discriminate|].
  intros [-> ->]. apply binary_last in H as ([|? [|? ?]] & d & He & Hd); try discriminate. injection He as <-. discriminate.
Qed.
Lemma octal_word : forall t, matches OCTAL_LITERAL t -> word "OCTAL_LITERAL" t.
Proof.
  intros t H. destruct (nonempty_start "OCTAL_LITERAL" _ _ (nth_in_rules 9 _ _ eq_refl) ltac:(cbn; tauto) H) as (c & s & -> & Hc).
  destruct (octal_digits _ H) as [Hd (x & y & Hxy)].
  apply (number_intro 9 _ OCTAL_LITERAL); auto; [discriminate|intros [-> ->]; discriminate Hxy|].
  intros n' r' [Heq|[]] Ht. injection Heq as <- <-. exact (digits_not_binary (c :: s) ltac:(discriminate) Hd Ht).
Qed.
Lemma hex_word : forall t, matches HEXADECIMAL_LITERAL t -> word "HEXADECIMAL_LITERAL" t.
Proof.
  intros t H. destruct (nonempty_start "HEXADECIMAL_LITERAL" _ _ (nth_in_rules 10 _ _ eq_refl) ltac:(cbn; tauto) H) as (c & s & -> & Hc).
  destruct (hex_second _ H) as (x & y & Hxy & Hx).
  apply (number_intro 10 _ HEXADECIMAL_LITERAL); auto; [discriminate|intros [-> ->]; discriminate Hxy|].
  intros n' r' [Heq|[Heq|[]]] Ht; injection Heq as <- <-; cbn [rule_text] in Ht; rewrite Hxy in Ht.
  - assert (Hw : within (fun c => one_of (str "01bB") c = true) BINARY_LITERAL).
    { assert (H1 : forall c, one_of (str "01") c = true -> one_of (str "01bB") c = true) by (intro d; each d; vm_compute; auto).
      assert (H2 : forall c, one_of (str "bB") c = true -> one_of (str "01bB") c = true) by (intro d; each d; vm_compute; auto).
      spread. auto. }
    pose proof (within_ok _ _ _ Ht Hw) as Hf. inversion Hf as [|? ? _ H2]; subst. inversion H2; subst.
    destruct Hx as [<-|[<-|[]]]; discriminate.
  - apply octal_digits in Ht as [Hf _]. inversion Hf as [|? ? _ H2]; subst. inversion H2; subst.
    destruct (digit_chars x H3) as (_ & _ & Hnx & _). contradiction.
Qed.
Lemma double_word : forall t, matches DOUBLE_LITERAL t -> word "DOUBLE_LITERAL" t.
Proof.
  intros t H. destruct (nonempty_start "DOUBLE_LITERAL" _ _ (nth_in_rules 11 _ _ eq_refl) ltac:(cbn; tauto) H) as (c & s & -> & Hc).
  apply (number_intro 11 _ DOUBLE_LITERAL); auto; [discriminate| |].
  - intros [-> ->]. apply double_mark in H as [_ H]. cbn in H. lia.
  - intros n' r' [Heq|[Heq|[Heq|[]]]] Ht; injection Heq as <- <-; cbn [rule_text] in Ht.
    + destruct (last_in_two _ _ _ (binary_last _ Ht) (double_last _ H)) as (d & H1 & H2). destruct (ends_ok d H2). congruence.
    + apply octal_digits in Ht as [Hd _]. exact (digits_not_double _ Hd H).
    + exact (floaty_not_hex _ (within_ok _ _ _ H double_within) Ht).
Qed.
Lemma float_word : forall t, matches FLOAT_LITERAL t -> word "FLOAT_LITERAL" t.
Proof.
  intros t H. destruct (nonempty_start "FLOAT_LITERAL" _ _ (nth_in_rules 12 _ _ eq_refl) ltac:(cbn; tauto) H) as (c & s & -> & Hc).
  assert (Hfl := float_last _ H).
  apply (number_intro 12 _ FLOAT_LITERAL); auto; [discriminate| |].
  - intros [-> ->]. destruct Hfl as ([|? [|? ?]] & d & He & Hd); try discriminate. injection He as <-. discriminate.
  - intros n' r' [Heq|[Heq|[Heq|[Heq|[]]]]] Ht; injection Heq as <- <-; cbn [rule_text] in Ht.
    + destruct (last_in_two _ _ _ (binary_last _ Ht) Hfl) as (d & H1 & H2). revert H1 H2. clear. each d; vm_compute; intros; discriminate.
    + apply octal_digits in Ht as [Hd _]. exact (digits_not_float (c :: s) ltac:(discriminate) Hd H).
    + exact (floaty_not_hex _ (within_ok _ _ _ H float_within) Ht).
    + destruct (last_in_two _ _ _ (double_last _ Ht) Hfl) as (d & H1 & H2). destruct (ends_ok d H1). congruence.
Qed.
Lemma decimal_word : forall t, matches DECIMAL_LITERAL t -> word "DECIMAL_LITERAL" t.
Proof.
  intros t H. destruct (nonempty_start "DECIMAL_LITERAL" _ _ (nth_in_rules 13 _ _ eq_refl) ltac:(cbn; tauto) H) as (c & s & -> & Hc).
  destruct (decimal_digits _ H) as (Hd & Hne & Hz).
  apply (number_intro 13 _ DECIMAL_LITERAL); auto; [discriminate| |].
  - intros [-> ->]. inversion Hd; subst. discriminate.
  - intros n' r' [Heq|[Heq|[Heq|[Heq|[Heq|[]]]]]] Ht; injection Heq as <- <-; cbn [rule_text] in Ht.
    + exact (digits_not_binary _ Hne Hd Ht).
    + apply octal_digits in Ht as [_ (x & y & Hxy)]. destruct Hz as [Hz|(a & b & Ha & Hna)]; [congruence|].
      rewrite Ha in Hxy. injection Hxy as -> _. contradiction.
    + exact (digits_not_hex _ Hd Ht).
    + exact (digits_not_double _ Hd Ht).
    + exact (digits_not_float _ Hne Hd Ht).
Qed.
Lemma named_rule : forall k name r, nth_error other_rules k = Some (name, r) -> name <> "BOOL_LITERAL"%string ->
  forall r', In (name, r') rules -> r' = r.
Proof.
  intros k name r Hk Hb r' Hin. apply in_app_or in Hin as [Hin|Hin].
  - exfalso. assert (Hf : forallb (fun p : string * rule => negb (existsb (fun q : string * rule => String.eqb (fst p) (fst q)) other_rules)) fixed_rules = true) by (vm_compute; reflexivity).
    rewrite forallb_forall in Hf. specialize (Hf _ Hin). cbn [fst] in Hf. apply negb_true_iff in Hf.
    assert (He : existsb (fun q : string * rule => String.eqb name (fst q)) other_rules = true).
    { apply existsb_exists. exists (name, r). split; [apply nth_error_In in Hk; exact Hk|apply String.eqb_refl]. }
    congruence.
  - do 17 (destruct k as [|k]; [cbn in Hk; injection Hk as <- <-; try contradiction (Hb eq_refl);
      cbn [other_rules In] in Hin; repeat (destruct Hin as [Heq|Hin]; [first [discriminate Heq|injection Heq as <-; reflexivity]|]); contradiction|]).
    destruct k; discriminate.
Qed.
Lemma word_text : forall k name r t, nth_error other_rules k = Some (name, r) -> name <> "BOOL_LITERAL"%string -> word name t -> rule_text r t.
Proof.
  intros k name r t Hk Hb Hw. destruct (word_rule _ _ Hw) as (r' & Hin & Ht & _). rewrite <- (named_rule _ _ _ Hk Hb _ Hin). exact Ht.
Qed.

(** ** The statements *)

Definition kind_name (k : Literals.token) : string := fst (rule_of k).
Lemma int_words : forall k t, In k kinds -> (word (kind_name k) t <-> exists z, LiteralsSpec.int_literal k t z).
Proof.
  intros k t Hk. split.
  - intro Hw. apply matches_int; [exact Hk|]. unfold kinds in Hk.
    destruct Hk as [<-|[<-|[<-|[<-|[]]]]]; cbn [rule_of snd].
    + apply (word_text 8 "BINARY_LITERAL" (Re BINARY_LITERAL) t eq_refl ltac:(discriminate) Hw).
    + apply (word_text 9 "OCTAL_LITERAL" (Re OCTAL_LITERAL) t eq_refl ltac:(discriminate) Hw).
    + apply (word_text 10 "HEXADECIMAL_LITERAL" (Re HEXADECIMAL_LITERAL) t eq_refl ltac:(discriminate) Hw).
    + apply (word_text 13 "DECIMAL_LITERAL" (Re DECIMAL_LITERAL) t eq_refl ltac:(discriminate) Hw).
  - intros [z Hz]. apply int_matches in Hz. destruct Hk as [<-|[<-|[<-|[<-|[]]]]]; cbn [rule_of snd] in Hz.
    + apply binary_word, Hz.
    + apply octal_word, Hz.
    + apply hex_word, Hz.
    + apply decimal_word, Hz.
Qed.
Lemma double_words : forall t, word "DOUBLE_LITERAL" t <-> exists m e, LiteralsSpec.double_literal t m e.
Proof.
  intro t. rewrite double_matches. split; [|apply double_word].
  intro Hw. apply (word_text 11 "DOUBLE_LITERAL" (Re DOUBLE_LITERAL) t eq_refl ltac:(discriminate) Hw).
Qed.
Lemma float_words : forall t, word "FLOAT_LITERAL" t <-> exists m e, LiteralsSpec.float_literal t m e.
Proof.
  intro t. rewrite float_matches. split; [|apply float_word].
  intro Hw. apply (word_text 12 "FLOAT_LITERAL" (Re FLOAT_LITERAL) t eq_refl ltac:(discriminate) Hw).
Qed.

(** ** Strings *)

Lemma hexes : forall n h, length h = n -> Forall (fun c => hex c = true) h -> matches (seqs (repeat (Ch hex) n)) h.
Proof.
  induction n as [|n IH]; intros h Hl Hf; destruct h as [|c h]; try discriminate; [constructor|].
  inversion Hf; subst. injection Hl as Hl. cbn [repeat seqs]. destruct n as [|n].
  - destruct h; [|discriminate]. constructor. assumption.
  - cbn [repeat]. change (matches (Seq (Ch hex) (seqs (repeat (Ch hex) (S n)))) ([c] ++ h)). constructor; [constructor; assumption|]. apply IH; assumption.
Qed.
Lemma char_matches : forall a v, LiteralsSpec.string_char a v -> (forall c, In c a -> ~ In c line_end) -> matches STRING_CHARACTER a.
Proof.
  intros a v H Hl. unfold STRING_CHARACTER. cbn [alts]. rewrite !m_alt.
  destruct H as [c Hq Hb|c n Hc|h z Hn Hh|h z Hn Hh|o z Hn Ho Hz].
  - left. constructor. apply negb_true_iff. destruct (one_of (quote :: backslash :: line_end) c) eqn:E; [|reflexivity].
    apply one_of_in in E as [E|[E|E]]; [destruct (Hq (eq_sym E))|destruct (Hb (eq_sym E))|]. destruct (Hl c (or_introl eq_refl) E).
  - right. left. apply m_seq. exists [backslash], [c]. repeat split; [apply m_chr; reflexivity|]. constructor. apply one_of_in.
    cbn in Hc. repeat (destruct Hc as [Hc|Hc]; [injection Hc as <- <-; cbn; auto 8|]). contradiction.
  - right. right. left. assert (Hf : Forall (fun c => hex c = true) h) by (apply numeral16; eauto).
    apply (hexes 4) in Hf; [|exact Hn]. cbn [seqs]. apply m_seq. exists [backslash], ("u" :: h). repeat split; [apply m_chr; reflexivity|].
    apply m_seq. exists ["u"], h. repeat split; [apply m_chr; reflexivity|exact Hf].
  - right. right. right. left. assert (Hf : Forall (fun c => hex c = true) h) by (apply numeral16; eauto).
    apply (hexes 2) in Hf; [|exact Hn]. cbn [seqs]. apply m_seq. exists [backslash], ("x" :: h). repeat split; [apply m_chr; reflexivity|].
    apply m_seq. exists ["x"], h. repeat split; [apply m_chr; reflexivity|exact Hf].
  - right. right. right. right. assert (Hf : Forall (fun c => octal c = true) o) by (apply numeral8; eauto).
    cbn [seqs]. apply m_seq. exists [backslash], ("0" :: o). repeat split; [apply m_chr; reflexivity|].
    apply m_seq. exists ["0"], o. repeat split; [apply m_chr; reflexivity|].
    destruct o as [|a [|b [|c [|d o]]]]; cbn in Hn; try lia.
    + inversion Hf; subst. apply m_seq. exists [], [a]. repeat split; [apply m_alt; right; constructor|].
      apply m_seq. exists [a], []. repeat split; [constructor; assumption|apply m_alt; right; constructor].
    + inversion Hf as [|? ? Ha Hf']; subst. inversion Hf' as [|? ? Hb _]; subst.
      apply m_seq. exists [], [a; b]. repeat split; [apply m_alt; right; constructor|].
      apply m_seq. exists [a], [b]. repeat split; [constructor; assumption|apply m_alt; left; constructor; assumption].
    + inversion Hf as [|? ? Ha Hf']; subst. inversion Hf' as [|? ? Hb Hf'']; subst. inversion Hf'' as [|? ? Hc _]; subst.
      apply m_seq. exists [a], [b; c]. repeat split.
      * apply m_alt. left. constructor.
        (* three digits below 256: the first is at most 3 *)
        assert (Hd : exists d, LiteralsSpec.digit a d /\ (Z.of_nat d * 64 <= z)%Z).
        { clear - Ho. inversion Ho as [|t1 z1 c1 d1 H1 Hd1 Hl1 He1]; subst.
          apply (app_inj_tail t1 [a; b] c1 c) in He1 as [-> ->].
          inversion H1 as [|t2 z2 c2 d2 H2 Hd2 Hl2 He2]; subst. apply (app_inj_tail t2 [a] c2 b) in He2 as [-> ->].
          inversion H2 as [|t3 z3 c3 d3 H3 Hd3 Hl3 He3]; subst. apply (app_inj_tail t3 [] c3 a) in He3 as [-> ->].
          inversion H3 as [|t4 z4 c4 d4 H4 Hd4 Hl4 He4]; subst; [|destruct t4; discriminate].
          exists d3. split; [assumption|lia]. }
        destruct Hd as (d & Hd & Hle). assert (Hd3 : d < 4) by lia. unfold LiteralsSpec.digit in Hd.
        do 4 (destruct d as [|d]; [destruct Hd as [Hd|Hd]; injection Hd as <-; reflexivity|]). lia.
      * apply m_seq. exists [b], [c]. repeat split; [constructor; assumption|apply m_alt; left; constructor; assumption].
Qed.
Lemma body_matches : forall b v, LiteralsSpec.string_body b v -> (forall c, In c b -> ~ In c line_end) -> matches (Star STRING_CHARACTER) b.
Proof.
  intros b v H. induction H as [|a x b y Ha _ IH]; intro Hl; [constructor|]. constructor.
  - apply (char_matches _ _ Ha). intros c Hc. apply Hl. apply in_or_app. auto.
  - apply IH. intros c Hc. apply Hl. apply in_or_app. auto.
Qed.
Lemma string_word : forall t, matches STRING_LITERAL t -> word "STRING_LITERAL" t.
Proof.
  intros t H. apply (word_intro "STRING_LITERAL" (Re STRING_LITERAL) (upto 7) (skipn 8 other_rules)).
  - apply upto_split. reflexivity.
  - reflexivity.
  - discriminate.
  - exact H.
  - intros name r Hin Ht. destruct (string_ends _ H) as (b & ->). pose proof (lit_in _ _ _ Hin) as Hin'.
    pose proof (starting _ _ _ _ _ Hin' Ht start_quote) as Hr.
    apply in_app_or in Hin as [Hin|Hin].
    + destruct (fixed_lit _ _ Hin) as [l ->]. destruct Hr as [Hr|[Hr|[]]]; discriminate.
    + destruct Hr as [Hr|[Hr|[]]]; injection Hr as <- <-; cbn [firstn other_rules In] in Hin;
        repeat (destruct Hin as [Heq|Hin]; [discriminate Heq|]); contradiction.
Qed.
Lemma string_words : forall b v, LiteralsSpec.string_body b v -> (forall c, In c b -> ~ In c line_end) -> word "STRING_LITERAL" (quote :: b ++ [quote]).
Proof.
  intros b v H Hl. apply string_word. unfold STRING_LITERAL. cbn [seqs]. apply m_seq. exists [quote], (b ++ [quote]).
  repeat split; [apply m_chr; reflexivity|]. apply m_seq. exists b, [quote]. repeat split; [exact (body_matches _ _ H Hl)|apply m_chr; reflexivity].
Qed.

(** The other direction. *)
Lemma hexes_inv : forall n h, matches (seqs (repeat (Ch hex) n)) h -> length h = n /\ Forall (fun c => hex c = true) h.
Proof.
  induction n as [|n IH]; intros h H.
  - apply m_eps in H as ->. split; [reflexivity|constructor].
  - destruct n as [|n].
    + apply m_ch in H as (c & -> & Hc). split; [reflexivity|constructor; [exact Hc|constructor]].
    + change (matches (Seq (Ch hex) (seqs (repeat (Ch hex) (S n)))) h) in H. apply m_seq in H as (x & y & -> & Hx & Hy).
      apply m_ch in Hx as (c & -> & Hc). destruct (IH _ Hy) as [Hl Hf]. split; [cbn; lia|constructor; assumption].
Qed.
Lemma inner_no_end : forall c, hex c = true \/ octal c = true \/ In c (quote :: backslash :: str "rnftux0") -> ~ In c line_end.
Proof.
  intros c H Hin. destruct Hin as [<-|[<-|[<-|[]]]]; destruct H as [H|[H|H]]; try (vm_compute in H; discriminate H);
    repeat (destruct H as [H|H]; [discriminate H|]); contradiction.
Qed.
Lemma octal_value : forall c z0 z, octal c = true -> LiteralsSpec.numeral 8 [c] z -> z0 = 8%Z -> (0 <= z < z0)%Z.
Proof.
  intros c z0 z _ H ->. inversion H as [|t1 z1 c1 d1 H1 Hd1 Hl1 He1]; subst. apply (app_inj_tail t1 [] c1 c) in He1 as [-> ->].
  inversion H1 as [|t4 z4 c4 d4 H4 Hd4 Hl4 He4]; subst; [lia|destruct t4; discriminate].
Qed.
Lemma numeral_snoc : forall t c z, LiteralsSpec.numeral 8 (t ++ [c]) z -> exists z' d, LiteralsSpec.numeral 8 t z' /\ LiteralsSpec.digit c d /\ (Z.of_nat d < 8)%Z /\ z = (z' * 8 + Z.of_nat d)%Z.
Proof.
  intros t c z H. inversion H as [He|t1 z1 c1 d1 H1 Hd1 Hl1 He1]; subst; [destruct t; discriminate|].
  apply app_inj_tail in He1 as [-> ->]. eauto 8.
Qed.
Lemma numeral_nil : forall z, LiteralsSpec.numeral 8 [] z -> z = 0%Z.
Proof. intros z H. inversion H as [He|t1 z1 c1 d1 H1 Hd1 Hl1 He1]; subst; [reflexivity|destruct t1; discriminate]. Qed.
Lemma small_first : forall c d, range "0" "3" c = true -> LiteralsSpec.digit c d -> d < 4.
Proof.
  intros c d Hr Hd. unfold LiteralsSpec.digit in Hd.
  do 4 (destruct d as [|d]; [lia|]).
  do 12 (destruct d as [|d]; [destruct Hd as [Hd|Hd]; injection Hd as <-; vm_compute in Hr; discriminate Hr|]).
  destruct Hd as [Hd|Hd]; destruct d; discriminate.
Qed.
Lemma matches_char : forall a, matches STRING_CHARACTER a -> (exists v, LiteralsSpec.string_char a v) /\ (forall c, In c a -> ~ In c line_end).
Proof.
  intros a H. unfold STRING_CHARACTER in H. cbn [alts seqs] in H. rewrite !m_alt in H.
  destruct H as [H|[H|[H|[H|H]]]].
  - apply m_ch in H as (c & -> & Hc). apply negb_true_iff in Hc.
    assert (Hn : ~ In c (quote :: backslash :: line_end)) by (rewrite <- one_of_in, Hc; discriminate).
    split.
    + exists [c]. apply LiteralsSpec.SPlain; intro He; apply Hn; [left|right; left]; symmetry; exact He.
    + intros d [<-|[]] Hd. apply Hn. right. right. exact Hd.
  - apply m_seq in H as (x & y & -> & Hx & Hy). apply m_chr in Hx as ->. apply m_ch in Hy as (c & -> & Hc). apply one_of_in in Hc.
    split.
    + assert (He : exists n, In (c, n) LiteralsSpec.escapes).
      { cbn in Hc. repeat (destruct Hc as [<-|Hc]; [eexists; cbn; auto 8|]). contradiction. }
      destruct He as [n He]. exists [ascii_of_nat n]. apply (LiteralsSpec.SEscape c n He).
    + intros d Hd. apply inner_no_end. right. right. destruct Hd as [<-|[<-|[]]]; [right; left; reflexivity|].
      cbn in Hc |- *. tauto.
  - apply m_seq in H as (x & y & -> & Hx & Hy). apply m_chr in Hx as ->. apply m_seq in Hy as (x & h & -> & Hx & Hh). apply m_chr in Hx as ->.
    apply (hexes_inv 4) in Hh as [Hl Hf]. split.
    + apply numeral16 in Hf as [z Hz]. eexists. exact (LiteralsSpec.SUnicode h z Hl Hz).
    + intros d Hd. apply inner_no_end. destruct Hd as [<-|[<-|Hd]]; [right; right; cbn; tauto|right; right; cbn; tauto|left].
      rewrite Forall_forall in Hf. exact (Hf _ Hd).
  - apply m_seq in H as (x & y & -> & Hx & Hy). apply m_chr in Hx as ->. apply m_seq in Hy as (x & h & -> & Hx & Hh). apply m_chr in Hx as ->.
    apply (hexes_inv 2) in Hh as [Hl Hf]. split.
    + apply numeral16 in Hf as [z Hz]. eexists. exact (LiteralsSpec.SHex h z Hl Hz).
    + intros d Hd. apply inner_no_end. destruct Hd as [<-|[<-|Hd]]; [right; right; cbn; tauto|right; right; cbn; tauto|left].
      rewrite Forall_forall in Hf. exact (Hf _ Hd).
  - apply m_seq in H as (x & y & -> & Hx & Hy). apply m_chr in Hx as ->. apply m_seq in Hy as (x & h & -> & Hx & Hh). apply m_chr in Hx as ->.
    apply m_seq in Hh as (a & y & -> & Ha & Hy). apply m_seq in Hy as (b & c & -> & Hb & Hc).
    apply m_ch in Hb as (b' & -> & Hb).
    assert (Hc' : exists l, c = l /\ (l = [] \/ exists d, l = [d] /\ octal d = true)).
    { exists c. split; [reflexivity|]. apply m_alt in Hc as [Hc|Hc]; [right|left; apply m_eps; exact Hc]. apply m_ch in Hc as (d & -> & Hd). eauto. }
    assert (Ha' : a = [] \/ exists d, a = [d] /\ range "0" "3" d = true).
    { apply m_alt in Ha as [Ha|Ha]; [right|left; apply m_eps; exact Ha]. apply m_ch in Ha as (d & -> & Hd). eauto. }
    assert (H3 : forall d, range "0" "3" d = true -> octal d = true) by (intro d; each d; vm_compute; auto).
    assert (Hf : Forall (fun c => octal c = true) (a ++ [b'] ++ c)).
    { apply Forall_app. split; [|apply Forall_app; split].
      - destruct Ha' as [ -> |(d & -> & Hd)]; [constructor|constructor; [apply H3; exact Hd|constructor]].
      - constructor; [exact Hb|constructor].
      - destruct Hc' as (l & -> & [ -> |(d & -> & Hd)]); [constructor|constructor; [exact Hd|constructor]]. }
    split.
    + assert (Hz : exists z, LiteralsSpec.numeral 8 (a ++ [b'] ++ c) z) by (apply numeral8; exact Hf). destruct Hz as [z Hz].
      assert (Hlen : 1 <= length (a ++ [b'] ++ c) <= 3).
      { rewrite !app_length. cbn [length]. destruct Ha' as [ -> |(d & -> & _)]; destruct Hc' as (l & -> & [ -> |(d' & -> & _)]); cbn; lia. }
      eexists. apply (LiteralsSpec.SOctal (a ++ [b'] ++ c) z Hlen Hz).
      destruct Hc' as (l & -> & [ -> |(d' & -> & _)]).
      * rewrite app_nil_r in Hz. apply numeral_snoc in Hz as (z1 & k1 & Hz1 & _ & Hk1 & ->).
        destruct Ha' as [ -> |(d & -> & Hd)]; [apply numeral_nil in Hz1 as ->; lia|].
        apply (numeral_snoc []) in Hz1 as (z2 & k2 & Hz2 & Hd2 & Hk2 & ->). apply numeral_nil in Hz2 as ->. lia.
      * rewrite app_assoc in Hz. apply numeral_snoc in Hz as (z1 & k1 & Hz1 & _ & Hk1 & ->).
        apply numeral_snoc in Hz1 as (z2 & k2 & Hz2 & _ & Hk2 & ->).
        destruct Ha' as [ -> |(d & -> & Hd)]; [apply numeral_nil in Hz2 as ->; lia|].
        apply (numeral_snoc []) in Hz2 as (z3 & k3 & Hz3 & Hd3 & Hk3 & ->). apply numeral_nil in Hz3 as ->.
        pose proof (small_first _ _ Hd Hd3). lia.
    + intros d Hd. apply inner_no_end. destruct Hd as [<-|[<-|Hd]]; [right; right; cbn; tauto|right; right; cbn; tauto|right; left].
      rewrite Forall_forall in Hf. exact (Hf _ Hd).
Qed.
Lemma matches_body : forall b, matches (Star STRING_CHARACTER) b -> (exists v, LiteralsSpec.string_body b v) /\ (forall c, In c b -> ~ In c line_end).
Proof.
  intros b H. remember (Star STRING_CHARACTER) as r eqn:Er.
  induction H as [ | | | | |a|a y z Hy _ Hz IH]; try discriminate.
  - split; [exists []; constructor|intros c []].
  - injection Er as ->. destruct (matches_char _ Hy) as [[v Hv] Hl]. destruct (IH eq_refl) as [[w Hw] Hl']. split.
    + exists (v ++ w). constructor; assumption.
    + intros c Hc. apply in_app_or in Hc as [Hc|Hc]; auto.
Qed.
Lemma string_words_iff : forall t, word "STRING_LITERAL" t <->
  exists b v, t = quote :: b ++ [quote] /\ LiteralsSpec.string_body b v /\ forall c, In c b -> ~ In c line_end.
Proof.
  intro t. split.
  - intro Hw. pose proof (word_text 7 "STRING_LITERAL" (Re STRING_LITERAL) t eq_refl ltac:(discriminate) Hw) as H.
    cbn [rule_text] in H. unfold STRING_LITERAL in H. cbn [seqs] in H.
    apply m_seq in H as (x & y & -> & Hx & Hy). apply m_chr in Hx as ->.
    apply m_seq in Hy as (b & z & -> & Hb & Hz). apply m_chr in Hz as ->.
    destruct (matches_body _ Hb) as [[v Hv] Hl]. exists b, v. auto.
  - intros (b & v & -> & Hv & Hl). exact (string_words _ _ Hv Hl).
Qed.
Lemma int_words_iff : forall name k t, int_token name k -> (word name t <-> exists z, LiteralsSpec.int_literal k t z).
Proof.
  intros name k t H. assert (Hk : In k kinds /\ name = kind_name k).
  { destruct H as [H|[H|[H|[H|[]]]]]; injection H as <- <-; (split; [cbn; auto|reflexivity]). }
  destruct Hk as [Hk ->]. apply int_words. exact Hk.
Qed.
Lemma id_words : forall t, word "ID" t <-> exists c s, t = c :: s /\ letter c = true /\ Forall word_like s /\ ~ keyword t.
Proof. intro t. split; [apply word_id|]. intros (c & s & -> & Hc & Hs & Hk). exact (id_word _ _ Hc Hs Hk). Qed.

(** ** The comment that does not end *)
Lemma empty_comment : forall code s, first_at_end (str "*/") code -> tokens (str "/**/" ++ code ++ str "*/" ++ s) = tokens s.
Proof.
  intros code s Hf.
  assert (Hf2 : first_at_end (str "*/") ("/" :: code)).
  { intros x y He. destruct x as [|d x].
    - cbn in He. discriminate He.
    - cbn in He. injection He as <- He. apply (Hf x y). exact He. }
  replace (str "/**/" ++ code ++ str "*/" ++ s) with ((str "/**" ++ ("/" :: code) ++ str "*/") ++ s) by (rewrite <- !app_assoc; reflexivity).
  assert (Hstep : exists name, next_token ((str "/**" ++ ("/" :: code) ++ str "*/") ++ s) name (str "/**" ++ ("/" :: code) ++ str "*/") /\ hidden name = true).
  { apply (hidden_step _ s "DOC_COMMENT" (Between (str "/**") (str "*/"))).
    - apply in_rule. cbn. auto.
    - exists ("/" :: code). auto.
    - discriminate.
    - intros name r x y Hin He Hx. destruct x as [|d x]; [destruct (rules_never_empty _ _ Hin Hx)|].
      cbn in He. injection He as <- He. pose proof (starting _ _ _ _ _ Hin Hx start_slash) as Hc.
      rewrite !app_length.
      destruct Hc as [Hc|[Hc|[Hc|[Hc|[Hc|[]]]]]]; injection Hc as <- <-.
      + cbn in Hx. injection Hx as ->. cbn. split; [lia|lia].
      + split; [|reflexivity]. destruct Hx as (b & Hb & Hfb). injection Hb as ->. cbn in He. injection He as He.
        rewrite <- !app_assoc in He.
        pose proof (close_same (str "*/") ("/" :: code) b s y Hf2 Hfb He) as Hl.
        cbn [length]. rewrite app_length. cbn in Hl |- *. lia.
      + destruct Hx as (b & Hb & Hfb). injection Hb as ->. discriminate He.
      + split; [|reflexivity]. destruct Hx as (b & Hb & Hfb). injection Hb as ->. cbn in He. injection He as He.
        rewrite <- !app_assoc in He.
        assert (Hl : length b <= 0).
        { apply (close_same (str "*/") [] b (code ++ str "*/" ++ s) y); [intros x' y' Hxy|exact Hfb|exact He].
          destruct x' as [|d1 [|d2 [|d3 x']]]; cbn in Hxy; try discriminate; injection Hxy; auto. }
        cbn [length]. rewrite app_length. cbn in Hl |- *. lia.
      + apply line_comment_text in Hx as (b & Hx & _). injection Hx as ->. discriminate. }
  destruct Hstep as (name & Hn & Hh). exact (tokens_hidden _ _ _ Hn Hh).
Qed.
Lemma written_unique : forall ws ws' s, written ws s -> written ws' s -> ws = ws'.
Proof. intros ws ws' s H H'. rewrite <- (written_tokens _ _ H). exact (written_tokens _ _ H'). Qed.

(** For examples. *)
Lemma word_by_best : forall name t, best rules t = Some (name, length t) -> hidden name = false -> name <> "INVALID_STRING_LITERAL"%string -> word name t.
Proof. intros name t H Hh Hn. apply best_next in H as (_ & H & _). rewrite firstn_all in H. split; auto. Qed.
Definition glues_all (t : text) (c : ascii) : bool :=
  gluesb t c || match t with d :: _ => (digit d || (d =? ".")) && (word_char c || one_of (str ".+-") c) | [] => false end.
Lemma glues_all_ok : forall t c, glues_all t c = false -> ~ glues t c.
Proof.
  intros t c H Hg. apply orb_false_iff in H as [H1 H2]. unfold gluesb in H1. apply orb_false_iff in H1 as [H1 H3].
  destruct Hg as [t' d -> Hd Hc|d t' -> Hd Hc|Hp].
  - rewrite rev_app_distr in H1. cbn in H1. unfold word_like in Hd, Hc. rewrite Hd, Hc in H1. discriminate.
  - assert (Ha : digit d || (d =? ".") = true) by (destruct Hd as [Hd| -> ]; [rewrite Hd|]; reflexivity).
    assert (Hb : word_char c || one_of (str ".+-") c = true).
    { destruct Hc as [Hc|Hc]; [unfold word_like in Hc; rewrite Hc; reflexivity|]. apply one_of_in in Hc. rewrite Hc. apply orb_true_r. }
    rewrite Ha, Hb in H2. discriminate.
  - destruct (in_dec pair_dec (t, c) operator_pairs); [discriminate|contradiction].
Qed.
Lemma lex_iff : forall s name t, (exists l, lex s = Token name t :: l) <-> next_token s name t.
Proof.
  intros s name t. split.
  - intros [l H]. destruct (lex_starts _ _ _ _ H) as (rest & _ & Hn & _). exact Hn.
  - intro Hn. pose proof Hn as (_ & _ & _ & rest & _ & Hs & _). subst s. rewrite (lex_token _ _ _ Hn). eauto.
Qed.
Lemma lex_rest : forall s name t l, lex s = Token name t :: l -> exists rest, s = t ++ rest /\ l = lex rest.
Proof. intros s name t l H. destruct (lex_starts _ _ _ _ H) as (rest & Hs & _ & Hl). eauto. Qed.
Lemma stray : forall s, s <> [] -> (forall name t, ~ next_token s name t) ->
  exists x rest, s = x ++ rest /\ x <> [] /\ lex s = Skipped x :: lex rest /\ tokens s = tokens rest.
Proof.
  intros s Hne Hno. destruct (lex s) as [|[name t|x] l] eqn:El.
  - destruct s as [|c s]; [contradiction|]. pose proof (lex_text (c :: s)) as H. rewrite El in H. discriminate.
  - destruct (lex_starts _ _ _ _ El) as (rest & _ & Hn & _). destruct (Hno _ _ Hn).
  - destruct (lex_skips _ _ _ El) as (rest & Hs & Hx & _ & ->). exists x, rest. repeat split; auto.
    unfold tokens. rewrite El. reflexivity.
Qed.
Lemma layout_written : forall l ws s, layout l -> written ws s -> tokens (l ++ s) = ws.
Proof. intros l ws s Hl Hw. rewrite (layout_tokens _ Hl). exact (written_tokens _ _ Hw). Qed.
