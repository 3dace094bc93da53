(** Facts about the lexer: words and layout. *)

Require Import ZArith String Ascii List Bool Lia.
From Verif Require Import Files Lexer LexerSpec LexerFacts.
Import ListNotations.
Open Scope nat_scope.
Open Scope char_scope.

(** ** Characters of a rule *)

Fixpoint within (P : ascii -> Prop) (r : re) : Prop :=
  match r with
  | Nothing | Eps => True
  | Ch p => forall c, p c = true -> P c
  | Seq a b | Alt a b => within P a /\ within P b
  | Star a => within P a
  end.
Lemma within_ok : forall P r s, matches r s -> within P r -> Forall P s.
Proof.
  intros P r s H. induction H as [|p c Hp|a b s t _ IHs _ IHt|a b s _ IH|a b s _ IH|a|a s t _ IHs _ IHt]; cbn [within]; intro Hw.
  - constructor.
  - constructor; [exact (Hw c Hp)|constructor].
  - apply Forall_app. split; [apply IHs|apply IHt]; apply Hw.
  - apply IH, Hw.
  - apply IH, Hw.
  - constructor.
  - apply Forall_app. split; [apply IHs|apply IHt]; exact Hw.
Qed.

Definition can_start (r : rule) (c : ascii) : bool :=
  match r with
  | Lit (d :: _) | Between (d :: _) _ => d =? c
  | Lit [] | Between [] _ => true
  | Re e => match deriv c e with Nothing => false | _ => true end
  end.
Lemma can_start_ok : forall r c s, rule_text r (c :: s) -> can_start r c = true.
Proof.
  intros [[|d t]|e|[|d a] b] c s H; cbn [can_start rule_text] in *; try reflexivity.
  - injection H as <- _. apply Ascii.eqb_refl.
  - apply deriv_ok in H. destruct (deriv c e); try reflexivity. destruct (m_nothing _ H).
  - destruct H as (body & H & _). injection H as <- _. apply Ascii.eqb_refl.
Qed.
(** The rules that can begin with a character. *)
Lemma starting : forall c name r s l, In (name, r) rules -> rule_text r (c :: s) ->
  filter (fun p => can_start (snd p) c) rules = l -> In (name, r) l.
Proof. intros c name r s l Hin Ht <-. apply filter_In. split; [exact Hin|exact (can_start_ok _ _ _ Ht)]. Qed.

Lemma start_slash : filter (fun p => can_start (snd p) "/") rules =
  [("DIVIDE"%string, Lit (str "/")); ("DOC_COMMENT"%string, Between (str "/**") (str "*/"));
   ("MARKDOWN_COMMENT"%string, Between (str "/*!") (str "*/")); ("BLOCK_COMMENT"%string, Between (str "/*") (str "*/"));
   ("LINE_COMMENT"%string, Re LINE_COMMENT)].
Proof. vm_compute. reflexivity. Qed.
Lemma start_quote : filter (fun p => can_start (snd p) quote) rules =
  [("STRING_LITERAL"%string, Re STRING_LITERAL); ("INVALID_STRING_LITERAL"%string, Re INVALID_STRING_LITERAL)].
Proof. vm_compute. reflexivity. Qed.
Lemma start_blank : forall c, In c blank -> filter (fun p => can_start (snd p) c) rules = [("WS"%string, Re (Ch (one_of blank)))].
Proof. intros c Hc. vm_compute in Hc. repeat destruct Hc as [<-|Hc]; try contradiction; vm_compute; reflexivity. Qed.

Lemma one_of_in : forall l c, one_of l c = true <-> In c l.
Proof.
  intros l c. unfold one_of. rewrite existsb_exists. split.
  - intros (d & H & He). apply Ascii.eqb_eq in He. subst d. exact H.
  - intro H. exists c. split; [exact H|apply Ascii.eqb_refl].
Qed.

(** The characters of numerals. *)
Definition numeric (c : ascii) : Prop := word_like c \/ In c (str ".+-").
Ltac each c := destruct c as [[] [] [] [] [] [] [] []].
Lemma numeric_digit : forall c, digit c = true -> numeric c.
Proof. intros c H. left. unfold word_like, word_char. rewrite H. apply orb_true_r. Qed.
Lemma word_hex : forall c, hex c = true -> word_like c.
Proof. intros c. each c; vm_compute; auto. Qed.
Lemma word_octal : forall c, octal c = true -> word_like c.
Proof. intros c. each c; vm_compute; auto. Qed.
Lemma word_nonzero : forall c, range "1" "9" c = true -> word_like c.
Proof. intros c. each c; vm_compute; auto. Qed.
Lemma word_one_of : forall l, forallb word_char l = true -> forall c, one_of l c = true -> word_like c.
Proof. intros l H c Hc. apply one_of_in in Hc. rewrite forallb_forall in H. exact (H _ Hc). Qed.
Lemma numeric_word : forall c, word_like c -> numeric c.
Proof. intros c H. left. exact H. Qed.
Lemma numeric_chr : forall d, numeric d -> forall c, (d =? c) = true -> numeric c.
Proof. intros d H c Hc. apply Ascii.eqb_eq in Hc. subst. exact H. Qed.
Lemma numeric_sign : forall c, one_of (str "+-") c = true -> numeric c.
Proof. intros c H. apply one_of_in in H. right. destruct H as [<-|[<-|[]]]; cbn; auto. Qed.

Ltac spread := cbv beta iota delta [within seqs alts plus opt chr FLOAT_EXPONENT DOUBLE_LITERAL FLOAT_LITERAL BINARY_LITERAL OCTAL_LITERAL
  HEXADECIMAL_LITERAL DECIMAL_LITERAL ID INVALID_TOKEN].
Lemma word_bits : forall c, one_of (str "01") c = true -> word_like c.
Proof. apply word_one_of. reflexivity. Qed.
Lemma word_b : forall c, one_of (str "bB") c = true -> word_like c.
Proof. apply word_one_of. reflexivity. Qed.
Lemma word_x : forall c, one_of (str "xX") c = true -> word_like c.
Proof. apply word_one_of. reflexivity. Qed.
Lemma word_e : forall c, one_of (str "eE") c = true -> word_like c.
Proof. apply word_one_of. reflexivity. Qed.
Lemma word_f : forall c, one_of (str "fF") c = true -> word_like c.
Proof. apply word_one_of. reflexivity. Qed.
Lemma word_zero : forall c, ("0" =? c) = true -> word_like c.
Proof. intros c H. apply Ascii.eqb_eq in H. subst. reflexivity. Qed.
Lemma numeric_dot : forall c, ("." =? c) = true -> numeric c.
Proof. apply numeric_chr. right. left. reflexivity. Qed.
Local Hint Resolve numeric_sign numeric_digit numeric_dot word_bits word_b word_x word_e word_f word_zero word_hex word_octal word_nonzero numeric_word : lexer.
Lemma within_exponent : within numeric FLOAT_EXPONENT.
Proof. spread. repeat split; eauto with lexer. Qed.
Lemma within_double : within numeric DOUBLE_LITERAL.
Proof. spread. repeat split; eauto with lexer. Qed.
Lemma within_float : within numeric FLOAT_LITERAL.
Proof. spread. repeat split; eauto with lexer. Qed.
Lemma within_binary : within numeric BINARY_LITERAL.
Proof. spread. repeat split; eauto with lexer. Qed.
Lemma within_octal : within numeric OCTAL_LITERAL.
Proof. spread. repeat split; eauto with lexer. Qed.
Lemma within_hex : within numeric HEXADECIMAL_LITERAL.
Proof. spread. repeat split; eauto with lexer. Qed.
Lemma within_decimal : within numeric DECIMAL_LITERAL.
Proof. spread. repeat split; eauto with lexer. Qed.
Lemma word_letter : forall c, letter c = true -> word_like c.
Proof. intros c H. unfold word_like, word_char. rewrite H. reflexivity. Qed.
Lemma within_id : within word_like ID.
Proof. spread. split; [exact word_letter|auto]. Qed.
Lemma within_invalid : within word_like INVALID_TOKEN.
Proof. spread. split; auto. Qed.

Lemma numeric_starts : forall name e, In (name, Re e) rules ->
  In name ["BINARY_LITERAL"; "OCTAL_LITERAL"; "HEXADECIMAL_LITERAL"; "DOUBLE_LITERAL"; "FLOAT_LITERAL"; "DECIMAL_LITERAL"]%string ->
  forall c, can_start (Re e) c = true -> numeric_start c.
Proof.
  intros name e Hin Hname c H.
  assert (Hall : forallb (fun p => negb (existsb (String.eqb (fst p))
      ["BINARY_LITERAL"; "OCTAL_LITERAL"; "HEXADECIMAL_LITERAL"; "DOUBLE_LITERAL"; "FLOAT_LITERAL"; "DECIMAL_LITERAL"]%string)
      || negb (can_start (snd p) c) || digit c || (c =? ".")) rules = true).
  { clear. each c; vm_compute; reflexivity. }
  rewrite forallb_forall in Hall. specialize (Hall _ Hin). cbn [fst snd] in Hall. rewrite H in Hall.
  assert (He : existsb (String.eqb name) ["BINARY_LITERAL"; "OCTAL_LITERAL"; "HEXADECIMAL_LITERAL"; "DOUBLE_LITERAL"; "FLOAT_LITERAL"; "DECIMAL_LITERAL"]%string = true).
  { apply existsb_exists. exists name. split; [exact Hname|apply String.eqb_refl]. }
  rewrite He in Hall. cbn [negb orb] in Hall. apply orb_true_iff in Hall as [Hd|Hd]; [left; exact Hd|right].
  apply Ascii.eqb_eq. exact Hd.
Qed.

(** ** String literals end at their closing quote *)

Fixpoint scan (s : text) : option text :=
  match s with
  | [] => None
  | c :: s' =>
      if c =? quote then Some s'
      else if c =? backslash then match s' with [] => None | _ :: s'' => scan s'' end
      else scan s'
  end.
Definition inner (c : ascii) : Prop := c <> quote /\ c <> backslash.
Lemma scan_inner : forall x s, Forall inner x -> scan (x ++ s) = scan s.
Proof.
  induction x as [|c x IH]; intros s H; [reflexivity|]. inversion H as [|? ? [H1 H2] H3]; subst. cbn [app scan].
  apply Ascii.eqb_neq in H1, H2. rewrite H1, H2. apply IH, H3.
Qed.
Lemma scan_escape : forall c x s, Forall inner x -> scan (backslash :: c :: x ++ s) = scan s.
Proof. intros c x s H. cbn [scan app]. apply scan_inner, H. Qed.
Lemma inner_hex : forall c, hex c = true -> inner c.
Proof. intros c. each c; vm_compute; intro; split; discriminate. Qed.
Lemma inner_octal : forall c, octal c = true -> inner c.
Proof. intros c. each c; vm_compute; intro; split; discriminate. Qed.
Lemma inner_03 : forall c, range "0" "3" c = true -> inner c.
Proof. intros c. each c; vm_compute; intro; split; discriminate. Qed.
Lemma m_chr : forall c s, matches (chr c) s <-> s = [c].
Proof.
  intros c s. unfold chr. rewrite m_ch. split.
  - intros (d & -> & H). apply Ascii.eqb_eq in H. subst. reflexivity.
  - intros ->. exists c. split; [reflexivity|apply Ascii.eqb_refl].
Qed.
Lemma escape_inner : forall e a b s, within inner e -> matches (Seq (chr a) (Seq (chr b) e)) s -> exists x, s = a :: b :: x /\ Forall inner x.
Proof.
  intros e a b s Hw H. apply m_seq in H as (x & y & -> & Hx & Hy). apply m_chr in Hx as ->.
  apply m_seq in Hy as (x & z & -> & Hx & Hz). apply m_chr in Hx as ->. exists z. split; [reflexivity|].
  exact (within_ok _ _ _ Hz Hw).
Qed.
Lemma scan_char : forall x s, matches STRING_CHARACTER x -> scan (x ++ s) = scan s.
Proof.
  intros x s H. unfold STRING_CHARACTER in H. cbn [alts seqs] in H.
  apply m_alt in H as [H|H]; [|apply m_alt in H as [H|H]; [|apply m_alt in H as [H|H]; [|apply m_alt in H as [H|H]]]].
  - apply m_ch in H as (c & -> & Hc). apply scan_inner. constructor; [|constructor].
    rewrite negb_true_iff in Hc. split; intros ->; cbn in Hc; discriminate.
  - apply m_seq in H as (a & b & -> & Ha & Hb). apply m_chr in Ha as ->. apply m_ch in Hb as (c & -> & _).
    apply (scan_escape c []). constructor.
  - apply escape_inner in H as (y & -> & Hy).
    + apply (scan_escape _ y s Hy).
    + cbn. repeat split; apply inner_hex; assumption.
  - apply escape_inner in H as (y & -> & Hy).
    + apply (scan_escape _ y s Hy).
    + cbn. repeat split; apply inner_hex; assumption.
  - apply escape_inner in H as (y & -> & Hy).
    + apply (scan_escape _ y s Hy).
    + assert (Ho : forall c, octal c = true -> inner c) by exact inner_octal.
      assert (H3 : forall c, range "0" "3" c = true -> inner c) by exact inner_03.
      cbn. auto.
Qed.
Lemma scan_chars : forall x s, matches (Star STRING_CHARACTER) x -> scan (x ++ s) = scan s.
Proof.
  intros x s H. remember (Star STRING_CHARACTER) as r eqn:Er.
  induction H as [ | | | | |a|a y z Hy _ Hz IH]; try discriminate; [reflexivity|].
  injection Er as ->. rewrite <- app_assoc, scan_char by exact Hy. apply IH. reflexivity.
Qed.
Lemma string_scan : forall t s, matches STRING_LITERAL t -> exists t', t = quote :: t' /\ scan (t' ++ s) = Some s.
Proof.
  intros t s H. unfold STRING_LITERAL in H. cbn [seqs] in H.
  apply m_seq in H as (x & y & -> & Hx & Hy). apply m_chr in Hx as ->.
  apply m_seq in Hy as (b & z & -> & Hb & Hz). apply m_chr in Hz as ->.
  exists (b ++ [quote]). split; [reflexivity|]. rewrite <- app_assoc, scan_chars by exact Hb. reflexivity.
Qed.
Lemma string_ends : forall t, matches STRING_LITERAL t -> exists b, t = quote :: b ++ [quote].
Proof.
  intros t H. unfold STRING_LITERAL in H. cbn [seqs] in H.
  apply m_seq in H as (x & y & -> & Hx & Hy). apply m_chr in Hx as ->.
  apply m_seq in Hy as (b & z & -> & Hb & Hz). apply m_chr in Hz as ->. exists b. reflexivity.
Qed.
Lemma invalid_string : forall t, matches INVALID_STRING_LITERAL t ->
  exists x y, t = quote :: x ++ y /\ Forall (fun c => c <> quote) x /\ (y = [] \/ y = [quote]).
Proof.
  intros t H. unfold INVALID_STRING_LITERAL in H. cbn [seqs] in H.
  apply m_seq in H as (q & y & -> & Hq & Hy). apply m_chr in Hq as ->.
  apply m_seq in Hy as (x & z & -> & Hx & Hz). exists x, z. split; [reflexivity|split].
  - apply (within_ok _ _ _ Hx). cbn. intros c Hc ->. rewrite Ascii.eqb_refl in Hc. discriminate.
  - unfold opt in Hz. apply m_alt in Hz as [Hz|Hz]; [right; apply m_chr in Hz; exact Hz|left; apply m_eps in Hz; exact Hz].
Qed.

(** ** A longer match only where the next character glues *)

Definition wordb (t : text) : bool := match best rules t with Some (_, n) => Nat.eqb n (length t) | None => false end.
Definition pair_dec : forall a b : text * ascii, {a = b} + {a <> b}.
Proof. decide equality; [apply ascii_dec|apply (list_eq_dec ascii_dec)]. Defined.
Definition gluesb (t : text) (c : ascii) : bool :=
  (match rev t with d :: _ => word_char d && word_char c | [] => false end) ||
  (if in_dec pair_dec (t, c) operator_pairs then true else false).
Lemma gluesb_ok : forall t c, gluesb t c = true -> glues t c.
Proof.
  intros t c H. unfold gluesb in H. apply orb_true_iff in H as [H|H].
  - destruct (rev t) as [|d l] eqn:Er; [discriminate|]. apply andb_true_iff in H as [H1 H2].
    apply (GWord t c (rev l) d); [|exact H1|exact H2]. rewrite <- (rev_involutive t), Er. reflexivity.
  - destruct (in_dec pair_dec (t, c) operator_pairs) as [Hin|]; [apply GOperator; exact Hin|discriminate].
Qed.

(** A fixed text that goes on after a word. *)
Definition splits_ok (l : text) : bool :=
  forallb (fun i => match skipn (S i) l with c :: _ => negb (wordb (firstn (S i) l)) || gluesb (firstn (S i) l) c | [] => true end)
    (seq 0 (length l)).
Lemma splits_ok_use : forall l t c u, splits_ok l = true -> t <> [] -> l = t ++ c :: u -> wordb t = true -> glues t c.
Proof.
  intros l t c u H Hne -> Hw. unfold splits_ok in H. rewrite forallb_forall in H.
  destruct t as [|d t]; [contradiction|]. specialize (H (length t)). 
  assert (Hf : firstn (S (length t)) ((d :: t) ++ c :: u) = d :: t).
  { change (S (length t)) with (length (d :: t)). rewrite firstn_app, firstn_all, Nat.sub_diag. cbn [firstn]. apply app_nil_r. }
  assert (Hs : skipn (S (length t)) ((d :: t) ++ c :: u) = c :: u).
  { change (S (length t)) with (length (d :: t)). rewrite skipn_app, skipn_all, Nat.sub_diag. reflexivity. }
  rewrite Hf, Hs, Hw in H. cbn [negb orb] in H. apply gluesb_ok, H. apply in_seq. rewrite app_length. cbn. lia.
Qed.
Lemma fixed_splits : forallb (fun p => match snd p with Lit l => splits_ok l | _ => true end) rules = true.
Proof. vm_compute. reflexivity. Qed.

Lemma word_rule : forall name t, word name t -> exists r, In (name, r) rules /\ rule_text r t /\ t <> [].
Proof.
  intros name t [(before & r & after & rest & Hl & _ & Hne & Ht & _) _]. exists r.
  split; [rewrite Hl; apply in_or_app; right; left; reflexivity|auto].
Qed.
Lemma word_wordb : forall name t, word name t -> wordb t = true.
Proof. intros name t [H _]. unfold wordb. rewrite (next_best _ _ _ H). apply Nat.eqb_refl. Qed.

Lemma glues_word : forall t c u, t <> [] -> Forall word_like (t ++ c :: u) -> glues t c.
Proof.
  intros t c u Hne H. apply Forall_app in H as [H1 H2]. inversion H2; subst.
  destruct (exists_last Hne) as (t' & d & ->). apply Forall_app in H1 as [_ H1]. inversion H1; subst.
  exact (GWord _ _ t' d eq_refl H5 H3).
Qed.
Lemma glues_number : forall t c u, t <> [] -> Forall numeric (t ++ c :: u) -> (forall d s, t ++ c :: u = d :: s -> numeric_start d) -> glues t c.
Proof.
  intros t c u Hne H Hs. destruct t as [|d t]; [contradiction|]. apply Forall_app in H as [_ H]. inversion H; subst.
  exact (GNumber _ _ d t eq_refl (Hs d _ eq_refl) H2).
Qed.

Lemma slash_word : forall name s, word name ("/" :: s) -> s = [].
Proof.
  intros name s H. pose proof (word_rule _ _ H) as (r & Hin & Ht & _).
  pose proof (starting _ _ _ _ _ Hin Ht start_slash) as Hr. destruct H as (_ & Hh & _).
  repeat (destruct Hr as [Hr|Hr]; [injection Hr as <- <-; try discriminate Hh|]); [|contradiction].
  cbn in Ht. injection Ht as ->. reflexivity.
Qed.
Lemma quote_word : forall name s, word name (quote :: s) -> matches STRING_LITERAL (quote :: s).
Proof.
  intros name s H. pose proof (word_rule _ _ H) as (r & Hin & Ht & _).
  pose proof (starting _ _ _ _ _ Hin Ht start_quote) as Hr. destruct H as (_ & _ & Hn).
  destruct Hr as [Hr|[Hr|[]]]; injection Hr as <- <-; [exact Ht|contradiction].
Qed.
Lemma comment_glues : forall name t c u d x, In d (str "/*") -> word name t -> t ++ c :: u = "/" :: d :: x -> glues t c.
Proof.
  intros name t c u d x Hd Hw He. pose proof (word_rule _ _ Hw) as (_ & _ & _ & Hne).
  destruct t as [|a t]; [contradiction|]. cbn in He. injection He as -> He.
  pose proof (slash_word _ _ Hw) as ->. cbn in He. injection He as -> _.
  apply GOperator. destruct Hd as [<-|[<-|[]]]; cbn; auto 12.
Qed.
Lemma between_starts : forall a b t, rule_text (Between a b) t -> exists x, t = a ++ x.
Proof. intros a b t (body & -> & _). eauto. Qed.

Lemma line_comment_text : forall t, matches LINE_COMMENT t <-> exists body, t = "/" :: "/" :: body /\ Forall (fun c => ~ In c line_end) body.
Proof.
  intro t. unfold LINE_COMMENT. cbn [seqs]. split.
  - intro H. apply m_seq in H as (x & y & -> & Hx & H). apply m_chr in Hx as ->.
    apply m_seq in H as (x & z & -> & Hx & H). apply m_chr in Hx as ->. exists z. split; [reflexivity|].
    apply (within_ok _ _ _ H). cbn [within]. intros c Hc Hin. apply one_of_in in Hin. rewrite Hin in Hc. discriminate.
  - intros (body & -> & H). apply m_seq. exists ["/"], ("/" :: body). repeat split; [apply m_chr; reflexivity|].
    apply m_seq. exists ["/"], body. repeat split; [apply m_chr; reflexivity|].
    induction H as [|c body Hc _ IH]; [constructor|]. apply m_star_cons. exists [], body. repeat split; [|exact IH].
    constructor. destruct (one_of line_end c) eqn:E; [apply one_of_in in E; contradiction|reflexivity].
Qed.

Lemma extension : forall name t name' r' c u, word name t -> In (name', r') rules -> rule_text r' (t ++ c :: u) -> glues t c.
Proof.
  intros name t name' r' c u Hw Hin Ht. pose proof (word_rule _ _ Hw) as (_ & _ & _ & Hne).
  assert (Hlit : forall l, r' = Lit l -> glues t c).
  { intros l ->. cbn in Ht. pose proof fixed_splits as H. rewrite forallb_forall in H. specialize (H _ Hin). cbn [snd] in H.
    exact (splits_ok_use _ _ _ _ H Hne (eq_sym Ht) (word_wordb _ _ Hw)). }
  assert (Hnum : forall e, r' = Re e -> within numeric e ->
      In name' ["BINARY_LITERAL"; "OCTAL_LITERAL"; "HEXADECIMAL_LITERAL"; "DOUBLE_LITERAL"; "FLOAT_LITERAL"; "DECIMAL_LITERAL"]%string -> glues t c).
  { intros e -> Hwi Hname. apply (glues_number t c u Hne (within_ok _ _ _ Ht Hwi)).
    intros d s Hs. rewrite Hs in Ht. exact (numeric_starts _ _ Hin Hname _ (can_start_ok _ _ _ Ht)). }
  destruct r' as [l|e|a b].
  - exact (Hlit _ eq_refl).
  - unfold rules in Hin. apply in_app_or in Hin as [Hin'|Hin'].
    { exfalso. clear - Hin'. repeat (destruct Hin' as [H|Hin']; [discriminate H|]). exact Hin'. }
    cbn [In other_rules] in Hin'.
    repeat (destruct Hin' as [Heq|Hin']; [try discriminate Heq; injection Heq as <- <-|]); try contradiction.
    + cbn [rule_text] in Ht. apply m_ch in Ht as (d & Hd & _). destruct t as [|x [|y t]]; [contradiction|discriminate|discriminate].
    + cbn [rule_text] in Ht. apply line_comment_text in Ht as (body & Hb & _).
      apply (comment_glues name t c u "/" body (or_introl eq_refl) Hw Hb).
    + cbn [rule_text] in Ht. destruct (string_scan _ [] Ht) as (t1 & Ht1 & Hs1).
      destruct t as [|q t]; [contradiction|]. cbn in Ht1. injection Ht1 as -> <-.
      destruct (string_scan _ (c :: u) (quote_word _ _ Hw)) as (t2 & Ht2 & Hs2). injection Ht2 as <-.
      rewrite app_nil_r, Hs2 in Hs1. discriminate.
    + apply (Hnum _ eq_refl within_binary). cbn. auto 10.
    + apply (Hnum _ eq_refl within_octal). cbn. auto 10.
    + apply (Hnum _ eq_refl within_hex). cbn. auto 10.
    + apply (Hnum _ eq_refl within_double). cbn. auto 10.
    + apply (Hnum _ eq_refl within_float). cbn. auto 10.
    + apply (Hnum _ eq_refl within_decimal). cbn. auto 10.
    + exact (glues_word _ _ _ Hne (within_ok _ _ _ Ht within_id)).
    + exfalso. cbn [rule_text] in Ht. apply invalid_string in Ht as (x & y & He & Hx & Hy).
      destruct t as [|q t]; [contradiction|]. cbn in He. injection He as -> He.
      destruct (string_ends _ (quote_word _ _ Hw)) as (b & Hb). injection Hb as ->.
      rewrite <- app_assoc in He. cbn [app] in He.
      assert (Hq : In quote x).
      { destruct Hy as [ -> | -> ].
        - rewrite app_nil_r in He. rewrite <- He. apply in_or_app. right. left. reflexivity.
        - destruct (@exists_last _ (c :: u) ltac:(discriminate)) as (z & d & Hz). rewrite Hz in He.
          change (b ++ quote :: z ++ [d]) with (b ++ (quote :: z) ++ [d]) in He. rewrite app_assoc in He.
          apply app_inj_tail in He as [<- _]. apply in_or_app. right. left. reflexivity. }
      rewrite Forall_forall in Hx. exact (Hx _ Hq eq_refl).
    + exact (glues_word _ _ _ Hne (within_ok _ _ _ Ht within_invalid)).
  - apply between_starts in Ht as (x & Hx). unfold rules in Hin. apply in_app_or in Hin as [Hin'|Hin'].
    { exfalso. clear - Hin'. repeat (destruct Hin' as [H|Hin']; [discriminate H|]). exact Hin'. }
    cbn [In other_rules] in Hin'.
    repeat (destruct Hin' as [Heq|Hin']; [try discriminate Heq; injection Heq as <- <- <-|]); try contradiction;
      exact (comment_glues name t c u "*" _ (or_intror (or_introl eq_refl)) Hw Hx).
Qed.

(** A word followed by a character that does not glue is the next token. *)
Lemma word_next : forall name t s, word name t -> match s with [] => True | c :: _ => ~ glues t c end -> next_token (t ++ s) name t.
Proof.
  intros name t s Hw Hs. pose proof Hw as [(before & r & after & rest & Hl & Hrest & Hne & Ht & Hall & Hbefore) _].
  assert (rest = []) as ->.
  { apply (f_equal (@length _)) in Hrest. rewrite app_length in Hrest. destruct rest; [reflexivity|cbn in Hrest; lia]. }
  assert (Hpre : forall name' r' t' rest', In (name', r') rules -> t ++ s = t' ++ rest' -> rule_text r' t' -> exists z, t = t' ++ z).
  { intros n' r' t' rest' Hin He Ht'. destruct (Nat.le_gt_cases (length t') (length t)) as [Hle|Hgt].
    - exists (skipn (length t') t). rewrite <- (firstn_skipn (length t') t) at 1. f_equal.
      assert (Hf : firstn (length t') (t ++ s) = firstn (length t') (t' ++ rest')) by (rewrite He; reflexivity).
      rewrite !firstn_app, firstn_all, Nat.sub_diag in Hf. replace (length t' - length t) with 0 in Hf by lia.
      cbn [firstn] in Hf. rewrite !app_nil_r in Hf. exact Hf.
    - exfalso. assert (Hz : exists c u, t' = t ++ c :: u /\ exists s', s = c :: s').
      { assert (Hf : firstn (length t) (t ++ s) = firstn (length t) (t' ++ rest')) by (rewrite He; reflexivity).
        rewrite firstn_app, firstn_all, Nat.sub_diag in Hf. cbn [firstn] in Hf. rewrite app_nil_r in Hf.
        rewrite firstn_app in Hf. replace (length t - length t') with 0 in Hf by lia. cbn [firstn] in Hf. rewrite app_nil_r in Hf.
        destruct (skipn (length t) t') as [|c u] eqn:Ek.
        - apply (f_equal (@length _)) in Ek. rewrite skipn_length in Ek. cbn in Ek. lia.
        - exists c, u. assert (Heq : t' = t ++ c :: u) by (rewrite <- Ek, Hf at 1; symmetry; apply firstn_skipn).
          split; [exact Heq|]. rewrite Heq, <- app_assoc in He. apply app_inv_head in He. cbn in He. eauto. }
      destruct Hz as (c & u & -> & s' & ->). apply Hs. exact (extension _ _ _ _ _ _ Hw Hin Ht'). }
  exists before, r, after, s. repeat split; auto.
  - intros n' r' t' rest' Hin He Ht'. destruct (Hpre _ _ _ _ Hin He Ht') as [z Hz]. exact (Hall _ _ _ _ Hin Hz Ht').
  - intros n' r' t' rest' Hin He Ht'. destruct (Hpre n' r' t' rest') as [z Hz]; auto.
    + rewrite Hl. apply in_or_app. left. exact Hin.
    + exact (Hbefore _ _ _ _ Hin Hz Ht').
Qed.

(** ** The lexer *)

Lemma lex_from_more : forall fuel s, length s <= fuel -> lex_from fuel s = lex s.
Proof.
  intros fuel. unfold lex.
  assert (H : forall n m s, length s <= n -> length s <= m -> lex_from n s = lex_from m s).
  { induction n as [|n IH]; intros m s Hn Hm.
    - destruct s; [|cbn in Hn; lia]. destruct m; reflexivity.
    - destruct s as [|c s]; [destruct m; reflexivity|]. destruct m as [|m]; [cbn in Hm; lia|].
      assert (Hk : forall k, lex_from n (skipn (S k) (c :: s)) = lex_from m (skipn (S k) (c :: s))).
      { intro k. apply IH; rewrite skipn_length; cbn [length] in *; lia. }
      cbn [lex_from]. destruct (best rules (c :: s)) as [[name [|k]]|]; rewrite ?Hk; try reflexivity; unfold skipped; rewrite Hk; reflexivity. }
  intros s Hs. apply H; lia.
Qed.
Lemma lex_token : forall name t s, next_token (t ++ s) name t -> lex (t ++ s) = Token name t :: lex s.
Proof.
  intros name t s H. pose proof (next_best _ _ _ H) as Hb. destruct H as (_ & _ & _ & _ & _ & _ & Hne & _).
  destruct t as [|c t]; [contradiction|]. unfold lex at 1. cbn [app length lex_from].
  change (c :: t ++ s) with ((c :: t) ++ s). rewrite Hb. cbn [length].
  change (S (length t)) with (length (c :: t)). rewrite firstn_app, firstn_all, Nat.sub_diag, skipn_app, skipn_all, Nat.sub_diag.
  cbn [firstn skipn app]. rewrite app_nil_r, lex_from_more by (rewrite app_length; lia). reflexivity.
Qed.
Lemma lex_starts : forall s name t l, lex s = Token name t :: l -> exists rest, s = t ++ rest /\ next_token s name t /\ l = lex rest.
Proof.
  intros s name t l H. destruct s as [|c s]; [discriminate|]. unfold lex in H. cbn [length lex_from] in H.
  destruct (best rules (c :: s)) as [[name' [|k]]|] eqn:Eb; try discriminate. injection H as <- <- <-.
  destruct (best_next _ _ _ Eb) as (_ & Hn & Hl). exists (skipn (S k) (c :: s)). split; [exact (eq_sym (firstn_skipn (S k) (c :: s)))|].
  split; [exact Hn|]. apply lex_from_more. rewrite skipn_length. cbn [length]. lia.
Qed.
Lemma lex_skips : forall s x l, lex s = Skipped x :: l ->
  exists rest, s = x ++ rest /\ x <> [] /\ (forall name t, ~ next_token s name t) /\ l = lex rest.
Proof.
  intros s x l H. destruct s as [|c s]; [discriminate|]. unfold lex in H. cbn [length lex_from] in H.
  assert (Hno : (forall name k, best rules (c :: s) <> Some (name, S k)) -> forall name t, ~ next_token (c :: s) name t).
  { intros Hb name t Hn. pose proof (next_best _ _ _ Hn) as He. destruct Hn as (_ & _ & _ & _ & _ & _ & Hne & _).
    destruct t; [contradiction|]. exact (Hb _ _ He). }
  assert (Hk : exists n, skipped (c :: s) = S n) by (unfold skipped; eauto). destruct Hk as [n Hk]. rewrite Hk in H.
  destruct (best rules (c :: s)) as [[name' [|k]]|] eqn:Eb; try discriminate; injection H as <- <-;
    (exists (skipn (S n) (c :: s)); split; [exact (eq_sym (firstn_skipn (S n) (c :: s)))|];
     split; [discriminate|]; split; [apply Hno; discriminate|];
     apply lex_from_more; rewrite skipn_length; cbn [length]; lia).
Qed.
Lemma lex_nil : lex [] = [].
Proof. reflexivity. Qed.

(** Nothing is lost. *)
Lemma lex_text : forall s, concat (map item_text (lex s)) = s.
Proof.
  assert (H : forall n s, length s <= n -> concat (map item_text (lex s)) = s).
  { induction n as [|n IH]; intros s Hn.
    - destruct s; [reflexivity|cbn in Hn; lia].
    - destruct (lex s) as [|[name t|x] l] eqn:El.
      + destruct s as [|c s]; [reflexivity|]. unfold lex in El. cbn [length lex_from] in El.
        destruct (best rules (c :: s)) as [[? [|?]]|]; discriminate.
      + destruct (lex_starts _ _ _ _ El) as (rest & Hs & Ht & ->). destruct Ht as (_ & _ & _ & _ & _ & _ & Hne & _).
        cbn [map concat item_text]. rewrite IH; [symmetry; exact Hs|]. subst s. rewrite app_length in Hn. destruct t; [contradiction|cbn in Hn; lia].
      + destruct (lex_skips _ _ _ El) as (rest & Hs & Hne & _ & ->).
        cbn [map concat item_text]. rewrite IH; [symmetry; exact Hs|]. subst s. rewrite app_length in Hn. destruct x; [contradiction|cbn in Hn; lia]. }
  intro s. apply (H (length s)). lia.
Qed.

(** ** Layout *)

Lemma hidden_step : forall t rest name0 r0, In (name0, r0) rules -> rule_text r0 t -> t <> [] ->
  (forall name r x y, In (name, r) rules -> t ++ rest = x ++ y -> rule_text r x ->
     length x <= length t /\ (length x = length t -> hidden name = true)) ->
  exists name, next_token (t ++ rest) name t /\ hidden name = true.
Proof.
  intros t rest name0 r0 Hin0 Ht0 Hne Hall.
  destruct (best rules (t ++ rest)) as [[name n]|] eqn:Eb.
  - pose proof Eb as Eb'. apply best_next in Eb as (Hn & Hnext & Hl). 
    pose proof Hnext as (before & r & after & rest' & Hr & He & _ & Ht & Hmax & _).
    assert (Hin : In (name, r) rules) by (rewrite Hr; apply in_or_app; right; left; reflexivity).
    pose proof (Hmax _ _ _ _ Hin0 eq_refl Ht0) as H1. destruct (Hall _ _ _ _ Hin He Ht) as [H2 H3].
    assert (Hlen : length (firstn n (t ++ rest)) = length t) by lia.
    assert (Hft : firstn n (t ++ rest) = t).
    { destruct (app_same_length t (firstn n (t ++ rest)) rest rest' He) as [Heq _]; [lia|symmetry; exact Heq]. }
    exists name. rewrite Hft in Hnext. split; [exact Hnext|exact (H3 Hlen)].
  - exfalso. pose proof (best_ok rules (t ++ rest)) as Hb. rewrite Eb in Hb. specialize (Hb _ _ Hin0).
    pose proof (match_rule_ok r0 (t ++ rest)) as Hm. rewrite Hb in Hm. exact (Hm _ _ eq_refl Ht0).
Qed.
Lemma tokens_hidden : forall name t s, next_token (t ++ s) name t -> hidden name = true -> tokens (t ++ s) = tokens s.
Proof. intros name t s H Hh. unfold tokens. rewrite (lex_token _ _ _ H). unfold visible. cbn [flat_map]. rewrite Hh. reflexivity. Qed.
Lemma tokens_visible : forall name t s, next_token (t ++ s) name t -> hidden name = false -> tokens (t ++ s) = (name, t) :: tokens s.
Proof. intros name t s H Hh. unfold tokens. rewrite (lex_token _ _ _ H). unfold visible. cbn [flat_map]. rewrite Hh. reflexivity. Qed.

Lemma in_rule : forall name r, In (name, r) other_rules -> In (name, r) rules.
Proof. intros name r H. apply in_or_app. right. exact H. Qed.
Lemma blank_step : forall c s, In c blank -> exists name, next_token ([c] ++ s) name [c] /\ hidden name = true.
Proof.
  intros c s Hc. apply (hidden_step [c] s "WS" (Re (Ch (one_of blank)))).
  - apply in_rule. left. reflexivity.
  - constructor. apply one_of_in. exact Hc.
  - discriminate.
  - intros name r x y Hin He Hx. destruct x as [|d x]; [destruct (rules_never_empty _ _ Hin Hx)|].
    cbn in He. injection He as <- He. pose proof (starting _ _ _ _ _ Hin Hx (start_blank c Hc)) as [Hr|[]].
    injection Hr as <- <-. apply m_ch in Hx as (d & Hd & _). injection Hd as -> ->. cbn. auto.
Qed.
Lemma no_ends_longest : forall body rest x y, Forall (fun c => ~ In c line_end) x -> body ++ rest = x ++ y ->
  match rest with [] => True | c :: _ => In c line_end end -> length x <= length body.
Proof.
  induction body as [|c body IH]; intros rest x y Hx He Hr; cbn in He.
  - destruct x as [|d x]; [cbn; lia|]. subst rest. inversion Hx; contradiction.
  - destruct x as [|d x]; [cbn; lia|]. cbn in He. injection He as -> He. inversion Hx; subst. cbn [length].
    specialize (IH rest x y H2 He Hr). lia.
Qed.
Lemma line_step : forall body rest, (forall d, In d body -> ~ In d line_end) -> match rest with [] => True | c :: _ => In c line_end end ->
  exists name, next_token ((str "//" ++ body) ++ rest) name (str "//" ++ body) /\ hidden name = true.
Proof.
  intros body rest Hb Hr. apply (hidden_step _ rest "LINE_COMMENT" (Re LINE_COMMENT)).
  - apply in_rule. cbn. auto 10.
  - apply line_comment_text. exists body. split; [reflexivity|apply Forall_forall; exact Hb].
  - discriminate.
  - intros name r x y Hin He Hx. destruct x as [|d x]; [destruct (rules_never_empty _ _ Hin Hx)|].
    cbn in He. injection He as <- He. pose proof (starting _ _ _ _ _ Hin Hx start_slash) as Hc.
    destruct Hc as [Hc|[Hc|[Hc|[Hc|[Hc|[]]]]]]; injection Hc as <- <-.
    + cbn in Hx. injection Hx as ->. cbn. split; [lia|discriminate].
    + apply between_starts in Hx as (z & Hz). cbn in Hz. injection Hz as ->. discriminate.
    + apply between_starts in Hx as (z & Hz). cbn in Hz. injection Hz as ->. discriminate.
    + apply between_starts in Hx as (z & Hz). cbn in Hz. injection Hz as ->. discriminate.
    + split; [|reflexivity]. apply line_comment_text in Hx as (b & Hx & Hf). injection Hx as ->.
      cbn in He. injection He as He. cbn. pose proof (no_ends_longest _ _ _ _ Hf He Hr). lia.
Qed.

(** Where the first close is. *)
Lemma close_same : forall b body body' rest rest', first_at_end b body -> first_at_end b body' ->
  body ++ b ++ rest = body' ++ b ++ rest' -> length body' <= length body.
Proof.
  intros b body body' rest rest' Hf Hf' He.
  pose proof (match_rule_ok (Between [] b) (body ++ b ++ rest)) as H.
  destruct (Nat.le_gt_cases (length body') (length body)) as [Hle|Hgt]; [exact Hle|exfalso].
  assert (Hz : exists z, body' ++ b = body ++ b ++ z /\ z <> []).
  { exists (skipn (length (body ++ b)) (body' ++ b)).
    assert (Hl : length (body ++ b) < length (body' ++ b)) by (rewrite !app_length; lia).
    split.
    - rewrite <- (firstn_skipn (length (body ++ b)) (body' ++ b)) at 1. rewrite app_assoc. f_equal.
      assert (Hfx : firstn (length (body ++ b)) ((body' ++ b) ++ rest') = firstn (length (body ++ b)) ((body ++ b) ++ rest)).
      { rewrite <- !app_assoc. rewrite <- He. reflexivity. }
      rewrite (firstn_app _ (body' ++ b) rest'), (firstn_app _ (body ++ b) rest), firstn_all in Hfx.
      replace (length (body ++ b) - length (body' ++ b)) with 0 in Hfx by lia.
      rewrite Nat.sub_diag in Hfx. cbn [firstn] in Hfx. rewrite !app_nil_r in Hfx. exact Hfx.
    - intro Hz. apply (f_equal (@length _)) in Hz. rewrite skipn_length in Hz. cbn in Hz. lia. }
  destruct Hz as (z & Hz & Hn). apply Hn. exact (Hf' _ _ Hz).
Qed.
Lemma first_at_end_tail : forall b c body, first_at_end b (c :: body) -> first_at_end b body.
Proof. intros b c body H x y He. apply (H (c :: x) y). cbn. rewrite He. reflexivity. Qed.
Lemma block_step : forall body rest, body <> [] -> first_at_end (str "*/") body ->
  exists name, next_token ((str "/*" ++ body ++ str "*/") ++ rest) name (str "/*" ++ body ++ str "*/") /\ hidden name = true.
Proof.
  intros body rest Hne Hf. apply (hidden_step _ rest "BLOCK_COMMENT" (Between (str "/*") (str "*/"))).
  - apply in_rule. cbn. auto 10.
  - exists body. auto.
  - discriminate.
  - intros name r x y Hin He Hx. destruct x as [|d x]; [destruct (rules_never_empty _ _ Hin Hx)|].
    cbn in He. injection He as <- He. pose proof (starting _ _ _ _ _ Hin Hx start_slash) as Hc.
    rewrite !app_length.
    assert (Hdoc : forall d, rule_text (Between ("/" :: "*" :: [d]) (str "*/")) ("/" :: x) -> length ("/" :: x) <= 2 + (length body + 2)).
    { intros d (b & Hb & Hfb). injection Hb as ->. cbn in He. injection He as He.
      destruct body as [|e body]; [contradiction|]. cbn in He. injection He as <- He.
      rewrite <- !app_assoc in He. 
      pose proof (close_same (str "*/") body b rest y (first_at_end_tail _ _ _ Hf) Hfb He) as Hl.
      cbn [length]. rewrite app_length. cbn. lia. }
    destruct Hc as [Hc|[Hc|[Hc|[Hc|[Hc|[]]]]]]; injection Hc as <- <-.
    + cbn in Hx. injection Hx as ->. cbn. split; [lia|lia].
    + split; [exact (Hdoc "*" Hx)|reflexivity].
    + split; [exact (Hdoc "!" Hx)|reflexivity].
    + split; [|reflexivity]. destruct Hx as (b & Hb & Hfb). injection Hb as ->. cbn in He. injection He as He.
      rewrite <- !app_assoc in He. 
      pose proof (close_same (str "*/") body b rest y Hf Hfb He) as Hl.
      cbn [length]. rewrite app_length. cbn. lia.
    + apply line_comment_text in Hx as (b & Hx & _). injection Hx as ->. discriminate.
Qed.

Lemma layout_tokens : forall l, layout l -> forall s, tokens (l ++ s) = tokens s.
Proof.
  intros l H. induction H as [|c l Hc _ IH|body c l Hb Hc _ IH|body l Hne Hf _ IH]; intro s.
  - reflexivity.
  - destruct (blank_step c (l ++ s) Hc) as (name & Hn & Hh). change ((c :: l) ++ s) with ([c] ++ l ++ s).
    rewrite (tokens_hidden _ _ _ Hn Hh). apply IH.
  - replace ((str "//" ++ body ++ c :: l) ++ s) with ((str "//" ++ body) ++ [c] ++ l ++ s) by (rewrite <- !app_assoc; reflexivity).
    destruct (line_step body ([c] ++ l ++ s) Hb Hc) as (name & Hn & Hh). rewrite (tokens_hidden _ _ _ Hn Hh).
    assert (Hcb : In c blank) by (apply in_or_app; left; exact Hc).
    destruct (blank_step c (l ++ s) Hcb) as (name' & Hn' & Hh'). rewrite (tokens_hidden _ _ _ Hn' Hh'). apply IH.
  - replace ((str "/*" ++ body ++ str "*/" ++ l) ++ s) with ((str "/*" ++ body ++ str "*/") ++ l ++ s) by (rewrite <- !app_assoc; reflexivity).
    destruct (block_step body (l ++ s) Hne Hf) as (name & Hn & Hh). rewrite (tokens_hidden _ _ _ Hn Hh). apply IH.
Qed.

Lemma written_tokens : forall ws s, written ws s -> tokens s = ws.
Proof.
  intros ws s H. induction H as [|body Hb|name t l ws s Hw [Hl Hg] _ IH].
  - reflexivity.
  - destruct (line_step body [] Hb I) as (name & Hn & Hh). rewrite <- (app_nil_r (str "//" ++ body)). rewrite (tokens_hidden _ _ _ Hn Hh). reflexivity.
  - pose proof (word_next _ _ _ Hw Hg) as Hn. destruct Hw as (_ & Hh & _).
    rewrite (tokens_visible _ _ _ Hn Hh), (layout_tokens _ Hl), IH. reflexivity.
Qed.
