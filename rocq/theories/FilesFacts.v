(** Proofs about the files of the generator. *)

Require Import ZArith String Ascii List Bool Lia ZifyBool ZifyNat DecimalString.
Require DecimalNat DecimalFacts.
From Verif Require Import Files FilesSpec.
Import ListNotations.
Open Scope Z_scope.

(** ** Strings *)

Lemma starts_spec : forall p s, starts p s = true <-> exists b, s = p ++ b.
Proof.
  induction p as [|c p IH]; intros s; cbn.
  - split; [intros _; now exists s|reflexivity].
  - destruct s as [|d s]; [split; [discriminate|intros (b & H); discriminate]|].
    rewrite andb_true_iff, IH. split.
    + intros [He (b & ->)]. apply Ascii.eqb_eq in He. subst. now exists b.
    + intros (b & H). injection H as -> ->. split; [apply Ascii.eqb_refl|now exists b].
Qed.

Lemma starts_app : forall p b, starts p (p ++ b) = true.
Proof. intros. apply starts_spec. now exists b. Qed.

Lemma skipn_app_len : forall (p b : text), skipn (length p) (p ++ b) = b.
Proof. induction p as [|c p IH]; intro b; [reflexivity|apply IH]. Qed.

Lemma starts_skipn : forall p s, starts p s = true -> s = p ++ skipn (length p) s.
Proof. intros p s H. apply starts_spec in H as (b & ->). now rewrite skipn_app_len. Qed.

Lemma cut_some : forall sub s a b, cut sub s = Some (a, b) -> s = a ++ sub ++ b.
Proof.
  induction s as [|c s IH]; intros a b H; cbn [cut] in H.
  - destruct (starts sub []) eqn:E; [|discriminate]. injection H as <- <-. now apply starts_skipn in E.
  - destruct (starts sub (c :: s)) eqn:E.
    + injection H as <- <-. now apply starts_skipn in E.
    + destruct (cut sub s) as [[x y]|]; [|discriminate]. injection H as <- <-. cbn. f_equal. now apply IH.
Qed.

Lemma cut_none : forall sub s, cut sub s = None -> forall a b, s <> a ++ sub ++ b.
Proof.
  induction s as [|c s IH]; intros H a b He; cbn [cut] in H.
  - destruct (starts sub []) eqn:E; [discriminate|]. destruct a; [|discriminate]. cbn in He. rewrite He, starts_app in E. discriminate.
  - destruct (starts sub (c :: s)) eqn:E; [discriminate|]. destruct (cut sub s) as [[x y]|]; [discriminate|].
    destruct a as [|d a]; cbn in He.
    + rewrite He, starts_app in E. discriminate.
    + injection He as -> He. now apply (IH eq_refl a b).
Qed.

Lemma contains_spec : forall sub s, contains sub s = true <-> exists a b, s = a ++ sub ++ b.
Proof.
  intros sub s. unfold contains. destruct (cut sub s) as [[a b]|] eqn:E.
  - split; [|reflexivity]. intros _. exists a, b. now apply cut_some.
  - split; [discriminate|]. intros (a & b & H). exfalso. exact (cut_none _ _ E _ _ H).
Qed.

Lemma cut_char : forall c a b, ~ In c a -> cut [c] (a ++ c :: b) = Some (a, b).
Proof.
  induction a as [|d a IH]; intros b H; cbn.
  - now rewrite Ascii.eqb_refl.
  - destruct (Ascii.eqb_spec c d) as [->|Hd]; [exfalso; apply H; now left|]. cbn. rewrite IH; [reflexivity|].
    intro Hc. apply H. now right.
Qed.

Lemma contains_char : forall c s, contains [c] s = true <-> In c s.
Proof.
  intros c s. rewrite contains_spec. split.
  - intros (a & b & ->). apply in_or_app. right. now left.
  - intro H. apply in_split in H as (a & b & ->). now exists a, b.
Qed.

Lemma split_none : forall c s, ~ In c s -> split c s = [s].
Proof.
  induction s as [|d s IH]; intro H; [reflexivity|]. cbn. destruct (Ascii.eqb_spec d c) as [->|_]; [exfalso; apply H; now left|].
  rewrite IH; [reflexivity|]. intro Hc. apply H. now right.
Qed.

Lemma split_app : forall c a b, ~ In c a -> split c (a ++ c :: b) = a :: split c b.
Proof.
  induction a as [|d a IH]; intros b H; cbn.
  - now rewrite Ascii.eqb_refl.
  - destruct (Ascii.eqb_spec d c) as [->|_]; [exfalso; apply H; now left|]. rewrite IH; [reflexivity|]. intro Hc. apply H. now right.
Qed.

Lemma split_join : forall c l, l <> [] -> (forall x, In x l -> ~ In c x) -> split c (join [c] l) = l.
Proof.
  intros c. induction l as [|x l IH]; intros Hne H; [congruence|]. destruct l as [|y l].
  - apply split_none, H. now left.
  - change (join [c] (x :: y :: l)) with (x ++ c :: join [c] (y :: l)). rewrite split_app by (apply H; now left).
    rewrite IH; [reflexivity|discriminate|]. intros z Hz. apply H. now right.
Qed.

Lemma join_avoids : forall (P : ascii -> Prop) sep l, Forall P sep -> (forall x, In x l -> Forall P x) -> Forall P (join sep l).
Proof.
  intros P sep. induction l as [|x l IH]; intros Hs H; [constructor|]. destruct l as [|y l]; [apply H; now left|].
  change (join sep (x :: y :: l)) with (x ++ sep ++ join sep (y :: l)). apply Forall_app. split; [apply H; now left|].
  apply Forall_app. split; [assumption|]. apply IH; [assumption|]. intros z Hz. apply H. now right.
Qed.

Lemma last_index_app : forall c a b i r, last_index_from c (a ++ b) i r = last_index_from c b (i + len a) (last_index_from c a i r).
Proof.
  unfold len. induction a as [|d a IH]; intros b i r; cbn [app last_index_from length].
  - now rewrite Z.add_0_r.
  - rewrite IH. f_equal. lia.
Qed.

Lemma last_index_notin : forall c s i r, ~ In c s -> last_index_from c s i r = r.
Proof.
  induction s as [|d s IH]; intros i r H; [reflexivity|]. cbn. destruct (Ascii.eqb_spec d c) as [->|_]; [exfalso; apply H; now left|].
  apply IH. intro Hc. apply H. now right.
Qed.

Lemma last_index_here : forall c a b, ~ In c b -> last_index c (a ++ c :: b) = len a.
Proof.
  intros c a b H. unfold last_index. rewrite last_index_app. cbn [last_index_from]. rewrite Ascii.eqb_refl.
  now apply last_index_notin.
Qed.

Lemma last_index_none : forall c s, ~ In c s -> last_index c s = -1.
Proof. intros c s H. now apply last_index_notin. Qed.

Lemma in_last : forall (c : ascii) s, In c s -> exists a b, s = a ++ c :: b /\ ~ In c b.
Proof.
  intros c s H. induction s as [|d s IH]; [destruct H|]. destruct (in_dec ascii_dec c s) as [Hs|Hs].
  - destruct (IH Hs) as (a & b & -> & Hb). now exists (d :: a), b.
  - destruct H as [->|H]; [|contradiction]. now exists [], s.
Qed.

(** ** Import sections *)

Lemma cut_section : forall h r, no_section h -> cut (str "import (") (h ++ str "import (" ++ r) = Some (h, r).
Proof.
  intros h r H. set (k := str "import ("). induction h as [|c h IH].
  - cbn. reflexivity.
  - assert (Hs : starts k ((c :: h) ++ k ++ r) = false).
    { destruct (starts k ((c :: h) ++ k ++ r)) eqn:E; [|reflexivity]. exfalso. apply starts_spec in E as (b & E).
      destruct (Nat.le_gt_cases (length k) (length (c :: h))) as [Hl|Hl].
      - apply (H [] (skipn (length k) (c :: h))). cbn [app]. apply (f_equal (firstn (length k))) in E.
        rewrite firstn_app in E. replace (length k - length (c :: h))%nat with 0%nat in E by lia.
        rewrite firstn_O, app_nil_r in E. rewrite firstn_app in E. rewrite Nat.sub_diag, firstn_O, app_nil_r, firstn_all in E.
        fold k. rewrite <- E at 1. now rewrite firstn_skipn.
      - unfold k in *. cbn in Hl, E.
do 7 (destruct h as [|? h]; [cbn in E; discriminate E|]). cbn in Hl. lia. }
    cbn [app cut] in *. rewrite Hs. rewrite IH; [reflexivity|]. intros a b Ha. apply (H (c :: a) b). cbn. now rewrite Ha.
Qed.

Lemma quote_plain : is_space quote = false /\ quote <> ")"%char /\ quote <> "/"%char.
Proof. repeat split; discriminate. Qed.
Lemma plain_app : forall a b, plain a -> plain b -> plain (a ++ b).
Proof. intros. apply Forall_app. now split. Qed.
Lemma plain_notin : forall s c, plain s -> is_space c = true -> ~ In c s.
Proof. intros s c H Hc Hin. unfold plain in H. rewrite Forall_forall in H. destruct (H c Hin). congruence. Qed.
Lemma plain_paren : forall s, plain s -> ~ In ")"%char s.
Proof. intros s H Hin. unfold plain in H. rewrite Forall_forall in H. destruct (H _ Hin). congruence. Qed.

(** The line without the blanks around it. *)
Definition core (i : imp) : text :=
  match i with
  | Path (Some d) b => quote :: d ++ "/"%char :: b ++ [quote]
  | Path None b => quote :: b ++ [quote]
  | Alias a p => a ++ " "%char :: quote :: p ++ [quote]
  end.

Lemma core_head : forall i, well_formed i -> exists c s, core i = c :: s /\ is_space c = false.
Proof.
  intros [[d|] b|a p] H; cbn in *.
  - eexists. eexists. split; [reflexivity|apply quote_plain].
  - eexists. eexists. split; [reflexivity|apply quote_plain].
  - destruct H as (Ha & Hne & Hp). destruct a as [|c a]; [congruence|]. exists c. eexists. split; [reflexivity|]. inversion Ha. tauto.
Qed.
Lemma core_last : forall i, exists s, core i = s ++ [quote].
Proof.
  intros [[d|] b|a p]; cbn.
  - exists (quote :: d ++ "/"%char :: b). cbn. now rewrite <- app_assoc.
  - now exists (quote :: b).
  - exists (a ++ " "%char :: quote :: p). now rewrite <- app_assoc.
Qed.

Lemma trim_line : forall i, well_formed i -> trim (line_of i) = core i.
Proof.
  intros i H. unfold trim. assert (He : trim_left (line_of i) = core i).
  { destruct (core_head i H) as (c & s & Hc & Hs). change (line_of i) with (str "    " ++ core i). rewrite Hc. cbn. now rewrite Hs. }
  rewrite He. destruct (core_last i) as (s & Hs). rewrite Hs, rev_app_distr. cbn [rev app trim_left].
  rewrite (proj1 quote_plain). cbn [rev]. now rewrite rev_involutive.
Qed.

Lemma core_long : forall i, well_formed i -> (3 <= length (core i))%nat.
Proof.
  intros [[d|] b|a p] H; cbn in *; rewrite ?app_length; cbn [length]; rewrite ?app_length; cbn [length].
  - destruct H as (_ & Hb & _). lia.
  - destruct H as (_ & Hb & _). destruct b; [congruence|]. cbn. lia.
  - lia.
Qed.

Lemma firstn_app_len : forall (a b : text), firstn (length a) (a ++ b) = a.
Proof. intros. now rewrite firstn_app, Nat.sub_diag, firstn_O, firstn_all, app_nil_r. Qed.

Lemma name_right : forall i, well_formed i -> import_name (core i) = Some (name_of i).
Proof.
  intros [[d|] b|a p] H; unfold import_name.
  - destruct H as (Hb & Hne & Hsl & Hd). replace (contains (str " ") (core (Path (Some d) b))) with false.
    + cbn [core]. change (quote :: d ++ "/"%char :: b ++ [quote]) with ((quote :: d) ++ "/"%char :: (b ++ [quote])).
      rewrite last_index_here.
      * unfold len. cbn [length].
        assert (Hl : length ((quote :: d) ++ "/"%char :: b ++ [quote]) = (3 + length d + length b)%nat).
        { rewrite app_length. cbn [length]. rewrite app_length. cbn [length]. lia. }
        rewrite Hl. destruct (Z.of_nat (S (length d)) <? 0) eqn:E1; [lia|].
        destruct (Z.of_nat (3 + length d + length b) - 1 <? Z.of_nat (S (length d)) + 1) eqn:E2; [lia|].
        replace (Z.to_nat (Z.of_nat (S (length d)) + 1)) with (length ((quote :: d) ++ ["/"%char])) by (rewrite app_length; cbn; lia).
        replace ((quote :: d) ++ "/"%char :: b ++ [quote]) with (((quote :: d) ++ ["/"%char]) ++ b ++ [quote]) by (rewrite <- app_assoc; reflexivity).
        rewrite skipn_app_len. replace (3 + length d + length b - 1 - length ((quote :: d) ++ ["/"%char]))%nat with (length b) by (rewrite app_length; cbn [length]; lia).
        now rewrite firstn_app_len.
      * intro Hc. apply in_app_or in Hc as [Hc|[Hc|[]]]; [contradiction|discriminate].
    + symmetry. apply not_true_is_false. intro Hc. apply contains_char in Hc. destruct Hc as [Hc|Hc]; [discriminate|].
      apply in_app_or in Hc as [Hc|[Hc|Hc]]; [|discriminate|].
      * now apply (plain_notin d " "%char).
      * apply in_app_or in Hc as [Hc|[Hc|[]]]; [now apply (plain_notin b " "%char)|discriminate].
  - destruct H as (Hb & Hne & Hsl & _). replace (contains (str " ") (core (Path None b))) with false.
    + cbn [core]. rewrite last_index_none.
      * cbn [Z.ltb Z.compare skipn length]. rewrite app_length. cbn [length]. replace (S (length b + 1) - 2)%nat with (length b) by lia.
        now rewrite firstn_app_len.
      * intros [Hc|Hc]; [discriminate|]. apply in_app_or in Hc as [Hc|[Hc|[]]]; [contradiction|discriminate].
    + symmetry. apply not_true_is_false. intro Hc. apply contains_char in Hc. destruct Hc as [Hc|Hc]; [discriminate|].
      apply in_app_or in Hc as [Hc|[Hc|[]]]; [now apply (plain_notin b " "%char)|discriminate].
  - destruct H as (Ha & Hne & Hp). cbn [core name_of]. replace (contains (str " ") _) with true.
    + rewrite split_app; [reflexivity|]. now apply plain_notin.
    + symmetry. apply contains_char, in_or_app. right. now left.
Qed.

Lemma mentioned_spec : forall n body, plain n -> n <> [] ->
  contains (n ++ str ".") (")"%char :: body) = true <-> mentioned n body.
Proof.
  intros n body Hn Hne. rewrite contains_spec. unfold mentioned. split.
  - intros (a & b & H). destruct a as [|c a].
    + destruct n as [|c n]; [congruence|]. cbn in H. injection H as <- _. exfalso. inversion Hn. tauto.
    + cbn in H. injection H as <- ->. exists a, b. now rewrite <- app_assoc.
  - intros (a & b & ->). exists (")"%char :: a), b. cbn. now rewrite <- app_assoc.
Qed.

(** A line of the section: an import or nothing. *)
Definition line (l : option imp) : text := match l with Some i => line_of i | None => [] end.
Fixpoint some_of {A} (l : list (option A)) : list A :=
  match l with [] => [] | Some x :: l' => x :: some_of l' | None :: l' => some_of l' end.

Definition keep (body : text) (i : imp) : bool := contains (name_of i ++ str ".") (")"%char :: body).

Lemma used_spec : forall body l, Forall well_formed (some_of l) ->
  used_imports (")"%char :: body) (map line l) = Some (map line_of (filter (keep body) (some_of l))).
Proof.
  intros body. induction l as [|[i|] l IH]; intro H; [reflexivity| |].
  - cbn [some_of] in *. inversion H as [|? ? Hi Hl]; subst. cbn [map line used_imports]. rewrite trim_line by assumption.
    pose proof (core_long i Hi) as Hlen. unfold len. destruct (Z.of_nat (length (core i)) <? 3) eqn:E; [lia|].
    rewrite name_right by assumption. rewrite IH by assumption. cbn [filter]. fold (keep body i). now destruct (keep body i).
  - cbn [some_of map line used_imports]. cbn. apply IH. exact H.
Qed.

Lemma line_chars : forall i, well_formed i -> Forall (fun c => c <> newline /\ c <> ")"%char) (line_of i).
Proof.
  assert (Hp : forall s, plain s -> Forall (fun c => c <> newline /\ c <> ")"%char) s).
  { intros s H. eapply Forall_impl; [|exact H]. cbn. intros c [H1 H2]. split; [|assumption]. intros ->. discriminate. }
  assert (Hq : quote <> newline /\ quote <> ")"%char) by (split; discriminate).
  assert (Hs : "/"%char <> newline /\ "/"%char <> ")"%char) by (split; discriminate).
  assert (Hb : " "%char <> newline /\ " "%char <> ")"%char) by (split; discriminate).
  intros [[d|] b|a p] H; apply Forall_app; (split; [repeat constructor; discriminate|]); cbn in H.
  - constructor; [assumption|]. apply Forall_app. split; [now apply Hp|]. constructor; [assumption|]. apply Forall_app. split; [now apply Hp|].
    now constructor.
  - constructor; [assumption|]. apply Forall_app. split; [now apply Hp|]. now constructor.
  - apply Forall_app. split; [now apply Hp|]. constructor; [assumption|]. constructor; [assumption|]. apply Forall_app. split; [now apply Hp|].
    now constructor.
Qed.

Lemma lines_chars : forall l, Forall well_formed (some_of l) -> forall x, In x (map line l) -> Forall (fun c => c <> newline /\ c <> ")"%char) x.
Proof.
  induction l as [|[i|] l IH]; intros H x Hx; [destruct Hx| |].
  - cbn in H. inversion H; subst. destruct Hx as [<-|Hx]; [now apply line_chars|now apply IH].
  - destruct Hx as [<-|Hx]; [constructor|now apply IH].
Qed.

Lemma strip_lines : forall header l body, no_section header -> l <> [] -> Forall well_formed (some_of l) ->
  StripImports (header ++ str "import (" ++ join [newline] (map line l) ++ str ")" ++ body) =
  Ok (stripped header (filter (keep body) (some_of l)) body).
Proof.
  intros header l body Hh Hne Hw. unfold StripImports. rewrite cut_section by assumption.
  pose proof (lines_chars l Hw) as Hc.
  assert (Hj : ~ In ")"%char (join [newline] (map line l))).
  { assert (HF : Forall (fun c => c <> ")"%char) (join [newline] (map line l))).
    - apply join_avoids; [repeat constructor; discriminate|]. intros x Hx. eapply Forall_impl; [|apply Hc, Hx]. cbn. tauto.
    - intro Hin. rewrite Forall_forall in HF. now apply (HF _ Hin). }
  change (str ")" ++ body) with (")"%char :: body). change (str ")") with [")"%char]. rewrite cut_char by assumption.
  rewrite split_join.
  - rewrite used_spec by assumption. reflexivity.
  - now destruct l.
  - intros x Hx Hin. specialize (Hc x Hx). rewrite Forall_forall in Hc. now apply (proj1 (Hc _ Hin)).
Qed.

Lemma some_of_map : forall A (l : list A), some_of (map Some l) = l.
Proof. induction l as [|x l IH]; [reflexivity|]. cbn. now rewrite IH. Qed.
Lemma some_of_app : forall A (a b : list (option A)), some_of (a ++ b) = some_of a ++ some_of b.
Proof. induction a as [|[x|] a IH]; intro b; cbn; [reflexivity|now rewrite IH|apply IH]. Qed.

Lemma strip_file : forall header l body, no_section header -> Forall well_formed l ->
  StripImports (file header l body) = Ok (stripped header (filter (keep body) l) body).
Proof.
  intros header l body Hh Hw. pose proof (strip_lines header (None :: map Some l ++ [None]) body Hh) as H.
  cbn [map line some_of] in H. rewrite map_app, map_map, some_of_app, some_of_map in H. cbn [map line some_of] in H. rewrite app_nil_r in H.
  apply H; [discriminate|assumption].
Qed.

Lemma strip_stripped : forall header l body, no_section header -> Forall well_formed l ->
  StripImports (stripped header l body) = Ok (stripped header (filter (keep body) l) body).
Proof.
  intros header l body Hh Hw. destruct l as [|i l].
  - pose proof (strip_lines header [None] body Hh ltac:(discriminate) Hw) as H. exact H.
  - pose proof (strip_lines header (map Some (i :: l)) body Hh ltac:(discriminate)) as H. rewrite map_map, some_of_map in H. now apply H.
Qed.

Lemma filter_idem : forall A (f : A -> bool) l, filter f (filter f l) = filter f l.
Proof. induction l as [|x l IH]; cbn; [reflexivity|]. destruct (f x) eqn:E; cbn; rewrite ?E, IH; reflexivity. Qed.

(** An import stays if and only if its name is mentioned. *)
Lemma strip_exact : forall header l body, no_section header -> Forall well_formed l ->
  exists kept, StripImports (file header l body) = Ok (stripped header kept body) /\
    (exists keep : imp -> bool, kept = filter keep l /\ forall i, In i l -> keep i = true <-> mentioned (name_of i) body) /\
    StripImports (stripped header kept body) = Ok (stripped header kept body).
Proof.
  intros header l body Hh Hw. exists (filter (keep body) l). split; [now apply strip_file|]. split.
  - exists (keep body). split; [reflexivity|]. intros i Hi. rewrite Forall_forall in Hw. specialize (Hw i Hi).
    apply mentioned_spec; destruct i as [[d|] b|a p]; cbn in *; tauto.
  - rewrite strip_stripped; [now rewrite filter_idem|assumption|]. apply Forall_forall. intros i Hi. apply filter_In in Hi.
    rewrite Forall_forall in Hw. now apply Hw.
Qed.

Lemma used_mentioned : forall n body, used n body -> mentioned n body.
Proof. intros n body (a & b & H & _). now exists a, b. Qed.

(** ** Numbers *)

Lemma uint_digits : forall d, Forall is_digit (str (NilEmpty.string_of_uint d)).
Proof.
  induction d; cbn; [constructor|..]; (constructor; [unfold is_digit; cbn; lia|assumption]).
Qed.
Lemma to_uint_not_nil : forall n, Nat.to_uint n <> Decimal.Nil.
Proof.
  intros n H. pose proof (DecimalNat.Unsigned.to_of (Nat.to_uint n)) as Hn. rewrite DecimalNat.Unsigned.of_to, H in Hn. discriminate.
Qed.

Lemma decimal_uint : forall n, decimal n = str (NilEmpty.string_of_uint (Nat.to_uint n)).
Proof. intro n. unfold decimal, NilZero.string_of_uint. pose proof (to_uint_not_nil n). now destruct (Nat.to_uint n). Qed.

Lemma decimal_digits : forall n, Forall is_digit (decimal n).
Proof. intro n. rewrite decimal_uint. apply uint_digits. Qed.
Lemma decimal_not_nil : forall n, decimal n <> [].
Proof. intro n. rewrite decimal_uint. pose proof (to_uint_not_nil n). destruct (Nat.to_uint n); [congruence|discriminate..]. Qed.
Lemma str_inj : forall a b, str a = str b -> a = b.
Proof. intros a b H. rewrite <- (string_of_list_ascii_of_string a), <- (string_of_list_ascii_of_string b). unfold str in H. now rewrite H. Qed.
Lemma decimal_inj : forall a b, decimal a = decimal b -> a = b.
Proof.
  intros a b H. rewrite !decimal_uint in H. apply str_inj in H. apply (f_equal NilEmpty.uint_of_string) in H.
  rewrite !NilEmpty.usu in H. injection H as H. now apply DecimalNat.Unsigned.to_uint_inj.
Qed.
Lemma decimal_short : forall n, (n < 10)%nat -> length (decimal n) = 1%nat.
Proof. intros n H. do 10 (destruct n as [|n]; [reflexivity|]). lia. Qed.

(** ** Paths *)

Lemma last_index_bound : forall c s, -1 <= last_index c s < len s \/ (s = [] /\ last_index c s = -1).
Proof.
  intros c s. destruct (in_dec ascii_dec c s) as [H|H].
  - left. destruct (in_last c s H) as (a & b & -> & Hb). rewrite last_index_here by assumption. unfold len. rewrite app_length. cbn [length]. lia.
  - rewrite last_index_none by assumption. destruct s; [now right|left]. unfold len. cbn [length]. lia.
Qed.

Lemma firstn_dir : forall (dir fn : text) k, (length dir < k)%nat ->
  firstn k (join_path dir fn) = join_path dir (firstn (k - S (length dir)) fn).
Proof.
  intros dir fn k H. unfold join_path. rewrite firstn_app. rewrite firstn_all2 by lia.
  replace (k - length dir)%nat with (S (k - S (length dir))) by lia. reflexivity.
Qed.

Lemma shorten_dir : forall dir fn max, len dir + 7 <= max -> is_name fn ->
  exists j, shorten (join_path dir fn) max = join_path dir (firstn j fn).
Proof.
  intros dir fn max Hm Hn. unfold shorten, len in *. destruct (0 <? max) eqn:E0; [|lia].
  destruct (max - 5 <? Z.of_nat (length (join_path dir fn))) eqn:E1; [|exists (length fn); now rewrite firstn_all].
  rewrite firstn_dir by lia. set (q := firstn (Z.to_nat (max - 5) - S (length dir)) fn).
  assert (Hq : ~ In "/"%char q).
  { intro H. apply Hn. unfold q in H. rewrite <- (firstn_skipn (Z.to_nat (max - 5) - S (length dir)) fn). apply in_or_app. now left. }
  destruct (contains ["_"%char] (join_path dir q) && (last_index "/"%char (join_path dir q) <? last_index "_"%char (join_path dir q))) eqn:E2.
  - apply andb_true_iff in E2 as [_ E2]. unfold join_path at 1 in E2. rewrite last_index_here in E2 by assumption. unfold len in E2.
    rewrite firstn_dir by lia. unfold q. rewrite firstn_firstn. now eexists.
  - exists (Z.to_nat (max - 5) - S (length dir))%nat. reflexivity.
Qed.

Lemma shorten_length : forall dir fn max, len dir + 7 <= max -> len (shorten (join_path dir fn) max) <= max - 5.
Proof.
  intros dir fn max Hm. unfold shorten, len in *. destruct (0 <? max) eqn:E0; [|lia].
  destruct (max - 5 <? Z.of_nat (length (join_path dir fn))) eqn:E1; [|lia].
  destruct (_ && _).
  - rewrite !firstn_length. lia.
  - rewrite firstn_length. lia.
Qed.

(** A stem that ends in an underscore and a number. *)
Definition numbered (s : text) : Prop := exists a d, s = a ++ "_"%char :: d /\ d <> [] /\ Forall is_digit d.

Lemma no_slash_digits : forall d, Forall is_digit d -> ~ In "/"%char d.
Proof. intros d H Hin. rewrite Forall_forall in H. specialize (H _ Hin). unfold is_digit in H. cbn in H. lia. Qed.
Lemma no_underscore_digits : forall d, Forall is_digit d -> ~ In "_"%char d.
Proof. intros d H Hin. rewrite Forall_forall in H. specialize (H _ Hin). unfold is_digit in H. cbn in H. lia. Qed.

Lemma split_last : forall (c : ascii) a b a' b', a ++ c :: b = a' ++ c :: b' -> ~ In c b -> ~ In c b' -> a = a' /\ b = b'.
Proof.
  intros c. induction a as [|x a IH]; intros b a' b' H Hb Hb'.
  - destruct a' as [|y a']; cbn in H; [injection H as ->; now split|]. injection H as <- ->. exfalso. apply Hb. apply in_or_app. right. now left.
  - destruct a' as [|y a']; cbn in H.
    + injection H as -> <-. exfalso. apply Hb'. apply in_or_app. right. now left.
    + injection H as -> H. destruct (IH _ _ _ H Hb Hb') as [-> ->]. now split.
Qed.

Lemma stem_not_numbered : forall dir fn j, is_name fn -> ~ has_number fn -> ~ numbered (join_path dir (firstn j fn)).
Proof.
  intros dir fn j Hn Hh (a & d & He & Hne & Hd). unfold join_path in He.
  assert (Hq : ~ In "/"%char (firstn j fn)).
  { intro H. apply Hn. rewrite <- (firstn_skipn j fn). apply in_or_app. now left. }
  (* the last slash of the right side is in a *)
  destruct (in_dec ascii_dec "/"%char a) as [Ha|Ha].
  - destruct (in_last _ _ Ha) as (a1 & a2 & -> & Ha2). rewrite <- app_assoc in He. cbn [app] in He.
    apply split_last in He as [_ He]; [|assumption|].
    + apply Hh. destruct d as [|c d]; [congruence|]. exists a2, c, (d ++ skipn j fn). split; [|now inversion Hd].
      rewrite <- (firstn_skipn j fn) at 1. rewrite He. now rewrite <- app_assoc.
    + intro Hc. apply in_app_or in Hc as [Hc|[Hc|Hc]]; [contradiction|discriminate|]. now apply (no_slash_digits d).
  - assert (Hin : In "/"%char (a ++ "_"%char :: d)) by (rewrite <- He; apply in_or_app; right; now left).
    apply in_app_or in Hin as [Hin|[Hin|Hin]]; [contradiction|discriminate|]. now apply (no_slash_digits d).
Qed.

Definition tail (i : nat) : text := match i with O => [] | _ => "_"%char :: decimal i end.
Definition path_of (stem : text) (i : nat) : text := stem ++ tail i ++ str ".go".

Lemma path_inj : forall s i s' i', ~ numbered s -> ~ numbered s' -> path_of s i = path_of s' i' -> s = s' /\ i = i'.
Proof.
  intros s i s' i' Hs Hs' H. unfold path_of in H. rewrite !app_assoc in H. apply app_inv_tail in H.
  destruct i as [|i], i' as [|i']; cbn [tail] in H; rewrite ?app_nil_r in H.
  - now subst.
  - exfalso. apply Hs. exists s', (decimal (S i')). split; [assumption|]. split; [apply decimal_not_nil|apply decimal_digits].
  - exfalso. apply Hs'. exists s, (decimal (S i)). split; [now symmetry|]. split; [apply decimal_not_nil|apply decimal_digits].
  - apply split_last in H as [-> H]; try apply no_underscore_digits, decimal_digits. apply decimal_inj in H. now split.
Qed.

Definition cnt (st : counts) (s : text) : nat := match count_of s st with Some n => n | None => 0 end.
Definition positive (st : counts) : Prop := forall k n, count_of k st = Some n -> n <> O.

Lemma assemble_spec : forall st dir fn max p st', positive st -> assembleUniqueFilePath st dir fn max = Some (p, st') ->
  len dir + 7 <= max /\ p = path_of (shorten (join_path dir fn) max) (cnt st (shorten (join_path dir fn) max)) /\ positive st' /\
  cnt st' (shorten (join_path dir fn) max) = S (cnt st (shorten (join_path dir fn) max)) /\ forall s, (cnt st s <= cnt st' s)%nat /\ (cnt st' s <= S (cnt st s))%nat.
Proof.
  intros st dir fn max p st' Hp H. unfold assembleUniqueFilePath in H. destruct (max <? len dir + 5 + 2) eqn:E; [discriminate|].
  split; [lia|]. set (stem := shorten (join_path dir fn) max) in *. destruct (count_of stem st) as [n|] eqn:Ec.
  - injection H as <- <-. pose proof (Hp _ _ Ec) as Hn. unfold cnt. rewrite Ec. cbn [count_of]. destruct (list_eq_dec ascii_dec stem stem) as [_|Hc]; [|congruence].
    repeat split.
    + unfold path_of. destruct n; [congruence|]. reflexivity.
    + intros k m Hk. cbn [count_of] in Hk. destruct (list_eq_dec ascii_dec stem k); [injection Hk as <-; lia|eauto].
    + destruct (list_eq_dec ascii_dec stem s) as [<-|]; [rewrite Ec|]; lia.
    + destruct (list_eq_dec ascii_dec stem s) as [<-|]; [rewrite Ec|]; lia.
  - injection H as <- <-. unfold cnt. rewrite Ec. cbn [count_of]. destruct (list_eq_dec ascii_dec stem stem) as [_|Hc]; [|congruence].
    repeat split.
    + intros k m Hk. cbn [count_of] in Hk. destruct (list_eq_dec ascii_dec stem k); [injection Hk as <-; lia|eauto].
    + destruct (list_eq_dec ascii_dec stem s) as [<-|]; [rewrite Ec|]; lia.
    + destruct (list_eq_dec ascii_dec stem s) as [<-|]; [rewrite Ec|]; lia.
Qed.

Lemma requests_spec : forall max l st ps st', positive st -> fine l -> requests st max l = Some (ps, st') ->
  positive st' /\ NoDup ps /\ (forall s, (cnt st s <= cnt st' s)%nat) /\
  forall p, In p ps -> exists s i, p = path_of s i /\ ~ numbered s /\ (cnt st s <= i < cnt st' s)%nat.
Proof.
  intros max. induction l as [|[dir fn] l IH]; intros st ps st' Hp Hf H; cbn [requests] in H.
  - injection H as <- <-. repeat split; [assumption|constructor|lia|intros p []].
  - destruct (assembleUniqueFilePath st dir fn max) as [[p st1]|] eqn:E; [|discriminate].
    destruct (requests st1 max l) as [[ps1 st2]|] eqn:E2; [|discriminate]. injection H as <- <-.
    destruct (assemble_spec _ _ _ _ _ _ Hp E) as (Hm & Hpath & Hp1 & Hc & Hmon).
    destruct (IH st1 ps1 st2 Hp1 ltac:(intros d f Hin; apply (Hf d f); now right) E2) as (Hp2 & Hnd & Hmon2 & Hall).
    destruct (Hf dir fn (or_introl eq_refl)) as [Hname Hnum].
    destruct (shorten_dir dir fn max Hm Hname) as (j & Hj).
    assert (Hs : ~ numbered (shorten (join_path dir fn) max)) by (rewrite Hj; now apply stem_not_numbered).
    refine (conj Hp2 (conj _ (conj _ _))).
    + constructor; [|assumption]. intro Hin. destruct (Hall p Hin) as (s & i & He & Hns & Hi). rewrite Hpath in He.
      apply path_inj in He as [<- <-]; try assumption. lia.
    + intro s. specialize (Hmon s). specialize (Hmon2 s). lia.
    + intros q [<-|Hq].
      * exists (shorten (join_path dir fn) max), (cnt st (shorten (join_path dir fn) max)). split; [assumption|]. split; [assumption|].
        specialize (Hmon2 (shorten (join_path dir fn) max)). lia.
      * destruct (Hall q Hq) as (s & i & He & Hns & Hi). exists s, i. split; [assumption|]. split; [assumption|]. specialize (Hmon s). lia.
Qed.

Lemma positive_nil : positive [].
Proof. intros k n H. discriminate. Qed.

Lemma requests_distinct : forall max l ps st, fine l -> requests [] max l = Some (ps, st) -> NoDup ps.
Proof. intros max l ps st Hf H. now apply (requests_spec max l [] ps st positive_nil Hf H). Qed.

Lemma requests_again : forall max l l' ps st ps' st', fine l -> fine l' -> requests [] max l = Some (ps, st) ->
  requests st max l' = Some (ps', st') -> forall p, In p ps -> ~ In p ps'.
Proof.
  intros max l l' ps st ps' st' Hf Hf' H H' p Hin Hin'.
  destruct (requests_spec _ _ _ _ _ positive_nil Hf H) as (Hp & _ & _ & Hall).
  destruct (requests_spec _ _ _ _ _ Hp Hf' H') as (_ & _ & _ & Hall').
  destruct (Hall p Hin) as (s & i & -> & Hs & Hi). destruct (Hall' _ Hin') as (s' & i' & He & Hs' & Hi').
  apply path_inj in He as [<- <-]; try assumption. lia.
Qed.

Lemma requests_length : forall max l st ps st' k, positive st -> (forall s, (cnt st s <= k)%nat) -> (length l + k <= 10)%nat ->
  requests st max l = Some (ps, st') -> forall p, In p ps -> len p <= max.
Proof.
  intros max. induction l as [|[dir fn] l IH]; intros st ps st' k Hp Hk Hl H p Hin; cbn [requests] in H.
  - injection H as <- <-. destruct Hin.
  - destruct (assembleUniqueFilePath st dir fn max) as [[q st1]|] eqn:E; [|discriminate].
    destruct (requests st1 max l) as [[ps1 st2]|] eqn:E2; [|discriminate]. injection H as <- <-.
    destruct (assemble_spec _ _ _ _ _ _ Hp E) as (Hm & Hpath & Hp1 & Hc & Hmon). cbn [length] in Hl.
    destruct Hin as [<-|Hin].
    + rewrite Hpath. pose proof (shorten_length dir fn max Hm) as Hs. set (s := shorten (join_path dir fn) max) in *.
      specialize (Hk s). unfold path_of, len in *. rewrite !app_length. cbn [length str list_ascii_of_string].
      assert (Ht : (length (tail (cnt st s)) <= 2)%nat).
      { unfold tail. pose proof (decimal_short (cnt st s)). destruct (cnt st s); cbn [length]; lia. }
      lia.
    + apply (IH st1 ps1 st2 (S k) Hp1); try assumption; [|lia]. intro s. specialize (Hmon s). specialize (Hk s). lia.
Qed.

Lemma requests_limit : forall max l ps st, (length l <= 10)%nat -> requests [] max l = Some (ps, st) -> Forall (fun p => len p <= max) ps.
Proof.
  intros max l ps st Hl H. apply Forall_forall. apply (requests_length max l [] ps st 0 positive_nil); try assumption; [reflexivity|lia].
Qed.

Lemma requests_error : forall max l st, requests st max l = None <-> exists dir fn, In (dir, fn) l /\ max < len dir + 7.
Proof.
  intros max. induction l as [|[dir fn] l IH]; intro st; cbn [requests].
  - split; [discriminate|intros (? & ? & [] & _)].
  - unfold assembleUniqueFilePath at 1. destruct (max <? len dir + 5 + 2) eqn:E.
    + split; [|reflexivity]. intros _. exists dir, fn. split; [now left|lia].
    + destruct (match count_of _ st with Some n => _ | None => _ end) as [[p st1]|] eqn:E1.
      * pose proof (IH st1) as IH1. destruct (requests st1 max l) as [[ps st2]|] eqn:E2.
        -- split; [discriminate|]. intros (d & f & [He|Hin] & Hlt); [injection He as -> ->; lia|].
           exfalso. assert (Some (ps, st2) = None) by (apply IH1; now exists d, f). discriminate.
        -- split; [|reflexivity]. intros _. destruct (proj1 IH1 eq_refl) as (d & f & Hin & Hlt). exists d, f. split; [now right|assumption].
      * exfalso. destruct (count_of _ st); discriminate.
Qed.

Lemma requests_dir : forall max l st ps st', (forall dir fn, In (dir, fn) l -> is_name fn) -> requests st max l = Some (ps, st') ->
  Forall2 (fun r p => exists x, p = fst r ++ "/"%char :: x ++ str ".go") l ps.
Proof.
  intros max. induction l as [|[dir fn] l IH]; intros st ps st' Hf H; cbn [requests] in H.
  - injection H as <- <-. constructor.
  - unfold assembleUniqueFilePath in H. destruct (max <? len dir + 5 + 2) eqn:E; [discriminate|].
    destruct (shorten_dir dir fn max ltac:(lia) (Hf dir fn (or_introl eq_refl))) as (j & Hj). rewrite Hj in H.
    assert (Hl : forall d f, In (d, f) l -> is_name f) by (intros d f Hin; apply (Hf d); now right).
    destruct (count_of _ st) as [n|].
    + destruct (requests _ max l) as [[ps1 st2]|] eqn:E2; [|discriminate]. injection H as <- <-.
      constructor; [|eapply IH; eauto]. exists (firstn j fn ++ "_"%char :: decimal n). unfold join_path. cbn [fst]. rewrite <- !app_assoc. reflexivity.
    + destruct (requests _ max l) as [[ps1 st2]|] eqn:E2; [|discriminate]. injection H as <- <-.
      constructor; [|eapply IH; eauto]. exists (firstn j fn). unfold join_path. cbn [fst]. now rewrite <- !app_assoc.
Qed.

(** With a number in the name: the second file [a] gets the name of the file [a_1]. *)
Lemma requests_collide : forall dir a max, len dir + 7 <= max -> len (join_path dir a) + 7 <= max ->
  exists p q st, requests [] max [(dir, a); (dir, a ++ str "_1"); (dir, a)] = Some ([p; q; q], st).
Proof.
  intros dir a max Hd Hm. cbn [requests]. unfold assembleUniqueFilePath. destruct (max <? len dir + 5 + 2) eqn:E; [lia|].
  assert (H1 : shorten (join_path dir a) max = join_path dir a).
  { unfold shorten, len in *. destruct (0 <? max) eqn:E0; [|lia]. destruct (max - 5 <? _) eqn:E1; [lia|reflexivity]. }
  assert (H2 : shorten (join_path dir (a ++ str "_1")) max = join_path dir a ++ str "_1").
  { unfold shorten. replace (len (join_path dir (a ++ str "_1"))) with (len (join_path dir a) + 2).
    - unfold len in *. destruct (0 <? max) eqn:E0; [|lia]. destruct (max - 5 <? _) eqn:E1; [lia|]. unfold join_path. now rewrite <- app_assoc.
    - unfold join_path, len. rewrite !app_length. cbn [length]. rewrite !app_length. cbn [length str list_ascii_of_string]. lia. }
  rewrite H1, H2. cbn [count_of].
  assert (Hne : join_path dir a <> join_path dir a ++ str "_1").
  { intro H. rewrite <- (app_nil_r (join_path dir a)) in H at 1. apply app_inv_head in H. discriminate. }
  destruct (list_eq_dec ascii_dec (join_path dir a) (join_path dir a ++ str "_1")) as [Hc|_]; [contradiction|].
  cbn [count_of]. destruct (list_eq_dec ascii_dec (join_path dir a ++ str "_1") (join_path dir a)) as [Hc|_]; [now symmetry in Hc|].
  destruct (list_eq_dec ascii_dec (join_path dir a) (join_path dir a)) as [_|Hc]; [|congruence].
  exists (join_path dir a ++ str ".go"), ((join_path dir a ++ str "_1") ++ str ".go"). eexists.
  replace (join_path dir a ++ "_"%char :: decimal 1 ++ str ".go") with ((join_path dir a ++ str "_1") ++ str ".go") by (rewrite <- app_assoc; reflexivity).
  reflexivity.
Qed.

(** ** Packages *)

Lemma join_split : forall c d s, join [d] (split c s) = replace c d s.
Proof.
  intros c d. induction s as [|x s IH]; [reflexivity|]. cbn [split replace map]. fold (replace c d s). rewrite <- IH.
  destruct (Ascii.eqb_spec x c) as [->|Hx].
  - destruct (split c s) eqn:E; [|reflexivity]. destruct s; cbn in E; [discriminate|]. destruct (_ =? _)%char; [discriminate|]. destruct (split c s); discriminate.
  - destruct (split c s) as [|l r] eqn:E.
    + destruct s; cbn in E; [discriminate|]. destruct (_ =? _)%char; [discriminate|]. destruct (split c s); discriminate.
    + destruct r; reflexivity.
Qed.

Lemma lower_dot : forall c, ((if (lower_char c =? ".")%char then "/"%char else lower_char c) = (if (c =? ".")%char then "/"%char else c)) <-> lower_char c = c.
Proof.
  intro c. split.
  - destruct c as [[] [] [] [] [] [] [] []]; vm_compute; intro H; first [reflexivity|discriminate H].
  - intros ->. reflexivity.
Qed.

Lemma lower_kept : forall c, lower_char c = c <-> ~ is_capital c.
Proof.
  intro c. unfold is_capital. split.
  - intros H [H1 H2]. unfold lower_char in H. apply Nat.leb_le in H1, H2. rewrite H1, H2 in H. cbn [andb] in H.
    apply (f_equal nat_of_ascii) in H. rewrite nat_ascii_embedding in H; [lia|]. apply Nat.leb_le in H2. lia.
  - intro H. unfold lower_char. destruct (65 <=? nat_of_ascii c)%nat eqn:E1; [|reflexivity]. destruct (nat_of_ascii c <=? 90)%nat eqn:E2; [|reflexivity].
    apply Nat.leb_le in E1, E2. exfalso. now apply H.
Qed.

Lemma dir_is_path_lower : forall pkg, package_dir pkg = import_path pkg <-> lower pkg = pkg.
Proof.
  intro pkg. unfold package_dir, import_path. change (str "/") with ["/"%char]. rewrite join_split. unfold replace, lower. rewrite map_map.
  induction pkg as [|c pkg IH]; [cbn; tauto|]. cbn [map]. split; intro H; injection H as Hc Hr.
  - apply lower_dot in Hc. rewrite Hc. f_equal. now apply IH.
  - f_equal; [now apply lower_dot|now apply IH].
Qed.

Lemma dir_is_path : forall pkg, package_dir pkg = import_path pkg <-> forall c, In c pkg -> ~ is_capital c.
Proof.
  intro pkg. rewrite dir_is_path_lower. unfold lower. induction pkg as [|c pkg IH]; [cbn; tauto|]. cbn [map]. split.
  - intro H. injection H as Hc Hr. intros x [<-|Hx]; [now apply lower_kept|now apply (proj1 IH Hr)].
  - intro H. f_equal; [apply lower_kept; apply H; now left|]. apply IH. intros x Hx. apply H. now right.
Qed.

Lemma lower_same_letter : forall c d, lower_char c = lower_char d -> same_letter c d.
Proof.
  intros c d. unfold lower_char, same_letter, is_capital.
  destruct ((65 <=? nat_of_ascii c)%nat && (nat_of_ascii c <=? 90)%nat)%bool eqn:Ec; destruct ((65 <=? nat_of_ascii d)%nat && (nat_of_ascii d <=? 90)%nat)%bool eqn:Ed;
    try apply andb_true_iff in Ec; try apply andb_true_iff in Ed; rewrite ?Nat.leb_le in Ec; rewrite ?Nat.leb_le in Ed; intro H.
  - left. rewrite <- (ascii_nat_embedding c), <- (ascii_nat_embedding d). f_equal. apply (f_equal nat_of_ascii) in H. rewrite !nat_ascii_embedding in H by lia. lia.
  - right. left. split; [lia|]. rewrite <- H. apply nat_ascii_embedding. lia.
  - right. right. split; [lia|]. rewrite H. apply nat_ascii_embedding. lia.
  - now left.
Qed.
Lemma lower_same : forall a b, lower a = lower b -> same_up_to_case a b.
Proof.
  induction a as [|c a IH]; intros [|d b] H; try discriminate; [constructor|]. cbn in H. injection H as Hc Hr.
  constructor; [now apply lower_same_letter|now apply IH].
Qed.

Lemma same_lower_letter : forall c d, is_capital c -> nat_of_ascii d = (nat_of_ascii c + 32)%nat -> lower_char c = lower_char d.
Proof.
  intros c d [H1 H2] Hd. unfold lower_char. rewrite Hd. rewrite (proj2 (Nat.leb_le 65 (nat_of_ascii c)) H1), (proj2 (Nat.leb_le (nat_of_ascii c) 90) H2). cbn [andb].
  rewrite (proj2 (Nat.leb_gt (nat_of_ascii c + 32) 90)) by lia. rewrite andb_false_r. rewrite <- Hd. apply ascii_nat_embedding.
Qed.
Lemma same_lower : forall a b, same_up_to_case a b -> lower a = lower b.
Proof.
  intros a b H. induction H as [|c d a b [<-|[[H Hd]|[H Hd]]] _ IH]; [reflexivity| | |]; unfold lower in *; cbn [map]; f_equal; try assumption; try reflexivity.
  - now apply same_lower_letter.
  - symmetry. now apply same_lower_letter.
Qed.

Lemma alias_inj : forall a b, ~ In "_"%char a -> ~ In "_"%char b -> GoPackageAlias a = GoPackageAlias b -> a = b.
Proof.
  unfold GoPackageAlias, replace. induction a as [|c a IH]; intros [|d b] Ha Hb H; try discriminate; [reflexivity|].
  cbn [map] in H. injection H as Hc Hr. f_equal.
  - destruct (Ascii.eqb_spec c ".") as [->|]; destruct (Ascii.eqb_spec d ".") as [->|]; try reflexivity; try assumption.
    + exfalso. apply Hb. left. now symmetry.
    + exfalso. apply Ha. now left.
  - apply IH; [intro; apply Ha; now right|intro; apply Hb; now right|assumption].
Qed.
