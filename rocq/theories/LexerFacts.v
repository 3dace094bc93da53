(** Facts about the lexer: derivatives, the longest match, words and layout. *)

Require Import ZArith String Ascii List Bool Lia.
From Verif Require Import Files Lexer LexerSpec.
Import ListNotations.
Open Scope nat_scope.
Open Scope char_scope.

(** ** Regular expressions *)

Lemma m_nothing : forall s, ~ matches Nothing s.
Proof. intros s H. inversion H. Qed.
Lemma m_eps : forall s, matches Eps s <-> s = [].
Proof. intro s. split; intro H; [inversion H; reflexivity|subst; constructor]. Qed.
Lemma m_ch : forall p s, matches (Ch p) s <-> exists c, s = [c] /\ p c = true.
Proof. intros p s. split; intro H; [inversion H; subst; eauto|destruct H as (c & -> & Hp); constructor; exact Hp]. Qed.
Lemma m_seq : forall a b s, matches (Seq a b) s <-> exists x y, s = x ++ y /\ matches a x /\ matches b y.
Proof. intros a b s. split; intro H; [inversion H; subst; eauto|destruct H as (x & y & -> & Hx & Hy); constructor; assumption]. Qed.
Lemma m_alt : forall a b s, matches (Alt a b) s <-> matches a s \/ matches b s.
Proof. intros a b s. split; intro H; [inversion H; subst; auto|destruct H; [apply MAltL|apply MAltR]; assumption]. Qed.
Lemma m_star_cons : forall a c s, matches (Star a) (c :: s) <-> exists x y, s = x ++ y /\ matches a (c :: x) /\ matches (Star a) y.
Proof.
  intros a c s. split.
  - intro H. remember (Star a) as r eqn:Er. remember (c :: s) as t eqn:Et. revert c s a Et Er.
    induction H as [ | | | | |a'|a' x y Hx _ Hy IH]; intros c0 s0 a0 Et Er; try discriminate.
    injection Er as <-. destruct x as [|d x].
    + cbn in Et. apply (IH c0 s0 _ Et eq_refl).
    + cbn in Et. injection Et as -> <-. exists x, y. auto.
  - intros (x & y & -> & Hx & Hy). change (c :: x ++ y) with ((c :: x) ++ y). constructor; assumption.
Qed.

Lemma m_seq_ : forall a b s, matches (seq_ a b) s <-> matches (Seq a b) s.
Proof.
  intros a b s.
  assert (H1 : matches (Seq Nothing b) s <-> matches Nothing s).
  { rewrite m_seq. split; [intros (x & y & _ & Hx & _); destruct (m_nothing _ Hx)|intro Hx; destruct (m_nothing _ Hx)]. }
  assert (H2 : forall r, matches (Seq r Nothing) s <-> matches Nothing s).
  { intro r. rewrite m_seq. split; [intros (x & y & _ & _ & Hx); destruct (m_nothing _ Hx)|intro Hx; destruct (m_nothing _ Hx)]. }
  assert (H3 : matches (Seq Eps b) s <-> matches b s).
  { rewrite m_seq. split.
    - intros (x & y & -> & Hx & Hy). apply m_eps in Hx. subst. exact Hy.
    - intro Hy. exists [], s. repeat split; [constructor|exact Hy]. }
  destruct a; try (symmetry; exact H1); destruct b; cbn [seq_]; try reflexivity; symmetry; try apply H2; exact H3.
Qed.
Lemma m_alt_ : forall a b s, matches (alt_ a b) s <-> matches (Alt a b) s.
Proof.
  intros a b s. pose proof (m_nothing s) as Hn. rewrite m_alt.
  destruct a; cbn [alt_]; try (tauto); destruct b; cbn [alt_]; try rewrite m_alt; tauto.
Qed.

Lemma nullable_ok : forall r, nullable r = true <-> matches r [].
Proof.
  induction r as [| |p|a IHa b IHb|a IHa b IHb|a IHa]; cbn [nullable].
  - split; [discriminate|intro H; destruct (m_nothing _ H)].
  - split; [constructor|reflexivity].
  - rewrite m_ch. split; [discriminate|intros (c & H & _); discriminate].
  - rewrite andb_true_iff, IHa, IHb, m_seq. split.
    + intros [H1 H2]. exists [], []. auto.
    + intros (x & y & He & Hx & Hy). symmetry in He. apply app_eq_nil in He as [-> ->]. auto.
  - rewrite orb_true_iff, IHa, IHb, m_alt. reflexivity.
  - split; [constructor|reflexivity].
Qed.

Lemma deriv_ok : forall r c s, matches (deriv c r) s <-> matches r (c :: s).
Proof.
  induction r as [| |p|a IHa b IHb|a IHa b IHb|a IHa]; intros c s; cbn [deriv].
  - split; intro H; inversion H.
  - split; intro H; inversion H.
  - rewrite m_ch. destruct (p c) eqn:Ep.
    + rewrite m_eps. split; [intros ->; eauto|intros (d & H & _); injection H as -> ->; reflexivity].
    + split; [intro H; inversion H|intros (d & H & Hp); injection H as -> ->; rewrite Hp in Ep; discriminate].
  - assert (Hone : matches (seq_ (deriv c a) b) s <-> exists x y, s = x ++ y /\ matches a (c :: x) /\ matches b y).
    { rewrite m_seq_, m_seq. split; intros (x & y & Hs & Hx & Hy); exists x, y; repeat split; auto; apply IHa; exact Hx. }
    assert (Htwo : matches (Seq a b) (c :: s) <->
        (exists x y, s = x ++ y /\ matches a (c :: x) /\ matches b y) \/ (matches a [] /\ matches b (c :: s))).
    { rewrite m_seq. split.
      - intros (x & y & He & Hx & Hy). destruct x as [|d x].
        + cbn in He. subst y. right. auto.
        + cbn in He. injection He as <- ->. left. exists x, y. auto.
      - intros [(x & y & -> & Hx & Hy)|[Hx Hy]]; [exists (c :: x), y|exists [], (c :: s)]; auto. }
    rewrite Htwo. destruct (nullable a) eqn:En.
    + rewrite m_alt_, m_alt, Hone, IHb. apply nullable_ok in En. tauto.
    + rewrite Hone. assert (~ matches a []) by (rewrite <- nullable_ok, En; discriminate). tauto.
  - rewrite m_alt_, !m_alt, IHa, IHb. reflexivity.
  - rewrite m_seq_, m_seq, m_star_cons.
    split; intros (x & y & Hs & Hx & Hy); exists x, y; repeat split; auto; apply IHa; exact Hx.
Qed.

(** The result is the length of the longest match, or that given before. *)
Lemma longest_from_ok : forall s r n b,
  match longest_from r s n b with
  | Some m =>
      ((exists x y, s = x ++ y /\ matches r x /\ m = n + length x) \/ (b = Some m /\ forall x y, s = x ++ y -> ~ matches r x)) /\
      forall x y, s = x ++ y -> matches r x -> n + length x <= m
  | None => b = None /\ forall x y, s = x ++ y -> ~ matches r x
  end.
Proof.
  induction s as [|c s IH]; intros r n b; cbn [longest_from].
  - destruct (nullable r) eqn:En.
    + apply nullable_ok in En. split.
      * left. exists [], []. repeat split; [exact En|cbn; lia].
      * intros x y He Hx. symmetry in He. apply app_eq_nil in He as [-> ->]. cbn. lia.
    + assert (Hn : ~ matches r []) by (rewrite <- nullable_ok, En; discriminate).
      assert (Hall : forall x y : text, [] = x ++ y -> ~ matches r x).
      { intros x y He Hx. symmetry in He. apply app_eq_nil in He as [-> ->]. contradiction. }
      destruct b as [m|]; [split|split].
      * right. auto.
      * intros x y He Hx. destruct (Hall x y He Hx).
      * reflexivity.
      * exact Hall.
  - specialize (IH (deriv c r) (S n) (if nullable r then Some n else b)).
    destruct (longest_from (deriv c r) s (S n) (if nullable r then Some n else b)) as [m|].
    + destruct IH as [H1 H2].
      assert (H3 : forall x y, c :: s = x ++ y -> matches r x -> x = [] \/ n + length x <= m).
      { intros x y He Hx. destruct x as [|d x]; [left; reflexivity|right]. cbn in He. injection He as <- ->.
        apply deriv_ok in Hx. specialize (H2 x y eq_refl Hx). cbn [length]. lia. }
      destruct H1 as [(x & y & -> & Hx & ->)|[Hb Hno]].
      * split.
        -- left. exists (c :: x), y. repeat split; [apply deriv_ok; exact Hx|cbn [length]; lia].
        -- intros x' y' He Hx'. destruct (H3 x' y' He Hx') as [ -> |H]; [cbn; lia|exact H].
      * destruct (nullable r) eqn:En.
        -- injection Hb as <-. apply nullable_ok in En. split.
           ++ left. exists [], (c :: s). repeat split; [exact En|cbn; lia].
           ++ intros x' y' He Hx'. destruct (H3 x' y' He Hx') as [ -> |H]; [cbn; lia|exact H].
        -- assert (Hn : ~ matches r []) by (rewrite <- nullable_ok, En; discriminate).
           assert (Hall : forall x y : text, c :: s = x ++ y -> ~ matches r x).
           { intros x y He Hx. destruct x as [|d x]; [contradiction|]. cbn in He. injection He as <- ->.
             apply deriv_ok in Hx. exact (Hno x y eq_refl Hx). }
           split; [right; auto|]. intros x y He Hx. destruct (Hall x y He Hx).
    + destruct IH as [Hb Hno]. destruct (nullable r) eqn:En; [discriminate|]. split; [exact Hb|].
      assert (Hn : ~ matches r []) by (rewrite <- nullable_ok, En; discriminate).
      intros x y He Hx. destruct x as [|d x]; [contradiction|]. cbn in He. injection He as <- ->.
      apply deriv_ok in Hx. exact (Hno x y eq_refl Hx).
Qed.

(** ** Rules *)

Lemma starts_with_ok : forall t s, starts_with t s = true <-> exists y, s = t ++ y.
Proof.
  induction t as [|a t IH]; intros s; cbn [starts_with].
  - split; [intros _; exists s; reflexivity|reflexivity].
  - destruct s as [|b s].
    + split; [discriminate|intros [y Hy]; discriminate].
    + rewrite andb_true_iff, Ascii.eqb_eq, IH. split.
      * intros [-> [y ->]]. exists y. reflexivity.
      * intros [y Hy]. cbn in Hy. injection Hy as -> ->. eauto.
Qed.

Lemma find_ok : forall t s,
  match find t s with
  | Some i => exists x y, s = x ++ t ++ y /\ length x = i /\ forall x' y', s = x' ++ t ++ y' -> i <= length x'
  | None => forall x y, s <> x ++ t ++ y
  end.
Proof.
  intro t. induction s as [|c s IH]; cbn [find].
  - destruct (starts_with t []) eqn:Es.
    + apply starts_with_ok in Es as [y Hy]. exists [], y. cbn. repeat split; [exact Hy|intros; lia].
    + intros x y He. symmetry in He. apply app_eq_nil in He as [-> He].
      assert (starts_with t [] = true) by (apply starts_with_ok; exists y; symmetry; exact He). congruence.
  - destruct (starts_with t (c :: s)) eqn:Es.
    + apply starts_with_ok in Es as [y Hy]. exists [], y. cbn. repeat split; [exact Hy|intros; lia].
    + assert (Hc : forall x y, c :: s = x ++ t ++ y -> exists x', x = c :: x' /\ s = x' ++ t ++ y).
      { intros x y He. destruct x as [|d x].
        - assert (starts_with t (c :: s) = true) by (apply starts_with_ok; exists y; exact He). congruence.
        - cbn in He. injection He as <- ->. eauto. }
      destruct (find t s) as [i|]; cbn [option_map].
      * destruct IH as (x & y & -> & <- & Hmin). exists (c :: x), y. repeat split.
        intros x' y' He. destruct (Hc _ _ He) as (x2 & -> & Hs). specialize (Hmin _ _ Hs). cbn. lia.
      * intros x y He. destruct (Hc _ _ He) as (x2 & -> & Hs). exact (IH _ _ Hs).
Qed.

Lemma app_same_length : forall {A} (a b x y : list A), a ++ x = b ++ y -> length a = length b -> a = b /\ x = y.
Proof.
  intros A a. induction a as [|c a IH]; intros [|d b] x y He Hl; cbn in *; try lia; [auto|].
  injection He as -> He. destruct (IH b x y He) as [-> ->]; [lia|auto].
Qed.

Lemma match_rule_ok : forall r s,
  match match_rule r s with
  | Some n => (exists x y, s = x ++ y /\ rule_text r x /\ n = length x) /\
      forall x y, s = x ++ y -> rule_text r x -> length x <= n
  | None => forall x y, s = x ++ y -> ~ rule_text r x
  end.
Proof.
  intros [t|r|a b] s; cbn [match_rule rule_text].
  - destruct (starts_with t s) eqn:Es.
    + apply starts_with_ok in Es as [y ->]. split; [exists t, y; auto|intros x y' _ ->; lia].
    + intros x y -> ->. assert (starts_with t (t ++ y) = true) by (apply starts_with_ok; eauto). congruence.
  - pose proof (longest_from_ok s r 0 None) as H. unfold longest. destruct (longest_from r s 0 None) as [n|].
    + destruct H as [[(x & y & -> & Hx & ->)|[H _]] H2]; [|discriminate]. split; [exists x, y; auto|].
      intros x' y' He Hx'. specialize (H2 x' y' He Hx'). cbn in *. lia.
    + apply H.
  - destruct (starts_with a s) eqn:Es.
    + apply starts_with_ok in Es as [s' ->]. rewrite skipn_app, skipn_all, Nat.sub_diag. cbn [app skipn].
      pose proof (find_ok b s') as H. destruct (find b s') as [i|].
      * destruct H as (x & y & -> & <- & Hmin).
        assert (Hfirst : first_at_end b x).
        { intros x' y' He. assert (Hl := Hmin x' (y' ++ y)). specialize (Hl). rewrite !app_assoc in Hl. rewrite He in Hl.
          specialize (Hl ltac:(rewrite !app_assoc; reflexivity)).
          apply (f_equal (@length _)) in He. rewrite !app_length in He. destruct y'; [reflexivity|cbn in He; lia]. }
        split.
        -- exists (a ++ x ++ b), y. rewrite !app_length. repeat split; [rewrite !app_assoc; reflexivity| |lia].
           exists x. auto.
        -- intros t y' He (body & -> & Hf). rewrite <- !app_assoc in He. apply app_inv_head in He.
           rewrite !app_length.
           destruct (Nat.le_gt_cases (length body) (length x)) as [Hle|Hgt]; [lia|exfalso].
           (* the close of x would be inside body ++ b *)
           assert (Hp : exists z, body ++ b = x ++ b ++ z /\ z <> []).
           { assert (Hs : exists z, body ++ b = (x ++ b) ++ z /\ z <> []).
             { exists (skipn (length (x ++ b)) (body ++ b)).
               assert (Hl : length (x ++ b) < length (body ++ b)) by (rewrite !app_length; lia).
               split.
               - rewrite <- (firstn_skipn (length (x ++ b)) (body ++ b)) at 1. f_equal.
                 assert (Hfx : firstn (length (x ++ b)) ((body ++ b) ++ y') = firstn (length (x ++ b)) ((x ++ b) ++ y)).
                 { rewrite <- !app_assoc. rewrite <- He. reflexivity. }
                 rewrite (firstn_app _ (body ++ b) y'), (firstn_app _ (x ++ b) y), firstn_all in Hfx.
                 replace (length (x ++ b) - length (body ++ b)) with 0 in Hfx by lia.
                 rewrite Nat.sub_diag in Hfx. cbn [firstn] in Hfx. rewrite !app_nil_r in Hfx. exact Hfx.
               - intro Hz. apply (f_equal (@length _)) in Hz. rewrite skipn_length in Hz. cbn in Hz. lia. }
             destruct Hs as (z & Hz & Hn). exists z. rewrite Hz, <- app_assoc. auto. }
           destruct Hp as (z & Hz & Hn). apply Hn. exact (Hf x z Hz).
      * intros t y He (body & -> & _). rewrite <- !app_assoc in He. apply app_inv_head in He. exact (H _ _ He).
    + intros t y -> (body & -> & _).
      assert (starts_with a ((a ++ body ++ b) ++ y) = true).
      { apply starts_with_ok. exists (body ++ b ++ y). rewrite <- !app_assoc. reflexivity. }
      congruence.
Qed.

Lemma best_ok : forall l s,
  match best l s with
  | Some (name, n) =>
      exists before r after, l = before ++ (name, r) :: after /\ match_rule r s = Some n /\
        (forall name' r' m, In (name', r') l -> match_rule r' s = Some m -> m <= n) /\
        (forall name' r' m, In (name', r') before -> match_rule r' s = Some m -> m < n)
  | None => forall name r, In (name, r) l -> match_rule r s = None
  end.
Proof.
  induction l as [|[name r] l IH]; intro s; cbn [best]; [intros name r []|]. specialize (IH s).
  destruct (match_rule r s) as [n|] eqn:Em; destruct (best l s) as [[name2 m]|]; cbn [better].
  - destruct IH as (before & r2 & after & -> & Hm & Hall & Hbefore). destruct (Nat.ltb n m) eqn:El.
    + apply Nat.ltb_lt in El. exists ((name, r) :: before), r2, after. repeat split; [exact Hm| |].
      * intros n' r' m' [H|H] Hr; [injection H as <- <-; assert (m' = n) by congruence; lia|exact (Hall _ _ _ H Hr)].
      * intros n' r' m' [H|H] Hr; [injection H as <- <-; assert (m' = n) by congruence; lia|exact (Hbefore _ _ _ H Hr)].
    + apply Nat.ltb_ge in El. exists [], r, (before ++ (name2, r2) :: after). repeat split; [exact Em| |intros ? ? ? []].
      intros n' r' m' [H|H] Hr; [injection H as <- <-; assert (m' = n) by congruence; lia|].
      specialize (Hall _ _ _ H Hr). lia.
  - exists [], r, l. repeat split; [exact Em| |intros ? ? ? []].
    intros n' r' m' [H|H] Hr; [injection H as <- <-; assert (m' = n) by congruence; lia|].
    rewrite (IH _ _ H) in Hr. discriminate.
  - destruct IH as (before & r2 & after & -> & Hm & Hall & Hbefore).
    exists ((name, r) :: before), r2, after. repeat split; [exact Hm| |].
    + intros n' r' m' [H|H] Hr; [injection H as <- <-; congruence|exact (Hall _ _ _ H Hr)].
    + intros n' r' m' [H|H] Hr; [injection H as <- <-; congruence|exact (Hbefore _ _ _ H Hr)].
  - intros n' r' [H|H]; [injection H as <- <-; exact Em|exact (IH _ _ H)].
Qed.

(** No rule matches the empty text. *)
Definition never_empty (r : rule) : bool :=
  match r with Lit t => negb (Nat.eqb (length t) 0) | Re e => negb (nullable e) | Between a _ => negb (Nat.eqb (length a) 0) end.
Lemma never_empty_ok : forall r, never_empty r = true -> ~ rule_text r [].
Proof.
  intros [t|e|a b]; cbn [never_empty rule_text]; intros H Ht.
  - subst t. discriminate.
  - apply nullable_ok in Ht. rewrite Ht in H. discriminate.
  - destruct Ht as (body & Ht & _). symmetry in Ht. apply app_eq_nil in Ht as [-> _]. discriminate.
Qed.
Lemma rules_never_empty : forall name r, In (name, r) rules -> ~ rule_text r [].
Proof.
  assert (H : forallb (fun p => never_empty (snd p)) rules = true) by (vm_compute; reflexivity).
  intros name r Hin. apply never_empty_ok. rewrite forallb_forall in H. exact (H _ Hin).
Qed.

Lemma best_next : forall s name n, best rules s = Some (name, n) -> n <> 0 /\ next_token s name (firstn n s) /\ n <= length s.
Proof.
  intros s name n H. pose proof (best_ok rules s) as Hb. rewrite H in Hb.
  destruct Hb as (before & r & after & Hl & Hm & Hall & Hbefore).
  pose proof (match_rule_ok r s) as Hr. rewrite Hm in Hr. destruct Hr as [(x & y & -> & Hx & ->) Hmax].
  assert (Hin : In (name, r) rules) by (rewrite Hl; apply in_or_app; right; left; reflexivity).
  assert (Hne : x <> []) by (intros ->; exact (rules_never_empty _ _ Hin Hx)).
  assert (Hfx : firstn (length x) (x ++ y) = x) by (rewrite firstn_app, firstn_all, Nat.sub_diag; cbn; apply app_nil_r).
  rewrite Hfx. rewrite app_length. repeat split; [destruct x; [contradiction|discriminate]| |lia].
  exists before, r, after, y. repeat split; auto.
  - intros n' r' t' rest' Hin' He Ht'. pose proof (match_rule_ok r' (x ++ y)) as Hr'.
    destruct (match_rule r' (x ++ y)) as [m|] eqn:Em; [|destruct (Hr' _ _ He Ht')].
    destruct Hr' as [_ Hmax']. specialize (Hmax' _ _ He Ht'). specialize (Hall _ _ _ Hin' Em). lia.
  - intros n' r' t' rest' Hin' He Ht'. pose proof (match_rule_ok r' (x ++ y)) as Hr'.
    destruct (match_rule r' (x ++ y)) as [m|] eqn:Em; [|destruct (Hr' _ _ He Ht')].
    destruct Hr' as [_ Hmax']. specialize (Hmax' _ _ He Ht'). specialize (Hbefore _ _ _ Hin' Em). lia.
Qed.
Lemma in_split_order : forall {A} (l1 l2 l3 l4 : list A) a b, l1 ++ a :: l2 = l3 ++ b :: l4 -> (l1 = l3 /\ a = b) \/ In a l3 \/ In b l1.
Proof.
  intros A l1. induction l1 as [|x l1 IH]; intros l2 [|y l3] l4 a b H; cbn in H.
  - injection H as -> _. auto.
  - injection H as -> _. right. left. left. reflexivity.
  - injection H as -> _. right. right. left. reflexivity.
  - injection H as -> H. destruct (IH _ _ _ _ _ H) as [[-> ->]|[H1|H1]]; [auto|right; left; right; exact H1|right; right; right; exact H1].
Qed.
Lemma next_best : forall s name t, next_token s name t -> best rules s = Some (name, length t).
Proof.
  intros s name t (before & r & after & rest & Hl & -> & Hne & Ht & Hall & Hbefore).
  assert (Hin : In (name, r) rules) by (rewrite Hl; apply in_or_app; right; left; reflexivity).
  destruct (best rules (t ++ rest)) as [[name' n]|] eqn:Eb.
  - pose proof (best_ok rules (t ++ rest)) as Hb. rewrite Eb in Hb.
    destruct Hb as (before' & r' & after' & Hl' & Hm & Hall' & Hbefore').
    pose proof (match_rule_ok r' (t ++ rest)) as Hr. rewrite Hm in Hr. destruct Hr as [(x & y & He & Hx & ->) _].
    assert (Hin' : In (name', r') rules) by (rewrite Hl'; apply in_or_app; right; left; reflexivity).
    pose proof (Hall _ _ _ _ Hin' He Hx) as H1.
    pose proof (match_rule_ok r (t ++ rest)) as Hr2.
    destruct (match_rule r (t ++ rest)) as [m|] eqn:Em; [|destruct (Hr2 _ _ eq_refl Ht)].
    destruct Hr2 as [_ Hmax]. specialize (Hmax _ _ eq_refl Ht).
    pose proof (Hall' _ _ _ Hin Em) as H2.
    assert (Hlen : length x = length t) by lia. f_equal.
    assert (Hsplit := Hl). rewrite Hl' in Hsplit.
    destruct (in_split_order _ _ _ _ _ _ Hsplit) as [[_ Heq]|[H3|H3]].
    + injection Heq as -> ->. congruence.
    + specialize (Hbefore _ _ _ _ H3 He Hx). lia.
    + specialize (Hbefore' _ _ _ H3 Em). lia.
  - pose proof (best_ok rules (t ++ rest)) as Hb. rewrite Eb in Hb. specialize (Hb _ _ Hin).
    pose proof (match_rule_ok r (t ++ rest)) as Hr. rewrite Hb in Hr. destruct (Hr _ _ eq_refl Ht).
Qed.
