(** The parser reads every proper expression, and nothing else. *)

Require Import ZArith String Ascii List Bool Lia.
Require Import ZifyBool ZifyNat.
From Verif Require Literals.
From Verif Require Import Visitor Parser ParserSpec.
Import ListNotations.
Open Scope nat_scope.
Open Scope string_scope.
Open Scope list_scope.

(** More fuel gives the same result. *)
Lemma bind_some {A B} (o : option A) (f : A -> option B) x : bind o f = Some x -> exists y, o = Some y /\ f y = Some x.
Proof. destruct o as [y|]; cbn; [eauto | discriminate]. Qed.

Definition more (f : nat) : Prop :=
  (forall g i p ts x, f <= g -> expression f i p ts = Some x -> expression g i p ts = Some x) /\
  (forall g i ts x, f <= g -> primary f i ts = Some x -> primary g i ts = Some x) /\
  (forall g i p e ts x, f <= g -> suffixes f i p e ts = Some x -> suffixes g i p e ts = Some x).

Ltac step_bind H :=
  let y := fresh "y" in let E := fresh "E" in
  apply bind_some in H; destruct H as (y & E & H); try (destruct y as [? ?]).

Lemma more_fuel : forall f, more f.
Proof.
  induction f as [|f (IHe & IHp & IHs)]; (split; [|split]); intros g i.
  - intros p ts x Hg H. discriminate H.
  - intros ts x Hg H. discriminate H.
  - intros p e ts x Hg H. discriminate H.
  - intros p ts x Hg H. destruct g as [|g]; [lia|]. cbn [expression] in *.
    step_bind H. rewrite (IHp g i ts _ ltac:(lia) E). cbn [bind]. apply IHs; [lia | exact H].
  - intros ts x Hg H. destruct g as [|g]; [lia|]. cbn [primary] in *.
    destruct ts as [|[n t] r]; [discriminate|].
    destruct (String.eqb n "LPAREN").
    { step_bind H. rewrite (IHe g _ _ _ _ ltac:(lia) E). exact H. }
    destruct (String.eqb n "ISSET").
    { step_bind H. rewrite E. cbn [bind]. step_bind H. rewrite (IHe g _ _ _ _ ltac:(lia) E0). cbn [bind].
      step_bind H. rewrite E1. cbn [bind]. step_bind H. rewrite (IHe g _ _ _ _ ltac:(lia) E2). exact H. }
    destruct (lookup n builtins) as [make|].
    { step_bind H. rewrite E. cbn [bind]. step_bind H. rewrite (IHe g _ _ _ _ ltac:(lia) E0). exact H. }
    destruct (lookup n unops) as [op|].
    { step_bind H. rewrite (IHe g _ _ _ _ ltac:(lia) E). exact H. }
    exact H.
  - intros p e ts x Hg H. destruct g as [|g]; [lia|]. cbn [suffixes] in *.
    destruct (operator i ts) as [[[op q] r]|].
    { destruct (Nat.leb p q); [|exact H]. step_bind H. rewrite (IHe g _ _ _ _ ltac:(lia) E). cbn [bind].
      apply IHs; [lia | exact H]. }
    destruct (next_is "QUESTIONMARK" ts && Nat.leb p 4).
    { step_bind H. rewrite (IHe g _ _ _ _ ltac:(lia) E). cbn [bind]. step_bind H. rewrite E0. cbn [bind].
      step_bind H. rewrite (IHe g _ _ _ _ ltac:(lia) E1). cbn [bind]. apply IHs; [lia | exact H]. }
    destruct (next_is "LPAREN" ts && next_is "RPAREN" (tl ts) && Nat.leb p 22).
    { apply IHs; [lia | exact H]. }
    destruct (next_is "LBRACKET" ts && Nat.leb p 21).
    { step_bind H. rewrite (IHe g _ _ _ _ ltac:(lia) E). cbn [bind]. step_bind H. rewrite E0. cbn [bind].
      apply IHs; [lia | exact H]. }
    destruct (next_is "DOT" ts && next_is "ID" (tl ts) && Nat.leb p 20).
    { destruct (tl ts) as [|[m name] r]; [discriminate|]. apply IHs; [lia | exact H]. }
    exact H.
Qed.

Lemma more_expression f g i p ts x : f <= g -> expression f i p ts = Some x -> expression g i p ts = Some x.
Proof. apply (more_fuel f). Qed.
Lemma more_suffixes f g i p e ts x : f <= g -> suffixes f i p e ts = Some x -> suffixes g i p e ts = Some x.
Proof. apply (more_fuel f). Qed.

(** The numbers of the code for the levels of the specification. *)
Definition prec (o : bop) : nat := op_level o + 3.
Definition plevel (e : cexpr) : nat :=
  match e with CTernary _ _ _ => 4 | CBinary o _ _ => prec o | CUnary _ _ => 15 | CCall _ | CArray _ _ | CDot _ _ => 20 | _ => 23 end.
(** The lowest number at which the parser is still waiting at the right end. *)
Definition rlevel (e : cexpr) : nat :=
  match e with CTernary _ _ _ => 4 | CBinary o _ _ => S (prec o) | CUnary _ _ => 15 | _ => 23 end.

Lemma prec_range o : 5 <= prec o <= 14.
Proof. destruct o; cbn; lia. Qed.
Lemma level_plevel e n : 2 <= n <= 11 -> (n <= level e <-> n + 3 <= plevel e).
Proof. intros Hn. destruct e; cbn [level plevel]; unfold prec; try (destruct op; cbn); lia. Qed.
Lemma level_12 e : 12 <= level e <-> 15 <= plevel e.
Proof. destruct e; cbn [level plevel]; unfold prec; try (destruct op; cbn); lia. Qed.
Lemma level_13 e : 13 <= level e <-> 20 <= plevel e.
Proof. destruct e; cbn [level plevel]; unfold prec; try (destruct op; cbn); lia. Qed.
Lemma level_op o e : op_level o <= level e <-> prec o <= plevel e.
Proof. unfold prec. rewrite <- level_plevel; [reflexivity | destruct o; cbn; lia]. Qed.
Lemma level_op_lt o e : op_level o < level e <-> S (prec o) <= plevel e.
Proof. destruct e; cbn [level plevel]; unfold prec; try (destruct op; cbn); destruct o; cbn; lia. Qed.
Lemma level_cond e : 1 < level e <-> 5 <= plevel e.
Proof. destruct e; cbn [level plevel]; unfold prec; try (destruct op; cbn); lia. Qed.
Lemma plevel_min e : 4 <= plevel e.
Proof. destruct e; cbn [plevel]; try pose proof (prec_range op); lia. Qed.

(** The loop takes no further step. *)
Definition stops (i : bool) (p : nat) (ts : list ptok) : bool :=
  match operator i ts with
  | Some (_, q, _) => Nat.ltb q p
  | None => negb (next_is "QUESTIONMARK" ts && Nat.leb p 4) && negb (next_is "LPAREN" ts && next_is "RPAREN" (tl ts) && Nat.leb p 22)
            && negb (next_is "LBRACKET" ts && Nat.leb p 21) && negb (next_is "DOT" ts && next_is "ID" (tl ts) && Nat.leb p 20)
  end.
Lemma stops_suffixes f i p e ts : stops i p ts = true -> suffixes (S f) i p e ts = Some (e, ts).
Proof.
  unfold stops. cbn [suffixes]. destruct (operator i ts) as [[[op q] r]|].
  - intros H. replace (Nat.leb p q) with false by lia. reflexivity.
  - rewrite !andb_true_iff, !negb_true_iff. intros [[[-> ->] ->] ->]. reflexivity.
Qed.
Lemma stops_mono i p q ts : p <= q -> stops i p ts = true -> stops i q ts = true.
Proof.
  unfold stops. intros Hp. destruct (operator i ts) as [[[op k] r]|]; [lia|].
  rewrite !andb_true_iff, !negb_true_iff, !andb_false_iff. intros [[[H1 H2] H3] H4].
  repeat split; [clear - Hp H1 | clear - Hp H2 | clear - Hp H3 | clear - Hp H4]; lia.
Qed.

(** A token sequence that does not make a name before it look like that of a field. *)
Definition calm (ts : list ptok) : Prop :=
  one_of_names after_name ts = false /\ (next_is "LBRACKET" ts = true -> one_of_names after_name (skip_brackets 0 ts) = false).

Lemma skip_app : forall e d r, skip_brackets (S d) (expr_tokens e ++ r) = skip_brackets (S d) r.
Proof.
  induction e; intros d r; cbn [expr_tokens]; repeat (rewrite <- app_assoc; cbn [app]); cbn [app].
  - cbn. repeat rewrite <- app_assoc. rewrite IHe. reflexivity.
  - rewrite IHe. reflexivity.
  - rewrite IHe1. cbn. repeat rewrite <- app_assoc. rewrite IHe2. reflexivity.
  - rewrite IHe. reflexivity.
  - cbn. repeat rewrite <- app_assoc. rewrite IHe1. cbn. repeat rewrite <- app_assoc. rewrite IHe2. reflexivity.
  - cbn. repeat rewrite <- app_assoc. rewrite IHe. reflexivity.
  - cbn. repeat rewrite <- app_assoc. rewrite IHe. reflexivity.
  - cbn. repeat rewrite <- app_assoc. rewrite IHe. reflexivity.
  - destruct op; cbn; apply IHe.
  - rewrite IHe1. destruct op; cbn; apply IHe2.
  - rewrite IHe1. cbn. repeat rewrite <- app_assoc. rewrite IHe2. cbn. apply IHe3.
  - destruct k; reflexivity.
  - reflexivity.
  - reflexivity.
Qed.

Lemma calm_array e r : one_of_names after_name r = false -> calm (("LBRACKET", "[") :: expr_tokens e ++ ("RBRACKET", "]") :: r).
Proof. intros H. split; [reflexivity|]. intros _. cbn. rewrite skip_app. exact H. Qed.

(** What follows the name an expression begins with. *)
Lemma calm_after : forall e rest, calm rest -> closes (expr_tokens e ++ rest) = false.
Proof.
  assert (P : forall e rest, calm rest -> forall t r, expr_tokens e ++ rest = ("ID", t) :: r -> calm r).
  { induction e; intros rest C t0 r E; cbn [expr_tokens] in E; rewrite <- ?app_assoc in E; cbn [app] in E; try discriminate E.
    - eapply IHe; [|exact E]. split; [reflexivity | discriminate].
    - rewrite <- ?app_assoc in E. eapply IHe1; [|exact E]. apply calm_array. apply C.
    - eapply IHe; [|exact E]. split; [reflexivity | discriminate].
    - destruct op; discriminate E.
    - eapply IHe1; [|exact E]. destruct op; (split; [reflexivity | discriminate]).
    - eapply IHe1; [|exact E]. split; [reflexivity | discriminate].
    - destruct k; discriminate E.
    - injection E as _ <-. exact C. }
  intros e rest C. unfold closes. destruct (expr_tokens e ++ rest) as [|[n t] r] eqn:E; [reflexivity|].
  destruct (String.eqb_spec n "ID") as [->|]; [|reflexivity].
  destruct (P e rest C t r E) as [C1 C2]. rewrite C1. cbn.
  destruct (next_is "LBRACKET" r); [apply C2; reflexivity | reflexivity].
Qed.

Lemma no_gt e r : next_is "GT" (expr_tokens e ++ r) = false.
Proof.
  revert r. induction e; intros r; cbn [expr_tokens]; rewrite <- ?app_assoc; cbn [app]; try reflexivity; try apply IHe; try apply IHe1.
  - destruct op; reflexivity.
  - destruct k; reflexivity.
Qed.

(** Reading the tokens of an expression. *)
Fixpoint cost (e : cexpr) : nat :=
  match e with
  | CParen a | CLengthof a | CValueof a | CNumbits a | CUnary _ a => cost a + 3
  | CIsSet a b => cost a + cost b + 3
  | CCall a | CDot a _ => cost a + 1
  | CArray a b => cost a + cost b + 2
  | CBinary _ a b => cost a + cost b + 2
  | CTernary c a b => cost c + cost a + cost b + 2
  | CLiteral _ _ | CIndex | CId _ => 2
  end.
Lemma cost_length e : cost e <= 3 * length (expr_tokens e).
Proof.
  induction e; cbn [cost expr_tokens length]; rewrite ?app_length; cbn [length]; rewrite ?app_length; cbn [length];
    rewrite ?app_length; cbn [length]; try lia.
  destruct op; cbn [bop_tokens length]; lia.
Qed.

Lemma operator_bop i o e r : (i = true -> calm r) -> operator i (bop_tokens o ++ expr_tokens e ++ r) = Some (o, prec o, expr_tokens e ++ r).
Proof.
  intros C. destruct o; try (destruct i; reflexivity).
  cbn [bop_tokens app operator]. rewrite no_gt. destruct i.
  - rewrite calm_after by (apply C; reflexivity). reflexivity.
  - reflexivity.
Qed.

Definition reads (e : cexpr) : Prop := forall i p rest f x, p <= plevel e -> p <= 15 ->
  stops i (rlevel e) rest = true -> (i = true -> calm rest) ->
  suffixes f i p e rest = Some x -> expression (cost e + f) i p (expr_tokens e ++ rest) = Some x.

(** in parentheses and brackets *)
Lemma reads_inner g e n t rest : reads e -> In n ["RPAREN"; "COMMA"; "RBRACKET"; "COLON"] -> cost e + 1 <= g ->
  expression g false 0 (expr_tokens e ++ (n, t) :: rest) = Some (e, (n, t) :: rest).
Proof.
  intros R Hn Hg. apply (more_expression _ _ _ _ _ _ Hg). apply R; [lia | lia | | discriminate | apply stops_suffixes];
    cbn in Hn; decompose [or] Hn; subst; try contradiction; reflexivity.
Qed.
(** what the loop reads on its own *)
Lemma rlevel_plevel e p : p <= plevel e -> p <= 15 -> p <= rlevel e.
Proof. destruct e; cbn [plevel rlevel]; lia. Qed.
Lemma reads_to g e i p rest : reads e -> p <= plevel e -> p <= 15 -> stops i p rest = true -> (i = true -> calm rest) -> cost e + 1 <= g ->
  expression g i p (expr_tokens e ++ rest) = Some (e, rest).
Proof.
  intros R Hp Hq S C Hg. pose proof (rlevel_plevel e p Hp Hq) as Hr. apply (more_expression _ _ _ _ _ _ Hg). apply R; [exact Hp | exact Hq | eapply stops_mono; [|exact S]; exact Hr | exact C | apply stops_suffixes; exact S].
Qed.

Lemma primary_first f i p ts e r x : primary f i ts = Some (e, r) -> suffixes f i p e r = Some x -> expression (S f) i p ts = Some x.
Proof. intros H K. cbn [expression]. rewrite H. exact K. Qed.

Lemma reads_all : forall e, proper e -> reads e.
Proof.
  induction e; intros P i p rest f x Hp Hq S C K; cbn [cost proper] in *.
  - (* CParen *)
    replace (cost e + 3 + f) with (Datatypes.S (cost e + 2 + f)) by lia.
    eapply primary_first; [|eapply more_suffixes; [|exact K]; lia].
    replace (cost e + 2 + f) with (Datatypes.S (cost e + 1 + f)) by lia. cbn [expr_tokens app primary String.eqb Ascii.eqb Bool.eqb LP].
    rewrite <- app_assoc. cbn [app].
    rewrite (reads_inner _ e "RPAREN" ")" rest (IHe P)) by (cbn; (tauto || lia)). reflexivity.
  - (* CCall *)
    destruct P as [P L]. cbn [expr_tokens]. rewrite <- app_assoc. cbn [app].
    replace (cost e + 1 + f) with (cost e + Datatypes.S f) by lia. apply (IHe P).
    + apply level_13 in L. cbn [plevel] in Hp. lia.
    + exact Hq.
    + destruct e; cbn in L; try lia; try reflexivity; destruct op; cbn in L; lia.
    + intros _. split; [reflexivity | discriminate].
    + cbn [suffixes]. unfold LP, RP. cbn [operator next_is tl]. destruct i; cbn; (replace (Nat.leb p 22) with true by lia); exact K.
  - (* CArray *)
    destruct P as (P1 & L & P2). cbn [expr_tokens]. rewrite <- app_assoc. cbn [app].
    replace (cost e1 + cost e2 + 2 + f) with (cost e1 + Datatypes.S (cost e2 + 1 + f)) by lia. rewrite <- app_assoc. cbn [app]. apply (IHe1 P1).
    + apply level_13 in L. cbn [plevel] in Hp. lia.
    + exact Hq.
    + destruct e1; cbn in L; try lia; try reflexivity; destruct op; cbn in L; lia.
    + intros Ei. apply calm_array. apply (C Ei).
    + cbn [suffixes]. cbn [operator next_is tl].
      replace (String.eqb "LBRACKET" "GT") with false by reflexivity. cbn [andb lookup].
      replace (lookup "LBRACKET" binops) with (@None (bop * nat)) by reflexivity.
      replace (String.eqb "LBRACKET" "QUESTIONMARK") with false by reflexivity.
      replace (String.eqb "LBRACKET" "LPAREN") with false by reflexivity.
      replace (String.eqb "LBRACKET" "LBRACKET") with true by reflexivity. cbn [andb].
      replace (Nat.leb p 21) with true by lia.
      rewrite (reads_inner _ e2 "RBRACKET" "]" rest (IHe2 P2)) by (cbn; (tauto || lia)).
      cbn [bind expect]. replace (String.eqb "RBRACKET" "RBRACKET") with true by reflexivity.
      cbn [bind]. eapply more_suffixes; [|exact K]. lia.
  - (* CDot *)
    destruct P as [P L]. cbn [expr_tokens]. rewrite <- app_assoc. cbn [app].
    replace (cost e + 1 + f) with (cost e + Datatypes.S f) by lia. apply (IHe P).
    + apply level_13 in L. cbn [plevel] in Hp. lia.
    + exact Hq.
    + destruct e; cbn in L; try lia; try reflexivity; destruct op; cbn in L; lia.
    + intros _. split; [reflexivity | discriminate].
    + cbn [suffixes]. cbn [operator next_is tl]. destruct i; cbn; (replace (Nat.leb p 20) with true by lia); exact K.
  - (* CIsSet *)
    destruct P as [P1 P2].
    replace (cost e1 + cost e2 + 3 + f) with (Datatypes.S (cost e1 + cost e2 + 2 + f)) by lia.
    eapply primary_first; [|eapply more_suffixes; [|exact K]; lia].
    replace (cost e1 + cost e2 + 2 + f) with (Datatypes.S (cost e1 + cost e2 + 1 + f)) by lia.
    cbn [expr_tokens app primary String.eqb Ascii.eqb Bool.eqb LP expect bind].
    rewrite <- app_assoc. cbn [app]. rewrite <- app_assoc. cbn [app].
    rewrite (reads_inner _ e1 "COMMA" "," (expr_tokens e2 ++ RP :: rest) (IHe1 P1)) by (cbn; (tauto || lia)).
    cbn [bind expect String.eqb Ascii.eqb Bool.eqb].
    rewrite (reads_inner _ e2 "RPAREN" ")" rest (IHe2 P2)) by (cbn; (tauto || lia)). reflexivity.
  - replace (cost e + 3 + f) with (Datatypes.S (cost e + 2 + f)) by lia.
    eapply primary_first; [|eapply more_suffixes; [|exact K]; lia].
    replace (cost e + 2 + f) with (Datatypes.S (cost e + 1 + f)) by lia.
    cbn [expr_tokens app primary String.eqb Ascii.eqb Bool.eqb LP lookup builtins expect bind].
    rewrite <- app_assoc. cbn [app].
    rewrite (reads_inner _ e "RPAREN" ")" rest (IHe P)) by (cbn; (tauto || lia)). reflexivity.
  - replace (cost e + 3 + f) with (Datatypes.S (cost e + 2 + f)) by lia.
    eapply primary_first; [|eapply more_suffixes; [|exact K]; lia].
    replace (cost e + 2 + f) with (Datatypes.S (cost e + 1 + f)) by lia.
    cbn [expr_tokens app primary String.eqb Ascii.eqb Bool.eqb LP lookup builtins expect bind].
    rewrite <- app_assoc. cbn [app].
    rewrite (reads_inner _ e "RPAREN" ")" rest (IHe P)) by (cbn; (tauto || lia)). reflexivity.
  - replace (cost e + 3 + f) with (Datatypes.S (cost e + 2 + f)) by lia.
    eapply primary_first; [|eapply more_suffixes; [|exact K]; lia].
    replace (cost e + 2 + f) with (Datatypes.S (cost e + 1 + f)) by lia.
    cbn [expr_tokens app primary String.eqb Ascii.eqb Bool.eqb LP lookup builtins expect bind].
    rewrite <- app_assoc. cbn [app].
    rewrite (reads_inner _ e "RPAREN" ")" rest (IHe P)) by (cbn; (tauto || lia)). reflexivity.
  - (* CUnary *)
    destruct P as [P L]. apply level_12 in L. cbn [rlevel] in S.
    replace (cost e + 3 + f) with (Datatypes.S (cost e + 2 + f)) by lia.
    eapply primary_first; [|eapply more_suffixes; [|exact K]; lia].
    replace (cost e + 2 + f) with (Datatypes.S (cost e + 1 + f)) by lia.
    pose proof (reads_to (cost e + 1 + f) e i 15 rest (IHe P) L (le_n _) S C ltac:(lia)) as R.
    destruct op; cbn [expr_tokens uop_token app primary String.eqb Ascii.eqb Bool.eqb lookup builtins unops]; rewrite R; reflexivity.
  - (* CBinary *)
    destruct P as (P1 & L1 & P2 & L2). apply level_op in L1. apply level_op_lt in L2. cbn [rlevel] in S. cbn [plevel] in Hp.
    pose proof (prec_range op) as Ho.
    cbn [expr_tokens]. rewrite <- !app_assoc.
    replace (cost e1 + cost e2 + 2 + f) with (cost e1 + Datatypes.S (cost e2 + 1 + f)) by lia. apply (IHe1 P1).
    + lia.
    + exact Hq.
    + unfold stops. rewrite operator_bop by exact C. apply Nat.ltb_lt.
      destruct e1; cbn [plevel rlevel] in *; lia.
    + intros _. destruct op; (split; [reflexivity | discriminate]).
    + cbn [suffixes]. rewrite operator_bop by exact C. replace (Nat.leb p (prec op)) with true by lia.
      rewrite (reads_to _ e2 i (Datatypes.S (prec op)) rest (IHe2 P2) L2 ltac:(lia) S C) by lia.
      cbn [bind]. eapply more_suffixes; [|exact K]. lia.
  - (* CTernary *)
    destruct P as (P1 & L1 & P2 & P3). apply level_cond in L1. cbn [rlevel] in S. cbn [plevel] in Hp.
    cbn [expr_tokens]. rewrite <- app_assoc. cbn [app]. rewrite <- app_assoc. cbn [app].
    replace (cost e1 + cost e2 + cost e3 + 2 + f) with (cost e1 + Datatypes.S (cost e2 + cost e3 + 1 + f)) by lia. apply (IHe1 P1).
    + lia.
    + exact Hq.
    + unfold stops. cbn [operator next_is tl]. 
      assert (R : 5 <= rlevel e1) by (destruct e1; cbn [plevel rlevel] in *; lia).
      destruct i; cbn; (replace (Nat.leb (rlevel e1) 4) with false by lia); reflexivity.
    + intros _. split; [reflexivity | discriminate].
    + cbn [suffixes operator next_is tl].
      replace (String.eqb "QUESTIONMARK" "GT") with false by reflexivity. cbn [andb].
      replace (lookup "QUESTIONMARK" binops) with (@None (bop * nat)) by reflexivity.
      replace (String.eqb "QUESTIONMARK" "QUESTIONMARK") with true by reflexivity. cbn [andb].
      replace (Nat.leb p 4) with true by lia.
      rewrite (reads_inner _ e2 "COLON" ":" (expr_tokens e3 ++ rest) (IHe2 P2)) by (cbn; (tauto || lia)).
      cbn [bind expect]. replace (String.eqb "COLON" "COLON") with true by reflexivity. cbn [bind].
      rewrite (reads_to _ e3 i 4 rest (IHe3 P3) (plevel_min _) ltac:(lia) S C) by lia.
      cbn [bind]. eapply more_suffixes; [|exact K]. lia.
  - replace (2 + f) with (Datatypes.S (Datatypes.S f)) by lia.
    eapply primary_first; [|eapply more_suffixes; [|exact K]; lia]. destruct k; reflexivity.
  - replace (2 + f) with (Datatypes.S (Datatypes.S f)) by lia.
    eapply primary_first; [|eapply more_suffixes; [|exact K]; lia]. reflexivity.
  - replace (2 + f) with (Datatypes.S (Datatypes.S f)) by lia.
    eapply primary_first; [|eapply more_suffixes; [|exact K]; lia]. reflexivity.
Qed.

(** ** Nothing else is read. *)
Lemma lexed_tail a ts : well_lexed (a :: ts) -> well_lexed ts.
Proof. intros W n t w H. apply W. right. exact H. Qed.
Lemma lexed_app a ts : well_lexed (a ++ ts) -> well_lexed ts.
Proof. intros W n t w H. apply W. apply in_or_app. right. exact H. Qed.
Lemma lexed_head n t ts w : well_lexed ((n, t) :: ts) -> In (n, w) fixed_texts -> t = w.
Proof. intros W. apply W. left. reflexivity. Qed.
Ltac fixed_text := cbn; repeat (first [left; reflexivity | right]).

Lemma expect_some n w ts r : In (n, w) fixed_texts -> well_lexed ts -> expect n ts = Some r -> ts = (n, w) :: r.
Proof.
  intros Hn W H. destruct ts as [|[m t] r']; [discriminate|]. cbn in H.
  destruct (String.eqb_spec m n) as [->|]; [|discriminate]. injection H as ->.
  rewrite (lexed_head _ _ _ w W Hn). reflexivity.
Qed.
Lemma next_some n w ts : In (n, w) fixed_texts -> well_lexed ts -> next_is n ts = true -> ts = (n, w) :: tl ts.
Proof.
  intros Hn W H. destruct ts as [|[m t] r']; [discriminate|]. cbn in H.
  destruct (String.eqb_spec m n) as [->|]; [|discriminate].
  rewrite (lexed_head _ _ _ w W Hn). reflexivity.
Qed.

Lemma lookup_in {A} n (l : list (string * A)) x : lookup n l = Some x -> In (n, x) l.
Proof.
  induction l as [|[m y] l IH]; [discriminate|]. cbn. destruct (String.eqb_spec n m) as [->|].
  - intros E. injection E as ->. left. reflexivity.
  - intros E. right. apply IH, E.
Qed.

Lemma operator_some i ts op q r : well_lexed ts -> operator i ts = Some (op, q, r) -> ts = bop_tokens op ++ r /\ q = prec op.
Proof.
  intros W H. destruct ts as [|[n t] r']; [discriminate|]. cbn [operator] in H.
  destruct (String.eqb n "GT" && i && closes r'); [discriminate|].
  destruct (String.eqb n "GT" && next_is "GT" r') eqn:E.
  { apply andb_true_iff in E. destruct E as [En Eg]. apply String.eqb_eq in En. subst n.
    injection H as <- <- <-. rewrite (next_some "GT" ">" r' ltac:(fixed_text) (lexed_tail _ _ W) Eg) at 1.
    rewrite (lexed_head _ _ _ ">" W ltac:(fixed_text)). split; reflexivity. }
  destruct (lookup n binops) as [[o k]|] eqn:L; [|discriminate]. injection H as <- <- <-.
  apply lookup_in in L. cbn in L. decompose [or] L; try contradiction;
    match goal with H : (_, _) = (_, _) |- _ => injection H as <- <- <- end;
    (split; [cbn [bop_tokens app]; f_equal; f_equal; apply (lexed_head _ _ _ _ W); fixed_text | reflexivity]).
Qed.

Lemma stops_23 i p ts : 23 <= p -> stops i p ts = true.
Proof.
  intros Hp. unfold stops. destruct (operator i ts) as [[[op q] r]|] eqn:E.
  - destruct ts as [|[n t] r']; [discriminate|]. cbn [operator] in E.
    destruct (String.eqb n "GT" && i && closes r'); [discriminate|].
    destruct (String.eqb n "GT" && next_is "GT" r'); [injection E as <- <- <-; lia|].
    destruct (lookup n binops) as [[o k]|] eqn:L; [|discriminate]. injection E as <- <- <-.
    apply lookup_in in L. cbn in L. decompose [or] L; try contradiction;
      match goal with H : (_, _) = (_, _) |- _ => injection H as <- <- <- end; lia.
  - replace (Nat.leb p 4) with false by lia. replace (Nat.leb p 22) with false by lia.
    replace (Nat.leb p 21) with false by lia. replace (Nat.leb p 20) with false by lia.
    rewrite !andb_false_r. reflexivity.
Qed.

Definition sound (f : nat) : Prop :=
  (forall i p ts e r, well_lexed ts -> p <= 15 -> expression f i p ts = Some (e, r) ->
     ts = expr_tokens e ++ r /\ proper e /\ p <= plevel e /\ stops i p r = true) /\
  (forall i ts e r, well_lexed ts -> primary f i ts = Some (e, r) ->
     ts = expr_tokens e ++ r /\ proper e /\ 15 <= plevel e /\ stops i (rlevel e) r = true) /\
  (forall i p e ts e' r, well_lexed ts -> p <= 15 -> proper e -> p <= plevel e -> stops i (rlevel e) ts = true ->
     suffixes f i p e ts = Some (e', r) ->
     expr_tokens e ++ ts = expr_tokens e' ++ r /\ proper e' /\ p <= plevel e' /\ stops i p r = true).

Ltac read IHe W E P L S := lazymatch type of E with expression _ ?i ?p ?ts = Some (?e, ?r) =>
  let Hp := fresh in assert (Hp : p <= 15) by lia; destruct (IHe i p ts e r W Hp E) as (-> & P & L & S); clear Hp end.
Lemma all_sound : forall f, sound f.
Proof.
  induction f as [|f (IHe & IHp & IHs)]; (split; [|split]).
  - intros i p ts e r W Hp H. discriminate H.
  - intros i ts e r W H. discriminate H.
  - intros i p e ts e' r W Hp Pe Hl S H. discriminate H.
  - intros i p ts e r W Hp H. cbn [expression] in H. step_bind H.
    destruct (IHp _ _ _ _ W E) as (-> & P1 & L1 & S1).
    apply IHs in H; [exact H | eapply lexed_app; exact W | exact Hp | exact P1 | lia | exact S1].
  - intros i ts e r W H. cbn [primary] in H. destruct ts as [|[n t] ts]; [discriminate|].
    destruct (String.eqb_spec n "LPAREN") as [->|].
    { step_bind H. read IHe (lexed_tail _ _ W) E P1 L1 S1.
      step_bind H. apply (expect_some _ ")") in E0; [|fixed_text | eapply lexed_app, lexed_tail; exact W]. subst. injection H as <- <-.
      rewrite (lexed_head _ _ _ "(" W ltac:(fixed_text)).
      cbn [expr_tokens app proper plevel rlevel]. rewrite <- app_assoc.
      repeat split; [exact P1 | lia | apply stops_23; lia]. }
    destruct (String.eqb_spec n "ISSET") as [->|].
    { pose proof (lexed_tail _ _ W) as W1.
      step_bind H. apply (expect_some _ "(") in E; [|fixed_text | exact W1]. subst ts. apply lexed_tail in W1.
      step_bind H. read IHe W1 E P1 L1 S1. apply lexed_app in W1.
      step_bind H. apply (expect_some _ ",") in E0; [|fixed_text | exact W1]. subst. apply lexed_tail in W1.
      step_bind H. read IHe W1 E0 P2 L2 S2. apply lexed_app in W1.
      step_bind H. apply (expect_some _ ")") in E1; [|fixed_text | exact W1]. subst. injection H as <- <-.
      rewrite (lexed_head _ _ _ "isset" W ltac:(fixed_text)).
      cbn [expr_tokens app proper plevel rlevel]. rewrite <- !app_assoc. cbn [app]. rewrite <- !app_assoc.
      repeat split; [exact P1 | exact P2 | lia | apply stops_23; lia]. }
    destruct (lookup n builtins) as [make|] eqn:B.
    { pose proof (lexed_tail _ _ W) as W1.
      step_bind H. apply (expect_some _ "(") in E; [|fixed_text | exact W1]. subst ts. apply lexed_tail in W1.
      step_bind H. read IHe W1 E P1 L1 S1. apply lexed_app in W1.
      step_bind H. apply (expect_some _ ")") in E0; [|fixed_text | exact W1]. subst. injection H as <- <-.
      apply lookup_in in B. cbn in B. decompose [or] B; try contradiction;
        match goal with H : (_, _) = (_, _) |- _ => injection H as <- <- end;
        rewrite (lexed_head _ _ _ _ W ltac:(fixed_text)); cbn [expr_tokens app proper plevel rlevel]; rewrite <- !app_assoc;
        (repeat split; [exact P1 | lia | apply stops_23; lia]). }
    destruct (lookup n unops) as [op|] eqn:U.
    { step_bind H. read IHe (lexed_tail _ _ W) E P1 L1 S1. injection H as <- <-.
      apply lookup_in in U. cbn in U. decompose [or] U; try contradiction;
        match goal with H : (_, _) = (_, _) |- _ => injection H as <- <- end;
        rewrite (lexed_head _ _ _ _ W ltac:(fixed_text)); cbn [expr_tokens uop_token app proper plevel rlevel];
        (repeat split; [exact P1 | apply level_12; exact L1 | lia | exact S1]). }
    destruct (lookup n literals) as [k|] eqn:Lk.
    { injection H as <- <-. apply lookup_in in Lk. cbn in Lk. decompose [or] Lk; try contradiction;
        match goal with H : (_, _) = (_, _) |- _ => injection H as <- <- end;
        cbn [expr_tokens literal_token app proper plevel rlevel]; (repeat split; [lia | apply stops_23; lia]). }
    destruct (String.eqb_spec n "INDEX") as [->|].
    { injection H as <- <-. rewrite (lexed_head _ _ _ "@index" W ltac:(fixed_text)).
      cbn [expr_tokens app proper plevel rlevel]; (repeat split; [lia | apply stops_23; lia]). }
    destruct (String.eqb_spec n "ID") as [->|]; [|discriminate].
    injection H as <- <-. cbn [expr_tokens app proper plevel rlevel]; (repeat split; [lia | apply stops_23; lia]).
  - intros i p e ts e' r W Hp Pe Hl S H. cbn [suffixes] in H. unfold stops in S.
    destruct (operator i ts) as [[[op q] r']|] eqn:O.
    { pose proof (prec_range op) as R. destruct (operator_some _ _ _ _ _ W O) as (Ets & ->).
      destruct (Nat.leb p (prec op)) eqn:Lp.
      - step_bind H. assert (W1 : well_lexed r') by (subst ts; eapply lexed_app; exact W).
        read IHe W1 E P1 L1 S1.
        apply IHs in H.
        + destruct H as (T & H). split; [|exact H]. rewrite <- T, Ets. cbn [expr_tokens]. rewrite <- !app_assoc. reflexivity.
        + eapply lexed_app; exact W1.
        + exact Hp.
        + cbn [proper]. rewrite level_op, level_op_lt. repeat split; try assumption.
          destruct e; cbn [plevel rlevel] in *; lia.
        + cbn [plevel]. lia.
        + exact S1.
      - injection H as <- <-. repeat split; try assumption. unfold stops. rewrite O. lia. }
    rewrite !andb_true_iff, !negb_true_iff in S. destruct S as [[[S1 S2] S3] S4].
    destruct (next_is "QUESTIONMARK" ts && Nat.leb p 4) eqn:Q.
    { apply andb_true_iff in Q. destruct Q as [Q Qp]. rewrite Q in S1. cbn in S1.
      apply (next_some _ "?") in Q; [|fixed_text | exact W]. destruct ts as [|tk ts]; [discriminate Q|]. cbn [tl] in *. injection Q as ->. apply lexed_tail in W.
      step_bind H. read IHe W E P1 L1 T1. apply lexed_app in W.
      step_bind H. apply (expect_some _ ":") in E0; [|fixed_text | exact W]. subst. apply lexed_tail in W.
      step_bind H. read IHe W E0 P2 L2 T2. apply lexed_app in W.
      apply IHs in H.
      + destruct H as (T & H). split; [|exact H]. rewrite <- T. cbn [expr_tokens]. rewrite <- !app_assoc. cbn [app].
        rewrite <- !app_assoc. reflexivity.
      + exact W.
      + exact Hp.
      + cbn [proper]. rewrite level_cond. repeat split; try assumption.
        destruct e; cbn [plevel rlevel] in *; try lia; pose proof (prec_range op); lia.
      + cbn [plevel]. lia.
      + exact T2. }
    destruct (next_is "LPAREN" ts && next_is "RPAREN" (tl ts) && Nat.leb p 22) eqn:Q2.
    { apply andb_true_iff in Q2. destruct Q2 as [Q2 Qp]. rewrite Q2 in S2. cbn in S2. apply andb_true_iff in Q2. destruct Q2 as [Q2 Q3].
      apply (next_some _ "(") in Q2; [|fixed_text | exact W]. destruct ts as [|tk ts]; [discriminate Q2|]. cbn [tl] in *. injection Q2 as ->. apply lexed_tail in W.
      apply (next_some _ ")") in Q3; [|fixed_text | exact W]. destruct ts as [|tk ts]; [discriminate Q3|]. cbn [tl] in *. injection Q3 as ->. apply lexed_tail in W.
      apply IHs in H.
      + destruct H as (T & H). split; [|exact H]. rewrite <- T. cbn [expr_tokens]. rewrite <- !app_assoc. reflexivity.
      + exact W.
      + exact Hp.
      + cbn [proper]. rewrite level_13. split; [exact Pe|].
        destruct e; cbn [plevel rlevel] in *; try lia; pose proof (prec_range op); lia.
      + cbn [plevel]. lia.
      + apply stops_23. cbn. lia. }
    destruct (next_is "LBRACKET" ts && Nat.leb p 21) eqn:Q4.
    { apply andb_true_iff in Q4. destruct Q4 as [Q4 Qp]. rewrite Q4 in S3. cbn in S3.
      apply (next_some _ "[") in Q4; [|fixed_text | exact W]. destruct ts as [|tk ts]; [discriminate Q4|]. cbn [tl] in *. injection Q4 as ->. apply lexed_tail in W.
      step_bind H. read IHe W E P1 L1 T1. apply lexed_app in W.
      step_bind H. apply (expect_some _ "]") in E0; [|fixed_text | exact W]. subst. apply lexed_tail in W.
      apply IHs in H.
      + destruct H as (T & H). split; [|exact H]. rewrite <- T. cbn [expr_tokens]. rewrite <- !app_assoc. cbn [app].
        rewrite <- !app_assoc. reflexivity.
      + exact W.
      + exact Hp.
      + cbn [proper]. rewrite level_13. repeat split; try assumption.
        destruct e; cbn [plevel rlevel] in *; try lia; pose proof (prec_range op); lia.
      + cbn [plevel]. lia.
      + apply stops_23. cbn. lia. }
    destruct (next_is "DOT" ts && next_is "ID" (tl ts) && Nat.leb p 20) eqn:Q5.
    { apply andb_true_iff in Q5. destruct Q5 as [Q5 Qp]. rewrite Q5 in S4. cbn in S4. apply andb_true_iff in Q5. destruct Q5 as [Q5 Q6].
      apply (next_some _ ".") in Q5; [|fixed_text | exact W]. destruct ts as [|tk ts]; [discriminate Q5|]. cbn [tl] in *. injection Q5 as ->. apply lexed_tail in W.
      destruct ts as [|[m name] r']; [discriminate|]. cbn in Q6. apply String.eqb_eq in Q6. subst m. apply lexed_tail in W.
      apply IHs in H.
      + destruct H as (T & H). split; [|exact H]. rewrite <- T. cbn [expr_tokens]. rewrite <- !app_assoc. reflexivity.
      + exact W.
      + exact Hp.
      + cbn [proper]. rewrite level_13. split; [exact Pe|].
        destruct e; cbn [plevel rlevel] in *; try lia; pose proof (prec_range op); lia.
      + cbn [plevel]. lia.
      + apply stops_23. cbn. lia. }
    injection H as <- <-. repeat split; try assumption. unfold stops. rewrite O, Q, Q2, Q4, Q5. reflexivity.
Qed.
