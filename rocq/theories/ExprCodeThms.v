(** What the expressions of a schema file compute in the Go code for it. *)

Require Import ZArith String Ascii List Bool Lia ZifyBool ZifyNat.
From Verif Require Import Bits BitsFacts Traits Schema.
From Verif Require Literals LiteralsSpec LiteralsFacts CodecChoiceSpec AstTypes AstTypesSpec AstTypesThms PackagesSpec PackagesFacts.
From Verif Require Import AstExpr GoSyntax GoSyntaxFacts ExprPrint ExprPrintFacts GoTypes GoTypesSpec GoTypesFacts Members MembersFacts.
From Verif Require MembersSpec ExprPrintSpec Names.
From Verif Require Import Packages Visitor VisitorSpec Parser ParserSpec FileParser FileParserSpec FileParserSound Compile CompileSpec CompileFacts CompileThms ExprCode ExprCodeSpec ExprValue ExprCodeFacts Refine.
Import ListNotations.
Open Scope string_scope.
Open Scope list_scope.
Open Scope Z_scope.

(** ** Evaluation in a type of a file *)

Definition here (p : pkg) (scope : string) : current := enter (vp_name p) scope nowhere.
Definition outcome (p : pkg) (scope : string) (invoke : current -> package -> mexpr -> mout) (m : mexpr) : mout :=
  eval_mexpr invoke (menv_of p) (here p scope) (package_at (menv_of p) (here p scope) (package_of p)) m.
Lemma here_scope : forall p scope, here p scope (p_name (package_of p)) = Some scope.
Proof. intros p scope. unfold here, enter. cbn. now rewrite String.eqb_refl. Qed.
Lemma evaluated_outcome : forall p scope e a, evaluated p scope e = Some a -> exists invoke s, outcome p scope invoke e = MOk a s.
Proof.
  intros p scope e a H. unfold evaluated in H. destruct (evaluate_mexpr (menv_of p) (enter (vp_name p) scope nowhere) (package_of p) e) as (invoke & X). rewrite X in H.
  exists invoke. unfold outcome, here. destruct (eval_mexpr invoke _ _ _ e) as [a' s|]; [|discriminate]. injection H as ->. eauto.
Qed.

Lemma literal_int : forall k t z m, LiteralsSpec.int_literal k (list_ascii_of_string t) z -> literal_mexpr k t = Some m -> m = MNum z.
Proof.
  intros k t z m H E. destruct (LiteralsFacts.int_literal_value k _ z H) as (_ & A & B). unfold literal_mexpr in E.
  assert (X : Literals.eval_literal k (list_ascii_of_string t) = Some (Literals.VInt z)).
  { apply A. assert (N : ~ (2 ^ 63 <= z \/ LiteralsFacts.upper_binary k (list_ascii_of_string t))). { intros Q. apply B in Q. now rewrite Q in E. }
    split; [|tauto]. destruct (Z.lt_ge_cases z (2 ^ 63)); [assumption|]. exfalso. apply N. now left. }
  rewrite X in E. congruence.
Qed.

(** The value of a part counts if the whole compiles. *)
Definition checked (D : genv) (a : aexpr) : Prop := r_full (res a) = true \/ check D (raw a) <> None.
Lemma cast_checked : forall D c r t, check D (cast c r t) <> None -> check D t <> None.
Proof.
  intros D c r t H Q. unfold cast in H. destruct c; [|auto]. destruct (r_native r) as [n|]; [|auto]. destruct (AstTypes.GoType n) as [go|] eqn:G; [|auto].
  pose proof (gotype_name n go G) as N. apply orb_false_iff in N. destruct N as (N1 & N2). cbn [check] in H. rewrite N1, N2, Q in H. now apply H.
Qed.
Lemma bin_checked : forall D o x y, check D (GBin o x y) <> None -> check D x <> None /\ check D y <> None.
Proof.
  intros D o x y H. cbn [check] in H. split; intros Q; apply H; rewrite Q; [reflexivity|]. destruct (check D x); reflexivity.
Qed.

Lemma number_constant : forall D S lo hi z, - 2 ^ 63 <= lo -> hi <= 2 ^ 63 -> lo <= z < hi -> exact D S lo hi (AConst (int_result z)) z.
Proof. intros D S lo hi z L H B. apply exact_const; auto. Qed.

Lemma member_ident : forall f p scope x t array read k t' n bits, coded f p -> member (cfl_directives f) scope x t array read -> visible (cfl_directives f) x -> known_name p scope x = true ->
  (k <= 100)%nat -> stands_for (cfl_directives f) k t t' -> visit_type t' = Visitor.TRef true "" n bits [] ->
  forall invoke a s, outcome p scope invoke (MName x) = MOk a s ->
  a = AIdent (IMember (title x)) (go_type_of p (visit_type t)) (open_result (MembersSpec.Builtin (mkTR true "" n bits))).
Proof.
  intros f p scope x t array read k t' n bits C M V K L St Vt invoke a s H. destruct (member_code f p scope x t array read C M V K) as (sl & sy & _ & _ & _ & _ & Mo & Mt & _).
  unfold outcome in H. cbn [eval_mexpr] in H.
  rewrite (own_member (menv_of p) (here p scope) (package_of p) scope x sy (tyref_of p (visit_type t)) k _ (coded_searchable f p C) (here_scope p scope) Mo (coded_global f p x C V) Mt
    (coded_means f p k t t' n bits C St Vt)) in H.
  rewrite (proj2 (Nat.leb_le k (MembersSpec.subtype_limit (MembersSpec.Builtin (mkTR true "" n bits)))) L) in H. injection H as <- _. reflexivity.
Qed.

(** ** Integers *)

Lemma int_native : forall lo hi t g, (forall y, lo <= y < hi -> gvalue g y) -> int_type t g ->
  exists n bits go, visit_type t = Visitor.TRef true "" n bits [] /\ AstTypes.GoType (mkT n bits false) = Some go /\ find_name go predeclared = Some (KInt g) /\ integer (mkT n bits false) /\ wide lo hi (mkT n bits false).
Proof.
  intros lo hi t g W T. destruct (int_builtin t g T) as (n & bits & go & V & G & F & I). exists n, bits, go. split; [exact V|]. split; [exact G|]. split; [exact F|]. split; [exact I|].
  destruct (go_type_describe (mkRes TyInt 0 f64_zero "" false (Some (mkT n bits false)) false) I) as (go' & g' & l & h & G' & D'). unfold go_type in G'. cbn [r_native] in G'. rewrite G in G'. injection G' as <-.
  exists go, g', l, h. split; [exact G|]. split; [exact D'|]. intros y Hy. destruct D' as (K & R & _). apply R. specialize (K (mkG (fun _ => None) (fun _ => None) (fun _ => None) (fun _ => None))).
  unfold int_kind, kind_of in K. rewrite F in K. injection K as <-. unfold representable. apply Z.eqb_eq. apply gconv_value. now apply W.
Qed.

Lemma slot_path : forall p scope x sl go, go_slot p scope x = Some sl -> sl_array sl = false -> go_type_of p (sl_type sl) = Some go ->
  g_paths (genv_of p scope) (GSelect (GName "v") x) = Some go /\
  forall E i, s_paths (gstate_of p scope E i) (GSelect (GName "v") x) = go_value (kind_of (genv_of p scope) go) (slot_value sl E).
Proof. intros p scope x sl go S A G. split; [|intros E i]; cbn [g_paths genv_of s_paths gstate_of at_v String.eqb Ascii.eqb Bool.eqb]; rewrite S, ?A, G; reflexivity. Qed.

Lemma array_ident : forall E cur p c n t, MembersSpec.searchable E p -> cur (p_name p) = Some c -> MembersSpec.member_of E p c n (SyField t true) -> MembersSpec.not_global E p n ->
  match eval_ident E cur (package_at E cur p) n with
  | MOk a s => exists go r, a = AIdent (IMember (title n)) go r /\ r_full r = false /\ array_field s = inr t
  | MFail _ => True
  end.
Proof.
  intros E cur p c n t Hp Hc Hm Hg. unfold eval_ident. rewrite (find_member E cur p c n _ Hc Hm Hg). cbn [sr_sym].
  destruct (symbol_type _ _ _ _) as [(ty, nt)| |]; try exact I. change (p_name (package_at E cur p)) with (p_name p).
  rewrite (go_ident_member E p _ n _ Hp) by (left; exists t; right; eauto). eexists _, _. split; [reflexivity|]. split; reflexivity.
Qed.
Definition len_result : result := mkRes TyInt 0 f64_zero "" false (Some (builtin_type "int64")) false.
Lemma int64_open : open_int len_result.
Proof. split; [reflexivity|]. split; [reflexivity|]. cbn [r_native len_result]. eexists. apply AstTypesSpec.range_named. cbn. repeat (first [left; reflexivity|right]). Qed.
Lemma int64_wide : forall lo hi, - 2 ^ 63 <= lo -> hi <= 2 ^ 63 -> wide lo hi (builtin_type "int64").
Proof.
  intros lo hi Lo Hi. destruct (describe "int64" (- 2 ^ 63) (2 ^ 63)) as (g & D'); [right; cbn; repeat (first [left; reflexivity|right])|].
  exists "int64"%string, g, (- 2 ^ 63), (2 ^ 63). split; [reflexivity|]. split; [exact D'|]. intros y Hy. lia.
Qed.
Lemma gconv_int64 : forall z, - 2 ^ 63 <= z < 2 ^ 63 -> gconv (GS 64) z = z.
Proof. intros z B. apply gconv_value. unfold gvalue, in_s. change (64 - 1) with 63. exact B. Qed.
Lemma convert_int64 : forall D z, - 2 ^ 63 <= z < 2 ^ 63 -> eval_convert D "int64" (GI z) = Some (GI z).
Proof. intros D z B. unfold eval_convert, kind_of. replace (find_name "int64" predeclared) with (Some (KInt (GS 64))) by reflexivity. now rewrite (gconv_int64 z B). Qed.
Lemma len_value : forall D S x z, s_length S x = z -> - 2 ^ 63 <= z < 2 ^ 63 -> geval D S (GCall (GParen (GName "int64")) (GCall (GName "len") x)) = Some (GI z).
Proof.
  intros D S x z L B. cbn [geval]. replace ("len" =? "len")%string with true by reflexivity. rewrite L. cbn [obind]. exact (convert_int64 D z B).
Qed.

(** What does not depend on the data is known when the code is generated. *)
Lemma int_full : forall f p scope E index lo hi, coded f p ->
  forall e z, int_value (cfl_directives f) scope E index lo hi e z -> ~ depends (cfl_directives f) e ->
  forall invoke m a s, to_mexpr (visit_expr e) = Some m -> forallb (known_name p scope) (MembersSpec.names m) = true -> outcome p scope invoke m = MOk a s -> r_full (res a) = true.
Proof.
  intros f p scope E index lo hi C e z H.
  induction H as [e z L B|ct x v z I L B|x t g read z M V Ty W R B|j J B|x t read l M V R B|e z H IH Z0 Dep B|e z H IH N|e z H IH N|e z H IH N B|o e1 e2 x y z H1 IH1 H2 IH2 O B]; intros Nd invoke m a s T K Ev;
    try (exfalso; apply Nd; first [exact V|exact Logic.I|exact Dep]; fail).
  - destruct L as [k t z L|k t z L]; cbn [visit_expr uop_token fst snd to_mexpr unary_of lift1] in T.
    + apply (literal_int k t z m L) in T. subst m. unfold outcome in Ev. cbn [eval_mexpr] in Ev. destruct (z <=? MaxInt64); [|discriminate Ev]. injection Ev as <- _. reflexivity.
    + destruct (literal_mexpr k t) as [m'|] eqn:Lm; [|discriminate T]. injection T as <-. pose proof (literal_int k t z m' L Lm) as ->. unfold outcome in Ev. cbn [eval_mexpr operator1] in Ev.
      destruct (z <=? MaxInt64); [|discriminate Ev]. cbn [operator1 res r_full] in Ev. unfold eval_unary in Ev. cbn in Ev. injection Ev as <- _. reflexivity.
  - cbn [visit_expr to_mexpr] in T. injection T as <-. cbn [MembersSpec.names forallb] in K. rewrite andb_true_r in K.
    assert (In x (declares (CConst ct x v))) as Dx by now left.
    pose proof (symbol_declared f p _ x _ C I Dx eq_refl) as Sy. pose proof C as (Vf & Of & _ & _).
    destruct (tables f p _ x Vf Of I Dx) as (_ & _ & _ & _ & _ & Tc & _).
    pose proof (constant_wins (menv_of p) (here p scope) (package_of p) x (package_of p) _ (or_introl (conj eq_refl Sy))) as X. rewrite evaluate_name in X.
    unfold outcome in Ev. cbn [eval_mexpr] in Ev. rewrite X in Ev. injection Ev as <- _.
    assert (Cv : const_value p x = Some z).
    { unfold known_name in K. rewrite Sy in K. cbn in K. unfold const_value in *. rewrite Tc in *. cbn [k_value visit_const] in *.
      destruct (item_value (visit_expr v)) as [q|] eqn:Ev; [|discriminate K]. destruct (signed_value v z q L Ev) as (-> & _). reflexivity. }
    cbn [me_const menv_of]. rewrite Cv. reflexivity.
  - cbn [visit_expr to_mexpr unary_of lift1] in T. destruct (to_mexpr (visit_expr e)) as [m'|]; [|discriminate]. injection T as <-. cbn [MembersSpec.names] in K.
    unfold outcome in Ev. cbn [eval_mexpr] in Ev. unfold operator1 in Ev. destruct (eval_mexpr invoke _ _ _ m') as [ea sa|] eqn:Ea; [|discriminate].
    destruct (eval_paren (r_full (res ea)) (res ea)) as (r, x) eqn:En. destruct x; try discriminate. injection Ev as <- _.
    unfold eval_paren in En. injection En as <-. exact (IH Nd invoke m' ea sa eq_refl K Ea).
  - cbn [visit_expr uop_token fst snd to_mexpr unary_of lift1] in T. destruct (to_mexpr (visit_expr e)) as [m'|]; [|discriminate]. injection T as <-. cbn [MembersSpec.names] in K.
    unfold outcome in Ev. cbn [eval_mexpr] in Ev. unfold operator1 in Ev. destruct (eval_mexpr invoke _ _ _ m') as [ea sa|] eqn:Ea; [|discriminate].
    rewrite (IH N invoke m' ea sa eq_refl K Ea) in Ev. unfold eval_unary in Ev. destruct (ety_eqb _ TyInt); [|destruct (ety_eqb _ TyFloat)]; try discriminate Ev; injection Ev as <- _; reflexivity.
  - cbn [visit_expr uop_token fst snd to_mexpr unary_of lift1] in T. destruct (to_mexpr (visit_expr e)) as [m'|]; [|discriminate]. injection T as <-. cbn [MembersSpec.names] in K.
    unfold outcome in Ev. cbn [eval_mexpr] in Ev. unfold operator1 in Ev. destruct (eval_mexpr invoke _ _ _ m') as [ea sa|] eqn:Ea; [|discriminate].
    rewrite (IH N invoke m' ea sa eq_refl K Ea) in Ev. unfold eval_unary in Ev. destruct (ety_eqb _ TyInt); [|destruct (ety_eqb _ TyFloat)]; try discriminate Ev; injection Ev as <- _; reflexivity.
  - assert (To : exists op, to_mexpr (visit_expr (CBinary o e1 e2)) = lift2 (MArith op) (to_mexpr (visit_expr e1)) (to_mexpr (visit_expr e2))) by (destruct o; try discriminate O; eexists; reflexivity).
    destruct To as (op & To). rewrite To in T. clear To. unfold lift2 in T.
    destruct (to_mexpr (visit_expr e1)) as [m1|]; [|discriminate]. destruct (to_mexpr (visit_expr e2)) as [m2|]; [|discriminate]. injection T as <-.
    cbn [MembersSpec.names] in K. rewrite forallb_app in K. apply andb_prop in K. destruct K as (K1 & K2).
    unfold outcome in Ev. cbn [eval_mexpr] in Ev. unfold operator2 in Ev. destruct (eval_mexpr invoke _ _ _ m1) as [ea sa|] eqn:Ea; [|discriminate]. destruct (eval_mexpr invoke _ _ _ m2) as [eb sb|] eqn:Eb; [|discriminate].
    cbn [depends] in Nd. pose proof (IH1 (fun q => Nd (or_introl q)) invoke m1 ea sa eq_refl K1 Ea) as F1. pose proof (IH2 (fun q => Nd (or_intror q)) invoke m2 eb sb eq_refl K2 Eb) as F2.
    destruct (eval_arith op (r_full (res ea) && r_full (res eb)) (res ea) (res eb)) as (r, st) eqn:En. destruct st; try discriminate. injection Ev as <- _. cbn [res].
    unfold eval_arith in En. repeat match type of En with (match ?d with _ => _ end) = _ => destruct d; try discriminate end; injection En as <-; cbn [r_full]; rewrite ?F1, ?F2; reflexivity.
Qed.

Lemma int_code : forall f p scope E index i lo hi, coded f p -> - 2 ^ 63 <= lo -> hi <= 2 ^ 63 -> (forall j, index = Some j -> j = i) ->
  forall e z, int_value (cfl_directives f) scope E index lo hi e z ->
  forall invoke m a s, to_mexpr (visit_expr e) = Some m -> forallb (known_name p scope) (MembersSpec.names m) = true -> outcome p scope invoke m = MOk a s ->
  checked (genv_of p scope) a ->
  exact (genv_of p scope) (gstate_of p scope E i) lo hi a z /\ (same_type a \/ subtyped (cfl_directives f) scope e) /\ (depends (cfl_directives f) e -> r_full (res a) = false).
Proof.
  intros f p scope E index i lo hi C Lo Hi Ix e z H.
  induction H as [e z L B|ct x v z I L B|x t g read z M V Ty W R B|j J B|x t read l M V R B|e z H IH Z0 Dep B|e z H IH N|e z H IH Nd|e z H IH Nd B|o e1 e2 x y z H1 IH1 H2 IH2 O B]; intros invoke m a s T K Ev Ck.
  - destruct L as [k t z L|k t z L]; cbn [visit_expr uop_token fst snd to_mexpr unary_of lift1] in T.
    + apply (literal_int k t z m L) in T. subst m. unfold outcome in Ev. cbn [eval_mexpr] in Ev.
      replace (z <=? MaxInt64) with true in Ev by (unfold MaxInt64; lia). injection Ev as <- _. split; [|split; [left; exact I|contradiction]]. exact (number_constant _ _ lo hi z Lo Hi B).
    + destruct (literal_mexpr k t) as [m'|] eqn:Lm; [|discriminate T]. injection T as <-. pose proof (literal_int k t z m' L Lm) as ->. unfold outcome in Ev. cbn [eval_mexpr operator1] in Ev.
      assert (P : 0 <= z < 2 ^ 63) by (unfold literal_mexpr in Lm; destruct (Literals.eval_literal k (list_ascii_of_string t)) as [[v| | |]|] eqn:El; try discriminate Lm; exact (proj2 (literal_value k t z v L El))).
      replace (z <=? MaxInt64) with true in Ev by (unfold MaxInt64; lia). cbn [operator1 res r_full eval_unary r_type ety_eqb r_int r_native] in Ev. unfold eval_unary in Ev. cbn in Ev. injection Ev as <- _.
      split; [|split; [left; exact I|contradiction]]. apply exact_const; auto. cbn. unfold i64. rewrite to_s_small; lia.
  - cbn [visit_expr to_mexpr] in T. injection T as <-. cbn [MembersSpec.names forallb] in K. rewrite andb_true_r in K.
    assert (In x (declares (CConst ct x v))) as Dx by now left.
    pose proof (symbol_declared f p _ x _ C I Dx eq_refl) as Sy. pose proof C as (Vf & Of & _ & _).
    destruct (tables f p _ x Vf Of I Dx) as (_ & _ & _ & _ & _ & Tc & _).
    pose proof (constant_wins (menv_of p) (here p scope) (package_of p) x (package_of p) _ (or_introl (conj eq_refl Sy))) as X. rewrite evaluate_name in X.
    unfold outcome in Ev. cbn [eval_mexpr] in Ev. rewrite X in Ev. injection Ev as <- _.
    assert (Cv : const_value p x = Some z).
    { unfold known_name in K. rewrite Sy in K. cbn in K. unfold const_value in *. rewrite Tc in *. cbn [k_value visit_const] in *.
      destruct (item_value (visit_expr v)) as [q|] eqn:Ev; [|discriminate K]. destruct (signed_value v z q L Ev) as (-> & _). reflexivity. }
    cbn [me_const menv_of]. rewrite Cv. split; [|split; [left; exact Logic.I|]].
    + apply exact_const; auto.
    + intros Q. exfalso. apply Q. apply in_flat_map. eauto.
  - cbn [visit_expr to_mexpr] in T. injection T as <-. cbn [MembersSpec.names forallb] in K. rewrite andb_true_r in K. destruct Ty as (k & t' & Lk & St & It).
    destruct (int_native lo hi t' g W It) as (n & bits & go' & Vt & G & F & In & Wd).
    pose proof (member_ident f p scope x t false read k t' n bits C M V K Lk St Vt invoke a s Ev) as ->.
    destruct (coded_kind f p scope k t t' n bits go' (KInt g) C Lk St Vt G F) as (go & Gt & Kd).
    destruct (member_code f p scope x t false read C M V K) as (sl & sy & Sl & Tsl & Asl & Rsl & _). rewrite <- Tsl in Gt.
    destruct (slot_path p scope (title x) sl go Sl Asl Gt) as (P1 & P2). rewrite Tsl in Gt. rewrite Gt. split; [|split].
    + split; [|split; [exact B|split; [exact Wd|split; [discriminate|]]]].
      * apply (AE_field _ _ go (mkT n bits false) _ g); [|reflexivity|exact P1|unfold int_kind; now rewrite Kd]. split; [reflexivity|]. split; [|exact In].
        exact (integer_builtin (mkTR true "" n bits) In).
      * intros _. cbn [raw res open_result r_full geval]. rewrite P2, Kd, (Rsl E _ R). cbn [go_value]. replace (representable g z) with true; [reflexivity|].
        symmetry. apply Z.eqb_eq. apply gconv_value. now apply W.
    + destruct St as [t|k n' t t' I0 St].
      * left. unfold same_type. rewrite <- Gt, Vt. reflexivity.
      * right. exists x. eauto 9.
    + reflexivity.
  - cbn [visit_expr to_mexpr] in T. injection T as <-. unfold outcome in Ev. cbn [eval_mexpr] in Ev. injection Ev as <- _. split; [|split; [left; exact I|reflexivity]].
    split; [apply AE_index; [split; [reflexivity|]; split; [reflexivity|exact I]|reflexivity]|]. split; [exact B|]. split; [exact I|]. split; [discriminate|]. intros _. cbn. rewrite (Ix j J). reflexivity.
  - cbn [visit_expr to_mexpr unary_of lift1 option_map] in T. injection T as <-. cbn [MembersSpec.names forallb] in K. rewrite andb_true_r in K.
    destruct (member_code f p scope x t true read C M V K) as (sl & sy & Sl & Tsl & Asl & Rsl & Mo & Mt & Sy). specialize (Sy eq_refl). subst sy.
    unfold outcome in Ev. cbn [eval_mexpr] in Ev.
    pose proof (array_ident (menv_of p) (here p scope) (package_of p) scope x _ (coded_searchable f p C) (here_scope p scope) Mo (coded_global f p x C V)) as Gi.
    destruct (eval_ident _ _ _ x) as [ea es|]; [|discriminate Ev]. destruct Gi as (gs & r0 & -> & Fr0 & Af). unfold eval_lengthof in Ev. rewrite Af in Ev. injection Ev as <- _. cbn [res] in Ck |- *. rewrite Fr0 in Ck |- *.
    split; [|split; [left; exact I|reflexivity]].
    assert (G : exists go, g_elems (genv_of p scope) (GSelect (GName "v") (title x)) = Some go).
    { destruct Ck as [Ck|Ck]; [discriminate Ck|]. cbn [raw res r_full] in Ck. rewrite Fr0 in Ck. cbn [check String.eqb Ascii.eqb Bool.eqb path] in Ck.
      destruct (g_elems (genv_of p scope) (GSelect (GName "v") (title x))) as [go|]; [eauto|]. exfalso. now apply Ck. }
    destruct G as (go & G). split; [|split; [exact B|split; [|split; [discriminate|]]]].
    + eapply AE_lengthof; [exact Fr0|exact G|exact int64_open|reflexivity].
    + exact (int64_wide lo hi Lo Hi).
    + intros _. cbn [raw res r_full]. rewrite Fr0. apply len_value; [|lia]. cbn [s_length gstate_of at_v]. change ("v" =? "v")%string with true. cbv iota. rewrite Sl, (Rsl E _ R). reflexivity.
  - cbn [visit_expr to_mexpr unary_of lift1] in T. destruct (to_mexpr (visit_expr e)) as [m'|]; [|discriminate]. injection T as <-. cbn [MembersSpec.names] in K.
    unfold outcome in Ev. cbn [eval_mexpr] in Ev. unfold operator1 in Ev. destruct (eval_mexpr invoke _ _ _ m') as [ea sa|] eqn:Ea; [|discriminate].
    destruct (eval_numbits (r_full (res ea)) (res ea)) as (r, x) eqn:En. destruct x; try discriminate. injection Ev as <- _.
    assert (Ca : checked (genv_of p scope) ea).
    { destruct (r_full (res ea)) eqn:Fa; [left; exact Fa|]. right. unfold eval_numbits in En. destruct (ety_eqb _ _); [|discriminate]. injection En as <-. destruct Ck as [Ck|Ck]; [discriminate Ck|].
      cbn [raw res r_full check String.eqb Ascii.eqb Bool.eqb] in Ck. intros Q. apply Ck. now rewrite Q. }
    destruct (IH invoke m' ea sa eq_refl K Ea Ca) as (X & _ & Df). specialize (Df Dep). rewrite Df in En. split; [exact (exact_numbits _ _ lo hi ea r z Hi X Df Z0 B En)|].
    split; [left; exact I|]. intros _. unfold eval_numbits in En. destruct (ety_eqb _ _); [|discriminate]. injection En as <-. reflexivity.
  - cbn [visit_expr to_mexpr unary_of lift1] in T. destruct (to_mexpr (visit_expr e)) as [m'|]; [|discriminate]. injection T as <-. cbn [MembersSpec.names] in K.
    unfold outcome in Ev. cbn [eval_mexpr] in Ev. unfold operator1 in Ev. destruct (eval_mexpr invoke _ _ _ m') as [ea sa|] eqn:Ea; [|discriminate].
    destruct (eval_paren (r_full (res ea)) (res ea)) as (r, x) eqn:En. destruct x; try discriminate. injection Ev as <- _.
    assert (Fr : r_full r = r_full (res ea)) by (unfold eval_paren in En; injection En as <-; reflexivity).
    assert (Ca : checked (genv_of p scope) ea).
    { destruct Ck as [Ck|Ck]; [left; cbn in Ck; congruence|]. destruct (r_full (res ea)) eqn:Fa; [left; exact Fa|]. right. cbn [raw res] in Ck. rewrite Fr in Ck. exact Ck. }
    destruct (IH invoke m' ea sa eq_refl K Ea Ca) as (X & Sm & Df). split; [|split; [left; exact I|]].
    + apply exact_paren; [exact X| |exact En]. intros _. destruct Sm as [Sm|Sm]; [exact Sm|contradiction].
    + intros Q. cbn [res]. rewrite Fr. now apply Df.
  - cbn [visit_expr uop_token fst snd to_mexpr unary_of lift1] in T. destruct (to_mexpr (visit_expr e)) as [m'|] eqn:Tm; [|discriminate T]. injection T as <-. cbn [MembersSpec.names] in K.
    unfold outcome in Ev. cbn [eval_mexpr] in Ev. unfold operator1 in Ev. destruct (eval_mexpr invoke _ _ _ m') as [ea sa|] eqn:Ea; [|discriminate].
    pose proof (int_full f p scope E index lo hi C e z H Nd invoke m' ea sa Tm K Ea) as Fa. rewrite Fa in Ev.
    destruct (eval_unary false true (res ea)) as (r, x) eqn:En. destruct x; try discriminate. injection Ev as <- _.
    destruct (IH invoke m' ea sa eq_refl K Ea (or_introl Fa)) as (X & _). split; [|split; [left; exact I|contradiction]]. apply (exact_sign _ _ lo hi false ea r z Lo Hi X Fa); [exact (proj1 (proj2 X))|exact En].
  - cbn [visit_expr uop_token fst snd to_mexpr unary_of lift1] in T. destruct (to_mexpr (visit_expr e)) as [m'|] eqn:Tm; [|discriminate T]. injection T as <-. cbn [MembersSpec.names] in K.
    unfold outcome in Ev. cbn [eval_mexpr] in Ev. unfold operator1 in Ev. destruct (eval_mexpr invoke _ _ _ m') as [ea sa|] eqn:Ea; [|discriminate].
    pose proof (int_full f p scope E index lo hi C e z H Nd invoke m' ea sa Tm K Ea) as Fa. rewrite Fa in Ev.
    destruct (eval_unary true true (res ea)) as (r, x) eqn:En. destruct x; try discriminate. injection Ev as <- _.
    destruct (IH invoke m' ea sa eq_refl K Ea (or_introl Fa)) as (X & _). split; [|split; [left; exact I|contradiction]]. apply (exact_sign _ _ lo hi true ea r z Lo Hi X Fa); [exact B|exact En].
  - assert (To : exists op, to_mexpr (visit_expr (CBinary o e1 e2)) = lift2 (MArith op) (to_mexpr (visit_expr e1)) (to_mexpr (visit_expr e2)) /\ MembersSpec.operation op x y = Some z).
    { destruct o; try discriminate O; eexists; (split; [reflexivity|exact O]). }
    destruct To as (op & To & O'). rewrite To in T. clear To. unfold lift2 in T.
    destruct (to_mexpr (visit_expr e1)) as [m1|]; [|discriminate]. destruct (to_mexpr (visit_expr e2)) as [m2|]; [|discriminate]. injection T as <-.
    cbn [MembersSpec.names] in K. rewrite forallb_app in K. apply andb_prop in K. destruct K as (K1 & K2).
    unfold outcome in Ev. cbn [eval_mexpr] in Ev. unfold operator2 in Ev. destruct (eval_mexpr invoke _ _ _ m1) as [ea sa|] eqn:Ea; [|discriminate]. destruct (eval_mexpr invoke _ _ _ m2) as [eb sb|] eqn:Eb; [|discriminate].
    destruct (eval_arith op (r_full (res ea) && r_full (res eb)) (res ea) (res eb)) as (r, st) eqn:En. destruct st; try discriminate. injection Ev as <- _.
    assert (Fr : r_full r = r_full (res ea) && r_full (res eb)).
    { unfold eval_arith in En. repeat match type of En with (match ?d with _ => _ end) = _ => destruct d; try discriminate end; injection En as <-; cbn [r_full]; try reflexivity; apply andb_diag. }
    assert (Cab : checked (genv_of p scope) ea /\ checked (genv_of p scope) eb).
    { destruct Ck as [Ck|Ck].
      - cbn [res] in Ck. rewrite Fr in Ck. apply andb_prop in Ck. split; left; apply Ck.
      - destruct (r_full r) eqn:Frr; [symmetry in Fr; apply andb_prop in Fr; split; left; apply Fr|]. cbn [raw res] in Ck. rewrite Frr in Ck. apply bin_checked in Ck. destruct Ck as (Q1 & Q2).
        split; right; eapply cast_checked; eassumption. }
    destruct Cab as (Ca & Cb). destruct (IH1 invoke m1 ea sa eq_refl K1 Ea Ca) as (X1 & _ & D1). destruct (IH2 invoke m2 eb sb eq_refl K2 Eb Cb) as (X2 & _ & D2).
    split; [exact (exact_arith _ _ lo hi op ea eb r x y z Lo Hi X1 X2 O' B En)|]. split; [left; exact I|]. cbn [depends res]. rewrite Fr. intros [Q|Q]; [rewrite (D1 Q)|rewrite (D2 Q)]; [reflexivity|apply andb_false_r].
Qed.

(** ** Conditions *)

Lemma compare_of_bop : forall o x y c, comparison o x y = Some c ->
  exists op, (forall a b, to_mexpr (visit_expr (CBinary o a b)) = lift2 (MCompare op) (to_mexpr (visit_expr a)) (to_mexpr (visit_expr b))) /\ int_compare op x y = c.
Proof. intros o x y c H. destruct o; try discriminate H; injection H as <-; eexists; (split; [intros a b; reflexivity|reflexivity]). Qed.

Lemma enum_ident : forall f p scope x t read e g k, coded f p -> member (cfl_directives f) scope x t false read -> visible (cfl_directives f) x ->
  known_name p scope x = true -> has_int (cfl_directives f) (ci_type (ce_type e)) g -> (k <= 99)%nat -> stands_for (cfl_directives f) k t (CNamed [ce_name e] []) -> In (CEnum e) (cfl_directives f) ->
  exists j go s, nth_error (vp_enums p) j = Some (ce_name e, visit_enum e) /\
    eval_ident (menv_of p) (here p scope) (package_at (menv_of p) (here p scope) (package_of p)) x = MOk (AIdent (IMember (title x)) go (open_result (MembersSpec.Declared (SyEnum j)))) s /\
    forall E i z, gvalue g z -> read E = Some (VInt z) -> geval (genv_of p scope) (gstate_of p scope E i) (GSelect (GName "v") (title x)) = Some (GI z).
Proof.
  intros f p scope x t read e g k C M V K Hg Lk St Ie.
  destruct (member_code f p scope x t false read C M V K) as (sl & sy & Sl & Tsl & Asl & Rsl & Mo & Mt & _).
  destruct (enum_code f p scope t e g C (ex_intro _ k (conj Lk (conj St Ie))) Hg) as (go & Gt & Kd). destruct (enum_means f p k t e C Ie St) as (j & Nj & Mn).
  exists j. eexists. eexists. split; [exact Nj|]. split.
  - rewrite (own_member (menv_of p) (here p scope) (package_of p) scope x sy (tyref_of p (visit_type t)) k _ (coded_searchable f p C) (here_scope p scope) Mo (coded_global f p x C V) Mt Mn).
    rewrite (proj2 (Nat.leb_le k (MembersSpec.subtype_limit (MembersSpec.Declared (SyEnum j)))) Lk). reflexivity.
  - intros E i z Gv R. rewrite <- Tsl in Gt. destruct (slot_path p scope (title x) sl go Sl Asl Gt) as (P1 & P2).
    cbn [geval]. rewrite P2, Kd, (Rsl E _ R). cbn [go_value]. replace (representable g z) with true; [reflexivity|]. symmetry. apply Z.eqb_eq. now apply gconv_value.
Qed.
Lemma NoDup_map_inj : forall {A B} (f : A -> B) l, NoDup (map f l) -> forall x y, In x l -> In y l -> f x = f y -> x = y.
Proof.
  intros A B f l. induction l as [|a l IH]; intros D x y; [intros []|]. cbn [map] in D. inversion D as [|? ? N D']; subst. intros [->|Ix] [->|Iy] E; [reflexivity|exfalso; apply N; rewrite E; now apply in_map|exfalso; apply N; rewrite <- E; now apply in_map|exact (IH D' x y Ix Iy E)].
Qed.
Lemma loop_enum : forall left fuel w p q t l j cast, tr_builtin t = false -> GetImportedScope fuel w p (tr_package t) = Found q -> GetSymbol fuel w q (tr_name t) = Found (l, SyEnum j) ->
  original_loop left fuel w p cast t = Found (mkO t cast true).
Proof. intros left fuel w p q t l j cast B S G. destruct left; cbn [original_loop]; rewrite B, S, G; reflexivity. Qed.
Lemma loop_subtype : forall left fuel w p q t l t' cast, tr_builtin t = false -> GetImportedScope fuel w p (tr_package t) = Found q -> GetSymbol fuel w q (tr_name t) = Found (l, Packages.SySubtype t') ->
  original_loop (Datatypes.S left) fuel w p cast t = original_loop left fuel w p true t'.
Proof. intros left fuel w p q t l t' cast B S G. cbn [original_loop]. rewrite B, S, G. reflexivity. Qed.
Lemma scope_here : forall fuel w p, p_name p <> ""%string -> GetImportedScope (Datatypes.S fuel) w p (p_name p) = Found p.
Proof. intros fuel w p H. cbn [GetImportedScope]. apply String.eqb_neq in H. now rewrite H, String.eqb_refl. Qed.
(** Subtypes of the enum [e]. *)
Lemma loop_chain : forall f p scope e k t j, coded f p -> stands_for (cfl_directives f) k t (CNamed [ce_name e] []) -> ident (ce_name e) -> get (ce_name e) (type_symbols p) = Some (SyEnum j) ->
  forall left cast, (k <= left)%nat ->
  original_loop left (me_depth (menv_of p)) (world_at (menv_of p) (here p scope)) (package_at (menv_of p) (here p scope) (package_of p)) cast (tyref_of p (visit_type t)) =
    Found (mkO (mkTR false (vp_name p) (ce_name e) 0) (cast || (0 <? k)%nat) true).
Proof.
  intros f p scope e k t j C H Ide G. destruct (coded_ok f p C) as (_ & Pe & _). pose proof C as (_ & _ & Id & _). remember (CNamed [ce_name e] []) as t' eqn:Et.
  induction H as [t|k m t t' I H IH]; intros left cast L; subst.
  - rewrite (single _ Ide). cbn [tyref_of]. rewrite orb_false_r. eapply loop_enum; [reflexivity| |exact (type_at (menv_of p) (here p scope) (package_of p) (ce_name e) (SyEnum j) G)].
    exact (scope_here 100 (world_at (menv_of p) (here p scope)) (package_at (menv_of p) (here p scope) (package_of p)) Pe).
  - destruct left as [|left]; [lia|]. rewrite (single m (declared_ident _ _ m Id I (or_introl eq_refl))). cbn [tyref_of].
    assert (Gm : get m (type_symbols p) = Some (Packages.SySubtype (tyref_of p (visit_type t)))) by exact (symbol_declared f p (CSubtype t m) m _ C I (or_introl eq_refl) eq_refl).
    erewrite loop_subtype; [|reflexivity| |exact (type_at (menv_of p) (here p scope) (package_of p) m _ Gm)].
    2: exact (scope_here 100 (world_at (menv_of p) (here p scope)) (package_at (menv_of p) (here p scope) (package_of p)) Pe).
    rewrite (IH eq_refl left true ltac:(lia)). change (0 <? Datatypes.S k)%nat with true. rewrite orb_true_r. reflexivity.
Qed.
Lemma item_text : forall f p scope e m k j s n, coded f p -> (k <= 99)%nat -> ident m -> stands_for (cfl_directives f) k (CNamed [m] []) (CNamed [ce_name e] []) -> ident (ce_name e) -> get (ce_name e) (type_symbols p) = Some (SyEnum j) ->
  go_item (menv_of p) (world_at (menv_of p) (here p scope)) (package_at (menv_of p) (here p scope) (package_of p)) (mkSR s m (vp_name p) "") n = DEnum (title (ce_name e) ++ Names.item_name n) (0 <? k)%nat.
Proof.
  intros f p scope e m k j s n C L Im H Ide G. destruct (coded_ok f p C) as (_ & Pe & _).
  pose proof (loop_chain f p scope e k _ j C H Ide G 100 false ltac:(lia)) as X. rewrite (single m Im) in X. cbn [tyref_of orb] in X.
  unfold go_item, Packages.GetOriginalType. cbn [sr_package sr_name]. rewrite X. unfold PackageGoType. cbn [o_type tr_builtin tr_package tr_name o_cast package_at p_name package_of]. apply String.eqb_neq in Pe. now rewrite Pe, String.eqb_refl.
Qed.
Lemma item_ident : forall f p scope e m k, coded f p -> (k <= 99)%nat -> stands_for (cfl_directives f) k (CNamed [m] []) (CNamed [ce_name e] []) -> In (CEnum e) (cfl_directives f) ->
  exists j go s, ident m /\ nth_error (vp_enums p) j = Some (ce_name e, visit_enum e) /\
    eval_ident (menv_of p) (here p scope) (package_at (menv_of p) (here p scope) (package_of p)) m =
      MOk (AIdent (IType (title m)) go (open_result (MembersSpec.Declared (SyEnum j)))) (Some (mkSR s m (vp_name p) "")) /\
    GetOriginalSymbol 100 (me_depth (menv_of p)) (world_at (menv_of p) (here p scope)) (package_at (menv_of p) (here p scope) (package_of p)) s = Found (inl (SyEnum j)) /\
    forall n, go_item (menv_of p) (world_at (menv_of p) (here p scope)) (package_at (menv_of p) (here p scope) (package_of p)) (mkSR s m (vp_name p) "") n =
      DEnum (title (ce_name e) ++ Names.item_name n) (0 <? k)%nat.
Proof.
  intros f p scope e m k C L St Ie. destruct (symbol_enum f p e C Ie) as (j & G & N). destruct (enum_means f p k (CNamed [m] []) e C Ie St) as (j' & N' & Mn).
  pose proof C as (_ & _ & Id & _). assert (Ide : ident (ce_name e)) by (eapply declared_ident; [exact Id|exact Ie|now left]). destruct (coded_ok f p C) as (_ & Pe & _). apply String.eqb_neq in Pe.
  assert (X : exists s, ident m /\ get m (type_symbols p) = Some s /\ go_ident (vp_name p) (mkSR s m (vp_name p) "") = IType (title m)).
  { pose proof St as St'. remember (CNamed [m] []) as t eqn:Et. remember (CNamed [ce_name e] []) as t' eqn:Et'. destruct St' as [t|k n t t' I H]; subst.
    - injection Et' as ->. exists (SyEnum j). split; [exact Ide|]. split; [exact G|]. unfold go_ident, PackageGoType. cbn [sr_package sr_name tr_builtin tr_package tr_name sr_sym]. now rewrite Pe, String.eqb_refl.
    - injection Et as ->. exists (Packages.SySubtype (tyref_of p (visit_type t))). split; [exact (declared_ident _ _ m Id I (or_introl eq_refl))|].
      split; [exact (symbol_declared f p (CSubtype t m) m _ C I (or_introl eq_refl) eq_refl)|]. unfold go_ident, PackageGoType. cbn [sr_package sr_name tr_builtin tr_package tr_name sr_sym]. now rewrite Pe, String.eqb_refl. }
  destruct X as (s & Im & Gm & Gi). rewrite (single _ Im) in Mn. cbn [tyref_of] in Mn.
  destruct (sees_type (menv_of p) (here p scope) (package_of p) _ k _ (package_of p) s (coded_searchable f p C) Mn (or_introl (conj eq_refl Gm)) eq_refl eq_refl L) as (F & Q & Ty & O).
  exists j'. eexists. exists s. split; [exact Im|]. split; [exact N'|]. split; [|split; [exact O|]].
  - unfold eval_ident. cbn [tr_name] in F. rewrite F. cbn [sr_sym]. destruct s; try contradiction; rewrite Ty; cbn [package_at p_name package_of] in *; rewrite Gi; reflexivity.
  - intros n. exact (item_text f p scope e m k j s n C L Im St Ide G).
Qed.
(** The Go expression of the item: State.ERROR is StateError, St.ERROR is St(StateError). *)
Lemma item_code : forall f p scope e m k n j r g, coded f p -> (k <= 99)%nat -> stands_for (cfl_directives f) k (CNamed [m] []) (CNamed [ce_name e] []) -> In (CEnum e) (cfl_directives f) -> ident m ->
  has_int (cfl_directives f) (ci_type (ce_type e)) g -> nth_error (vp_enums p) j = Some (ce_name e, visit_enum e) -> get n (enum_values p j) = Some r ->
  let tree := if (0 <? k)%nat then GCall (GName (title m)) (GName (title (ce_name e) ++ Names.item_name n)) else GName (title (ce_name e) ++ Names.item_name n) in
  check (genv_of p scope) tree = Some (CTyped (title m) (Some (r_int r))) /\ forall E i, geval (genv_of p scope) (gstate_of p scope E i) tree = Some (GI (r_int r)).
Proof.
  intros f p scope e m k n j r g C L St Ie Im Hg N G tree. pose proof C as (_ & _ & Id & Ok). assert (Ide : ident (ce_name e)) by (eapply declared_ident; [exact Id|exact Ie|now left]).
  pose proof (item_const f p j e n r C N G) as Ic.
  assert (Ck : check (genv_of p scope) (GName (title (ce_name e) ++ Names.item_name n)) = Some (CTyped (title (ce_name e)) (Some (r_int r)))).
  { cbn [check]. rewrite (title_index _ (Names.item_name n) Ide). cbn [g_consts genv_of]. now rewrite Ic. }
  assert (Ev : forall E i, geval (genv_of p scope) (gstate_of p scope E i) (GName (title (ce_name e) ++ Names.item_name n)) = Some (GI (r_int r))).
  { intros E i. cbn [geval]. rewrite (title_index _ (Names.item_name n) Ide). cbn [g_consts genv_of]. now rewrite Ic. }
  subst tree. destruct k as [|k].
  - change (0 <? 0)%nat with false. cbv iota. assert (m = ce_name e) as -> by (inversion St; reflexivity). split; [exact Ck|exact Ev].
  - change (0 <? Datatypes.S k)%nat with true. cbv iota.
    destruct (enum_code f p scope (CNamed [m] []) e g C (ex_intro _ _ (conj L (conj St Ie))) Hg) as (go & Gt & Kd). destruct (enum_code f p scope (CNamed [ce_name e] []) e g C (ex_intro _ 0%nat (conj (Nat.le_0_l 99) (conj (SF_self _ _) Ie))) Hg) as (go2 & Gt2 & Kd2).
    destruct (coded_ok f p C) as (_ & Pe & _). apply String.eqb_neq in Pe. rewrite (single m Im) in Gt. rewrite (single _ Ide) in Gt2. unfold go_type_of, tyref_of, PackageGoType in Gt, Gt2. cbn [tr_builtin tr_package tr_name] in Gt, Gt2. rewrite Pe, String.eqb_refl in Gt, Gt2. injection Gt as <-. injection Gt2 as <-.
    assert (Rp : representable g (r_int r) = true).
    { unfold code_ok in Ok. repeat (apply andb_prop in Ok; destruct Ok as (Ok & ?)).
      match goal with H : forallb (item_fits p) _ = true |- _ => rewrite forallb_forall in H; specialize (H _ (ExprCodeFacts.get_in _ _ _ Ic)); unfold item_fits in H; cbn [fst snd] in H end.
      unfold kind_of in Kd2. rewrite title_defined in Kd2. cbn [g_types genv_of] in Kd2. match goal with H : match named_kind _ _ with _ => _ end = true |- _ => rewrite Kd2 in H; exact H end. }
    assert (T1 : (title m =? "len")%string = false /\ (title m =? "ztype.NumBits")%string = false).
    { clear - Im. destruct m as [|c m]; [destruct Im as (H & _); now destruct H|]. split; apply String.eqb_neq; intros Q; cbn [Members.title] in Q; injection Q as Q _; destruct c as [[] [] [] [] [] [] [] []]; vm_compute in Q; discriminate. }
    destruct T1 as (T1 & T2).
    split.
    + cbn [check]. cbn [check] in Ck. rewrite T1, T2, Ck. cbn [obind]. unfold convert. rewrite Kd, Rp. reflexivity.
    + intros E i. specialize (Ev E i). cbn [geval]. cbn [geval] in Ev. rewrite T1, T2, Ev. cbn [obind]. unfold eval_convert. rewrite Kd. unfold representable in Rp. apply Z.eqb_eq in Rp. now rewrite Rp.
Qed.

Definition item_tree (e : cenum) (m n : string) (k : nat) : gtree :=
  if (0 <? k)%nat then GCall (GName (title m)) (GName (title (ce_name e) ++ Names.item_name n)) else GName (title (ce_name e) ++ Names.item_name n).
Lemma item_raw : forall op x go e m go' n k j j' r rc, r_type rc = TyBool -> r_full rc = false ->
  raw (ACompare op (AIdent (IMember (title x)) go (open_result (MembersSpec.Declared (SyEnum j))))
    (ADot (AIdent (IType (title m)) go' (open_result (MembersSpec.Declared (SyEnum j')))) (DEnum (title (ce_name e) ++ Names.item_name n) (0 <? k)%nat) None (copy_result false r)) rc) =
  GBin (ExprPrintSpec.relation_op op) (GSelect (GName "v") (title x)) (item_tree e m n k).
Proof.
  intros op x go e m go' n k j j' r rc Fr Ff. cbn [raw res]. rewrite Ff. unfold ExprPrintSpec.converted, cast. rewrite Fr. cbn [r_full open_result copy_result ety_eqb andb orb]. reflexivity.
Qed.
Lemma item_eval : forall f p scope e m n km invoke, coded f p -> (km <= 99)%nat -> stands_for (cfl_directives f) km (CNamed [m] []) (CNamed [ce_name e] []) -> In (CEnum e) (cfl_directives f) ->
  exists go' j', ident m /\ nth_error (vp_enums p) j' = Some (ce_name e, visit_enum e) /\
  eval_mexpr invoke (menv_of p) (here p scope) (package_at (menv_of p) (here p scope) (package_of p)) (MDot (MName m) false n) =
    match get n (enum_values p j') with
    | Some r => MOk (ADot (AIdent (IType (title m)) go' (open_result (MembersSpec.Declared (SyEnum j')))) (DEnum (title (ce_name e) ++ Names.item_name n) (0 <? km)%nat) None (copy_result false r)) None
    | None => MFail SErr
    end.
Proof.
  intros f p scope e m n km invoke C Lm Sm Ie.
  destruct (item_ident f p scope e m km C Lm Sm Ie) as (j' & go' & sm & Im & Nj' & Ei & Os & Gi). pose proof (Gi n) as Gn. clear Gi.
  exists go', j'. split; [exact Im|]. split; [exact Nj'|]. cbn [eval_mexpr]. rewrite Ei.
  rewrite (mdot_step (menv_of p) (here p scope) (package_at (menv_of p) (here p scope) (package_of p)) _ (mkSR sm m (vp_name p) "") _ n _ Os), Gn. reflexivity.
Qed.
Lemma mcompare_step : forall invoke E cur p op a b x s, eval_mexpr invoke E cur p (MCompare op a b) = MOk x s ->
  exists ea sa eb sb r, eval_mexpr invoke E cur p a = MOk ea sa /\ eval_mexpr invoke E cur p b = MOk eb sb /\
    eval_compare op (r_full (res ea) && r_full (res eb)) (res ea) (res eb) = (r, SOk) /\ x = ACompare op ea eb r.
Proof.
  intros invoke E cur p op a b x s H. cbn [eval_mexpr] in H. unfold operator2 in H. destruct (eval_mexpr invoke E cur p a) as [ea sa|]; [|discriminate H]. destruct (eval_mexpr invoke E cur p b) as [eb sb|]; [|discriminate H].
  destruct (eval_compare _ _ _ _) as (r, st) eqn:En. destruct st; try discriminate H. injection H as <- _. exists ea, sa, eb, sb, r. repeat split; assumption.
Qed.
Lemma item_outcome : forall f p scope op x e m n km j go sx, coded f p -> (km <= 99)%nat -> stands_for (cfl_directives f) km (CNamed [m] []) (CNamed [ce_name e] []) -> In (CEnum e) (cfl_directives f) ->
  eval_ident (menv_of p) (here p scope) (package_at (menv_of p) (here p scope) (package_of p)) x = MOk (AIdent (IMember (title x)) go (open_result (MembersSpec.Declared (SyEnum j)))) sx ->
  forall invoke a s, outcome p scope invoke (MCompare op (MName x) (MDot (MName m) false n)) = MOk a s ->
  exists go' j' r rc, ident m /\ nth_error (vp_enums p) j' = Some (ce_name e, visit_enum e) /\ get n (enum_values p j') = Some r /\ r_type rc = TyBool /\ r_full rc = false /\
    a = ACompare op (AIdent (IMember (title x)) go (open_result (MembersSpec.Declared (SyEnum j))))
      (ADot (AIdent (IType (title m)) go' (open_result (MembersSpec.Declared (SyEnum j')))) (DEnum (title (ce_name e) ++ Names.item_name n) (0 <? km)%nat) None (copy_result false r)) rc.
Proof.
  intros f p scope op x e m n km j go sx C Lm Sm Ie Ex invoke a s Ev. destruct (item_eval f p scope e m n km invoke C Lm Sm Ie) as (go' & j' & Im & Nj' & Ei).
  unfold outcome in Ev. destruct (mcompare_step _ _ _ _ _ _ _ _ _ Ev) as (ea & sa & eb & sb & rc & Ea & Eb & En & ->). clear Ev.
  rewrite Ei in Eb. clear Ei. destruct (get n (enum_values p j')) as [r|] eqn:Gr; [|discriminate Eb]. injection Eb as <- _.
  assert (Q : ea = AIdent (IMember (title x)) go (open_result (MembersSpec.Declared (SyEnum j)))) by (change (eval_mexpr invoke (menv_of p) (here p scope) (package_at (menv_of p) (here p scope) (package_of p)) (MName x)) with (eval_ident (menv_of p) (here p scope) (package_at (menv_of p) (here p scope) (package_of p)) x) in Ea; rewrite Ex in Ea; now injection Ea as <- _).
  subst ea. clear Ea Ex. cbn [res r_full open_result andb] in En.
  assert (Fr : r_type rc = TyBool /\ r_full rc = false).
  { unfold eval_compare in En. repeat match type of En with (match ?d with _ => _ end) = _ => destruct d; try discriminate En end; injection En as <-; split; reflexivity. }
  exists go', j', r, rc. split; [exact Im|]. split; [exact Nj'|]. split; [exact Gr|]. split; [exact (proj1 Fr)|]. split; [exact (proj2 Fr)|reflexivity].
Qed.
Lemma item_compare : forall f p scope E i op x t read e m n g z y, coded f p -> member (cfl_directives f) scope x t false read -> visible (cfl_directives f) x ->
  has_enum (cfl_directives f) t e -> has_enum (cfl_directives f) (CNamed [m] []) e -> item_of e n y -> has_int (cfl_directives f) (ci_type (ce_type e)) g -> gvalue g z -> read E = Some (VInt z) -> known_name p scope x = true ->
  forall invoke a s, outcome p scope invoke (MCompare op (MName x) (MDot (MName m) false n)) = MOk a s ->
  holds (genv_of p scope) (gstate_of p scope E i) a (int_compare op z y).
Proof.
  intros f p scope E i op x t read e m n g z y C M V (k & Lk & St & Ie) (km & Lm & Sm & _) It Hg Gv R K invoke a s Ev.
  destruct (enum_ident f p scope x t read e g k C M V K Hg Lk St Ie) as (j & go & sx & Nj & Ex & Vx).
  destruct (item_outcome f p scope op x e m n km j go sx C Lm Sm Ie Ex invoke a s Ev) as (go' & j' & r & rc & Im & Nj' & Gr & Fr & Ff & ->). clear Ev Ex.
  destruct (item_code f p scope e m km n j' r g C Lm Sm Ie Im Hg Nj' Gr) as (_ & Vi). specialize (Vi E i). fold (item_tree e m n km) in Vi. rewrite (item_number p j' e n y r Nj' It Gr) in Vi.
  split; [exact Fr|]. split; [cbn [res]; rewrite Ff; discriminate|]. intros _. rewrite (item_raw _ _ _ _ _ _ _ _ _ _ _ _ Fr Ff).
  specialize (Vx E i z Gv R). generalize dependent (item_tree e m n km). intros tree Vi. cbn [geval]. cbn [geval] in Vx. rewrite Vx, Vi. destruct op; reflexivity.
Qed.

Lemma item_types : forall f p scope op x t read e m n g, coded f p -> member (cfl_directives f) scope x t false read -> visible (cfl_directives f) x ->
  has_enum (cfl_directives f) t e -> has_enum (cfl_directives f) (CNamed [m] []) e -> has_int (cfl_directives f) (ci_type (ce_type e)) g -> known_name p scope x = true ->
  forall invoke a s, outcome p scope invoke (MCompare op (MName x) (MDot (MName m) false n)) = MOk a s -> check (genv_of p scope) (raw a) <> None ->
  ident m /\ go_type_of p (visit_type t) = Some (title m).
Proof.
  intros f p scope op x t read e m n g C M V He (km & Lm & Sm & _) Hg K invoke a s Ev Ck.
  destruct (member_code f p scope x t false read C M V K) as (sl & sy & Sl & Tsl & Asl & _). destruct (enum_code f p scope t e g C He Hg) as (go & Gt & _). pose proof Gt as Gt'. rewrite <- Tsl in Gt'.
  destruct (slot_path p scope (title x) sl go Sl Asl Gt') as (P1 & _). destruct He as (k & Lk & St & Ie).
  destruct (enum_ident f p scope x t read e g k C M V K Hg Lk St Ie) as (j & go1 & sx & Nj & Ex & _).
  destruct (item_outcome f p scope op x e m n km j go1 sx C Lm Sm Ie Ex invoke a s Ev) as (go' & j' & r & rc & Im & Nj' & Gr & Fr & Ff & ->). clear Ev Ex. split; [exact Im|].
  destruct (item_code f p scope e m km n j' r g C Lm Sm Ie Im Hg Nj' Gr) as (Ci & _). fold (item_tree e m n km) in Ci. rewrite (item_raw _ _ _ _ _ _ _ _ _ _ _ _ Fr Ff) in Ck.
  generalize dependent (item_tree e m n km). intros it Ck Ci. cbn [check path] in Ck. rewrite P1 in Ck. cbn [option_map obind] in Ck. rewrite Ci in Ck. cbn [obind] in Ck.
  rewrite Gt. f_equal. unfold check_binary, common in Ck. destruct op; cbn in Ck; (destruct (String.eqb_spec go (title m)); [assumption|exfalso; now apply Ck]).
Qed.
(** A member that is compared with an item has the type of which the item is written. *)
Lemma item_same : forall f p scope op x t read e m n g, coded f p -> member (cfl_directives f) scope x t false read -> visible (cfl_directives f) x ->
  has_enum (cfl_directives f) t e -> has_enum (cfl_directives f) (CNamed [m] []) e -> has_int (cfl_directives f) (ci_type (ce_type e)) g -> known_name p scope x = true ->
  forall invoke a s, outcome p scope invoke (MCompare op (MName x) (MDot (MName m) false n)) = MOk a s -> check (genv_of p scope) (raw a) <> None ->
  t = CNamed [m] [].
Proof.
  intros f p scope op x t read e m n g C M V He Hm Hg K invoke a s Ev Ck. destruct (item_types f p scope op x t read e m n g C M V He Hm Hg K invoke a s Ev Ck) as (Im & G).
  destruct He as (k & Lk & St & Ie). destruct Hm as (km & Lm & Sm & _). destruct (coded_ok f p C) as (_ & Pe & D & _). apply String.eqb_neq in Pe.
  assert (N : forall k t, stands_for (cfl_directives f) k t (CNamed [ce_name e] []) -> exists m s, t = CNamed [m] [] /\ ident m /\ get m (type_symbols p) = Some s).
  { intros k0 t0 H. pose proof C as (_ & _ & Id & _). remember (CNamed [ce_name e] []) as t' eqn:Et. destruct H as [t0|k0 n0 t0 t' I H]; subst.
    - destruct (symbol_enum f p e C Ie) as (j & Gj & _). exists (ce_name e), (SyEnum j). split; [reflexivity|]. split; [eapply declared_ident; [exact Id|exact Ie|now left]|exact Gj].
    - exists n0. eexists. split; [reflexivity|]. split; [exact (declared_ident _ _ n0 Id I (or_introl eq_refl))|exact (symbol_declared f p (CSubtype t0 n0) n0 _ C I (or_introl eq_refl) eq_refl)]. }
  destruct (N _ _ St) as (m1 & s1 & -> & I1 & G1). destruct (N _ _ Sm) as (m2 & s2 & Q & _ & G2). injection Q as <-.
  rewrite (single m1 I1) in G. unfold go_type_of, tyref_of, PackageGoType in G. cbn [tr_builtin tr_package tr_name] in G. rewrite String.eqb_refl, Pe in G. injection G as G.
  apply ExprCodeFacts.get_in in G1. apply ExprCodeFacts.get_in in G2. apply (in_map fst) in G1. apply (in_map fst) in G2. cbn [fst] in G1, G2.
  now rewrite (NoDup_map_inj _ _ D _ _ G1 G2 G).
Qed.

Lemma bool_code : forall f p scope E index i, coded f p -> (forall j, index = Some j -> j = i) ->
  forall e b, is_bool (cfl_directives f) scope E index e b ->
  forall invoke m a s, to_mexpr (visit_expr e) = Some m -> forallb (known_name p scope) (MembersSpec.names m) = true -> outcome p scope invoke m = MOk a s ->
  checked (genv_of p scope) a -> holds (genv_of p scope) (gstate_of p scope E i) a b.
Proof.
  intros f p scope E index i C Ix e b H.
  assert (Logic : forall both e1 e2 x y, 
    (forall invoke m a s, to_mexpr (visit_expr e1) = Some m -> forallb (known_name p scope) (MembersSpec.names m) = true -> outcome p scope invoke m = MOk a s ->
       checked (genv_of p scope) a -> holds (genv_of p scope) (gstate_of p scope E i) a x) ->
    (x = both -> forall invoke m a s, to_mexpr (visit_expr e2) = Some m -> forallb (known_name p scope) (MembersSpec.names m) = true -> outcome p scope invoke m = MOk a s ->
       checked (genv_of p scope) a -> holds (genv_of p scope) (gstate_of p scope E i) a y) ->
    (x <> both -> y = x) ->
    forall invoke m a s, lift2 (MLogic both) (to_mexpr (visit_expr e1)) (to_mexpr (visit_expr e2)) = Some m -> forallb (known_name p scope) (MembersSpec.names m) = true -> outcome p scope invoke m = MOk a s ->
       checked (genv_of p scope) a -> holds (genv_of p scope) (gstate_of p scope E i) a y).
  { intros both e1 e2 x y IH1 IH2 Hy invoke m a s T K Ev Ck. unfold lift2 in T.
    destruct (to_mexpr (visit_expr e1)) as [m1|]; [|discriminate]. destruct (to_mexpr (visit_expr e2)) as [m2|]; [|discriminate]. injection T as <-.
    cbn [MembersSpec.names] in K. rewrite forallb_app in K. apply andb_prop in K. destruct K as (K1 & K2).
    unfold outcome in Ev. cbn [eval_mexpr] in Ev. unfold operator2 in Ev. destruct (eval_mexpr invoke _ _ _ m1) as [ea sa|] eqn:Ea; [|discriminate]. destruct (eval_mexpr invoke _ _ _ m2) as [eb sb|] eqn:Eb; [|discriminate].
    destruct (eval_logic both (r_full (res ea) && r_full (res eb)) (res ea) (res eb)) as (r, st) eqn:En. destruct st; try discriminate. injection Ev as <- _.
    assert (Fr : r_full r = r_full (res ea) && r_full (res eb)).
    { unfold eval_logic in En. repeat match type of En with (match ?d with _ => _ end) = _ => destruct d; try discriminate end; injection En as <-; reflexivity. }
    assert (Cab : checked (genv_of p scope) ea /\ checked (genv_of p scope) eb).
    { destruct Ck as [Ck|Ck].
      - cbn [res] in Ck. rewrite Fr in Ck. apply andb_prop in Ck. split; left; apply Ck.
      - destruct (r_full r) eqn:Frr; [symmetry in Fr; apply andb_prop in Fr; split; left; apply Fr|]. cbn [raw res] in Ck. rewrite Frr in Ck. apply bin_checked in Ck. split; right; apply Ck. }
    destruct Cab as (Ca & Cb). exact (holds_logic _ _ both ea eb r x y (IH1 invoke m1 ea sa eq_refl K1 Ea Ca) (fun Q => IH2 Q invoke m2 eb sb eq_refl K2 Eb Cb) Hy En). }
  induction H as [b|x t read b M V Ty R|o e1 e2 x y c H1 H2 O|o x t read en me n g z y c M V He Hm It Hg Gv R O|e x H IH|e x H IH|e1 e2 x H1 IH1 H2 IH2|e1 e2 H1 IH1|e1 e2 x H1 IH1 H2 IH2|e1 e2 H1 IH1].
  - intros invoke m a s T K Ev Ck. destruct b; injection T as <-; unfold outcome in Ev; cbn [eval_mexpr] in Ev; injection Ev as <- _; apply holds_full; reflexivity.
  - intros invoke m a s T K Ev Ck. cbn [visit_expr to_mexpr] in T. injection T as <-. cbn [MembersSpec.names forallb] in K. rewrite andb_true_r in K. destruct Ty as (k & Lk & St).
    pose proof (member_ident f p scope x t false read k _ "bool" 0 C M V K Lk St eq_refl invoke a s Ev) as ->.
    destruct (coded_kind f p scope k t _ "bool" 0 "bool" KBool C Lk St eq_refl eq_refl eq_refl) as (go & Gt & Kd).
    destruct (member_code f p scope x t false read C M V K) as (sl & sy & Sl & Tsl & Asl & Rsl & _). rewrite <- Tsl in Gt.
    destruct (slot_path p scope (title x) sl go Sl Asl Gt) as (P1 & P2). split; [reflexivity|]. split; [discriminate|].
    intros _. cbn [raw res open_result r_full geval]. rewrite P2, Kd, (Rsl E _ R). reflexivity.
  - intros invoke m a s T K Ev Ck. destruct (compare_of_bop o x y c O) as (op & To & <-). rewrite To in T. clear To. unfold lift2 in T.
    destruct H1 as (lo1 & hi1 & Lo1 & Hi1 & H1). destruct H2 as (lo2 & hi2 & Lo2 & Hi2 & H2).
    destruct (to_mexpr (visit_expr e1)) as [m1|] eqn:T1; [|discriminate]. destruct (to_mexpr (visit_expr e2)) as [m2|] eqn:T2; [|discriminate]. injection T as <-.
    cbn [MembersSpec.names] in K. rewrite forallb_app in K. apply andb_prop in K. destruct K as (K1 & K2).
    unfold outcome in Ev. cbn [eval_mexpr] in Ev. unfold operator2 in Ev. destruct (eval_mexpr invoke _ _ _ m1) as [ea sa|] eqn:Ea; [|discriminate]. destruct (eval_mexpr invoke _ _ _ m2) as [eb sb|] eqn:Eb; [|discriminate].
    destruct (eval_compare op (r_full (res ea) && r_full (res eb)) (res ea) (res eb)) as (r, st) eqn:En. destruct st; try discriminate. injection Ev as <- _.
    assert (Fr : r_full r = r_full (res ea) && r_full (res eb)).
    { unfold eval_compare in En. repeat match type of En with (match ?d with _ => _ end) = _ => destruct d; try discriminate end; injection En as <-; reflexivity. }
    assert (Cab : checked (genv_of p scope) ea /\ checked (genv_of p scope) eb).
    { destruct Ck as [Ck|Ck].
      - cbn [res] in Ck. rewrite Fr in Ck. apply andb_prop in Ck. split; left; apply Ck.
      - destruct (r_full r) eqn:Frr; [symmetry in Fr; apply andb_prop in Fr; split; left; apply Fr|]. cbn [raw res] in Ck. rewrite Frr in Ck. apply bin_checked in Ck. destruct Ck as (Q1 & Q2).
        split; right; eapply cast_checked; eassumption. }
    destruct Cab as (Ca & Cb).
    destruct (int_code f p scope E index i lo1 hi1 C Lo1 Hi1 Ix e1 x H1 invoke m1 ea sa T1 K1 Ea Ca) as (X1 & _).
    destruct (int_code f p scope E index i lo2 hi2 C Lo2 Hi2 Ix e2 y H2 invoke m2 eb sb T2 K2 Eb Cb) as (X2 & _).
    exact (holds_compare _ _ op ea eb r _ _ _ _ x y X1 X2 En).
  - intros invoke m a s T K Ev Ck. destruct (compare_of_bop o z y c O) as (op & To & <-). rewrite To in T. clear To. cbn [visit_expr to_mexpr lift2] in T. injection T as <-.
    cbn [MembersSpec.names forallb app] in K. apply andb_prop in K. destruct K as (K & _).
    exact (item_compare f p scope E i op x t read en me n g z y C M V He Hm It Hg Gv R K invoke a s Ev).
  - intros invoke m a s T K Ev Ck. cbn [visit_expr to_mexpr unary_of lift1] in T. destruct (to_mexpr (visit_expr e)) as [m'|]; [|discriminate]. injection T as <-. cbn [MembersSpec.names] in K.
    unfold outcome in Ev. cbn [eval_mexpr] in Ev. unfold operator1 in Ev. destruct (eval_mexpr invoke _ _ _ m') as [ea sa|] eqn:Ea; [|discriminate].
    destruct (eval_not (r_full (res ea)) (res ea)) as (r, st) eqn:En. destruct st; try discriminate. injection Ev as <- _.
    assert (Fr : r_full r = r_full (res ea)).
    { unfold eval_not in En. repeat match type of En with (match ?d with _ => _ end) = _ => destruct d; try discriminate end; injection En as <-; reflexivity. }
    apply holds_not; [|exact En]. apply (IH invoke m' ea sa eq_refl K Ea).
    destruct Ck as [Ck|Ck]; [left; cbn in Ck; congruence|]. destruct (r_full (res ea)) eqn:Fa; [left; exact Fa|]. right. cbn [raw res] in Ck. rewrite Fr in Ck. intros Q. apply Ck. cbn [check]. now rewrite Q.
  - intros invoke m a s T K Ev Ck. cbn [visit_expr to_mexpr unary_of lift1] in T. destruct (to_mexpr (visit_expr e)) as [m'|]; [|discriminate]. injection T as <-. cbn [MembersSpec.names] in K.
    unfold outcome in Ev. cbn [eval_mexpr] in Ev. unfold operator1 in Ev. destruct (eval_mexpr invoke _ _ _ m') as [ea sa|] eqn:Ea; [|discriminate].
    destruct (eval_paren (r_full (res ea)) (res ea)) as (r, st) eqn:En. destruct st; try discriminate. injection Ev as <- _.
    assert (Fr : r_full r = r_full (res ea)) by (unfold eval_paren in En; injection En as <-; reflexivity).
    apply holds_paren; [|exact En]. apply (IH invoke m' ea sa eq_refl K Ea).
    destruct Ck as [Ck|Ck]; [left; cbn in Ck; congruence|]. destruct (r_full (res ea)) eqn:Fa; [left; exact Fa|]. right. cbn [raw res] in Ck. rewrite Fr in Ck. exact Ck.
  - exact (Logic true e1 e2 true x IH1 (fun _ => IH2) (fun Q => match Q eq_refl with end)).
  - apply (Logic true e1 e2 false false IH1); [discriminate|reflexivity].
  - exact (Logic false e1 e2 false x IH1 (fun _ => IH2) (fun Q => match Q eq_refl with end)).
  - apply (Logic false e1 e2 true true IH1); [discriminate|reflexivity].
Qed.

(** ** The code runs to the value *)

Lemma go_tree_parts : forall p scope idx x t, go_tree p scope idx x = Some t ->
  exists m a invoke s, to_mexpr x = Some m /\ forallb (known_name p scope) (MembersSpec.names m) = true /\ outcome p scope invoke m = MOk a s /\ evaluated p scope m = Some a /\ readable a = true /\ raw a = t.
Proof.
  intros p scope idx x t H. unfold go_tree in H. destruct (to_mexpr x) as [m|]; [|discriminate]. destruct (forallb (known_name p scope) (MembersSpec.names m)) eqn:K; [|discriminate].
  cbn [andb] in H. destruct (idx || negb (uses_index m)); [|discriminate]. destruct (evaluated p scope m) as [a|] eqn:Ev; [|discriminate]. destruct (readable a) eqn:R; [|discriminate]. injection H as <-.
  destruct (evaluated_outcome p scope m a Ev) as (invoke & s & O). exists m, a, invoke, s. auto 9.
Qed.
Lemma go_tree_index : forall p scope x t, go_tree p scope false x = Some t -> go_tree p scope true x = Some t.
Proof.
  intros p scope x t H. unfold go_tree in *. destruct (to_mexpr x) as [m|]; [|discriminate]. destruct (forallb _ _); [|discriminate]. cbn [andb orb] in *. destruct (negb _); [exact H|discriminate].
Qed.

Theorem run_int : forall f p scope E index i e z t idx, coded f p -> (forall j, index = Some j -> j = i) -> is_int (cfl_directives f) scope E index e z ->
  go_tree p scope idx (visit_expr e) = Some t -> check (genv_of p scope) t <> None -> geval (genv_of p scope) (gstate_of p scope E i) t = Some (GI z).
Proof.
  intros f p scope E index i e z t idx C Ix (lo & hi & Lo & Hi & H) T Ck. destruct (go_tree_parts _ _ _ _ _ T) as (m & a & invoke & s & Tm & K & O & _ & _ & <-).
  destruct (int_code f p scope E index i lo hi C Lo Hi Ix e z H invoke m a s Tm K O (or_intror Ck)) as ((_ & _ & _ & _ & X) & _). auto.
Qed.
Theorem run_bool : forall f p scope E index i e b t idx, coded f p -> (forall j, index = Some j -> j = i) -> is_bool (cfl_directives f) scope E index e b ->
  go_tree p scope idx (visit_expr e) = Some t -> check (genv_of p scope) t <> None -> geval (genv_of p scope) (gstate_of p scope E i) t = Some (GB b).
Proof.
  intros f p scope E index i e b t idx C Ix H T Ck. destruct (go_tree_parts _ _ _ _ _ T) as (m & a & invoke & s & Tm & K & O & _ & _ & <-).
  destruct (bool_code f p scope E index i C Ix e b H invoke m a s Tm K O (or_intror Ck)) as (_ & _ & X). auto.
Qed.

(** ** The expressions of a file *)

Definition of_type (t : cfieldtype) (y : Visitor.field) : Prop :=
  f_type y = visit_inst (ft_inst t) /\ is_array y = (match ft_range t with Some _ => true | None => false end) /\
  (forall len, ft_range t = Some len -> exists a, f_array y = Some a /\ a_length a = visit_opt len).
Lemma choice_field_type : forall c y, visit_choice_field c = Some y -> of_type (ccf_type c) y.
Proof.
  intros c y H. unfold visit_choice_field, visit_field_type in H. destruct (ft_range (ccf_type c)) as [len|] eqn:R; [destruct (ft_implicit (ccf_type c)); [discriminate|]|];
    injection H as <-; (split; [reflexivity|]); (split; [now rewrite R|]); rewrite R; intros l E; [injection E as <-; cbn; eauto|discriminate].
Qed.
Lemma field_of_type : forall c y, visit_field c = Some y -> of_type (cf_type c) y.
Proof. intros c y H. destruct (visited_field c y H) as (_ & A & B & _ & _ & D). repeat split; assumption. Qed.
Lemma visited_in : forall {A B} (v : A -> option B) l r x, visit_all v l = Some r -> In x l -> exists y, v x = Some y /\ In y r.
Proof.
  intros A B v l r x H I. apply In_nth_error in I. destruct I as (i & I). destruct (visit_nth v l r i x H I) as (y & Y & N). exists y. split; [exact Y|]. eapply nth_error_In; eassumption.
Qed.

Lemma used_field : forall f p scope t, coded f p -> used (cfl_directives f) scope t -> exists y, field_ok p scope y = true /\ of_type t y.
Proof.
  intros f p scope t C [s c I N F|u c I N F|c l cf I N F|c cf I N F].
  - destruct (coded_struct f p s C I) as (sd & Vs & _ & _ & Ok). unfold visit_struct in Vs. destruct (visit_all visit_field (cs_fields s)) eqn:Va; [|discriminate]. injection Vs as <-.
    destruct (visited_in _ _ _ _ Va F) as (y & Vy & Iy). exists y. split; [|now apply field_of_type]. unfold struct_ok in Ok. cbn [s_fields s_name] in Ok. rewrite !andb_true_iff in Ok.
    destruct Ok as (_ & Ok). rewrite forallb_forall in Ok. rewrite <- N. now apply Ok.
  - destruct (coded_union f p u C I) as (sd & Vs & _ & _ & _ & Ok). unfold visit_union in Vs. destruct (visit_all visit_choice_field (cu_fields u)) eqn:Va; [|discriminate]. injection Vs as <-.
    destruct (visited_in _ _ _ _ Va F) as (y & Vy & Iy). exists y. split; [|now apply choice_field_type]. unfold union_ok in Ok. cbn [u_fields u_name] in Ok. rewrite !andb_true_iff in Ok.
    destruct Ok as (_ & Ok). rewrite forallb_forall in Ok. rewrite <- N. now apply Ok.
  - destruct (coded_choice f p c C I) as (sd & Vs & _ & Ok). unfold visit_choice in Vs. destruct (visit_all visit_case (cc_cases c)) eqn:Va; [|discriminate].
    destruct (match cc_default c with None => _ | Some f => _ end); [|discriminate]. injection Vs as <-.
    destruct (visited_in _ _ _ _ Va F) as (y & Vy & Iy). unfold visit_case in Vy. cbn [fst snd] in Vy. destruct (visit_choice_field cf) as [y'|] eqn:Vc; [|discriminate]. injection Vy as <-.
    exists y'. split; [|now apply choice_field_type]. unfold choice_ok in Ok. cbn [c_cases c_name] in Ok. rewrite !andb_true_iff in Ok. destruct Ok as ((_ & Ok) & _). rewrite forallb_forall in Ok.
    specialize (Ok _ Iy). unfold case_ok in Ok. cbn [fst snd whole] in Ok. rewrite andb_true_iff in Ok. rewrite <- N. apply Ok.
  - destruct (coded_choice f p c C I) as (sd & Vs & _ & Ok). unfold visit_choice in Vs. destruct (visit_all visit_case (cc_cases c)) eqn:Va; [|discriminate]. rewrite F in Vs.
    unfold visit_case in Vs. cbn [fst snd] in Vs. destruct (visit_choice_field cf) as [y'|] eqn:Vc; [|discriminate]. injection Vs as <-.
    exists y'. split; [|now apply choice_field_type]. unfold choice_ok in Ok. cbn [c_default c_name whole] in Ok. rewrite !andb_true_iff in Ok. destruct Ok as (_ & Ok).
    unfold case_ok in Ok. cbn [fst snd whole] in Ok. rewrite andb_true_iff in Ok. rewrite <- N. apply Ok.
Qed.

Definition runs (p : pkg) (scope : string) (idx : bool) (x : Visitor.expr) : Prop := exists t, go_tree p scope idx x = Some t /\ check (genv_of p scope) t <> None.
Lemma converts_runs : forall p scope idx x go, converts p scope idx x go = true -> runs p scope idx x.
Proof.
  intros p scope idx x go H. unfold converts in H. destruct (go_tree p scope idx x) as [t|] eqn:T; [|discriminate]. exists t. split; [exact T|]. destruct (check (genv_of p scope) t); [discriminate|discriminate H].
Qed.
Lemma field_ok_parts : forall p scope y, field_ok p scope y = true ->
  (forall x, ti_length (f_type y) = Some x -> runs p scope false x) /\ (forall a x, f_array y = Some a -> a_length a = Some x -> runs p scope false x) /\
  (forall x, f_if y = Some x -> runs p scope false x) /\ args_ok p scope (is_array y) (f_type y) = true.
Proof.
  intros p scope y H. unfold field_ok in H. rewrite !andb_true_iff in H. destruct H as (((((H1 & H2) & H3) & H4) & _) & _). repeat split.
  - intros x E. rewrite E in H1. exact (converts_runs _ _ _ _ _ H1).
  - intros a x E1 E2. rewrite E1 in H2. cbn [whole] in H2. rewrite E2 in H2. exact (converts_runs _ _ _ _ _ H2).
  - intros x E. rewrite E in H3. exact (converts_runs _ _ _ _ _ H3).
  - exact H4.
Qed.
Lemma length_runs : forall f p scope e, coded f p -> length_in (cfl_directives f) scope e -> runs p scope false (visit_expr e).
Proof.
  intros f p scope e C (t & U & H). destruct (used_field f p scope t C U) as (y & Ok & Ty & _ & Ar). destruct (field_ok_parts _ _ _ Ok) as (L & A & _ & _). destruct H as [H|H].
  - apply L. rewrite Ty. unfold visit_inst. now rewrite H.
  - destruct (Ar _ H) as (a & Ea & La). exact (A a _ Ea La).
Qed.
Lemma condition_runs : forall f p scope e, coded f p -> condition_in (cfl_directives f) scope e -> runs p scope false (visit_expr e).
Proof.
  intros f p scope e C (s & c & I & N & F & H). destruct (coded_struct f p s C I) as (sd & Vs & _ & _ & Ok). unfold visit_struct in Vs. destruct (visit_all visit_field (cs_fields s)) eqn:Va; [|discriminate]. injection Vs as <-.
  destruct (visited_in _ _ _ _ Va F) as (y & Vy & Iy). unfold struct_ok in Ok. cbn [s_fields s_name] in Ok. rewrite !andb_true_iff in Ok.
  destruct Ok as (_ & Ok). rewrite forallb_forall in Ok. specialize (Ok y Iy). rewrite N in Ok. destruct (field_ok_parts _ _ _ Ok) as (_ & _ & L & _). apply L.
  destruct (visited_field c y Vy) as (_ & _ & _ & _ & -> & _). now rewrite H.
Qed.
Lemma combine_map : forall {A B A' B'} (g : A -> A') (h : B -> B') l m, combine (map g l) (map h m) = map (fun x => (g (fst x), h (snd x))) (combine l m).
Proof. intros A B A' B' g h l. induction l as [|x l IH]; intros [|y m]; cbn; congruence. Qed.
Lemma argument_runs : forall f p scope array q e, coded f p -> argument_in (cfl_directives f) scope array q e ->
  runs p scope array (visit_expr e) /\ go_type_of p (visit_type (fst q)) <> None.
Proof.
  intros f p scope array q e C (t & k & n & params & es & U & -> & Ps & Lk & St & Hp & Le & I). destruct (used_field f p scope t C U) as (y & Ok & Ty & Ar & _).
  destruct (field_ok_parts _ _ _ Ok) as (_ & _ & _ & A). rewrite Ar, Ty in A. unfold args_ok, visit_inst in A. rewrite Ps in A. cbn [ti_args ti_ref] in A. rewrite map_map in A. cbn [visit_arg] in A.
  destruct es as [|e0 es]; [destruct params; destruct I|]. cbn [map] in A. change (visit_expr e0 :: map (fun x => visit_expr x) es) with (map visit_expr (e0 :: es)) in A.
  pose proof C as (Vf & Of & Id & _). destruct (declared_params f p n params Vf Of Hp) as (Fs & Pp & Dn).
  pose proof (original f p k (ci_type (ft_inst t)) (CNamed [n] []) (101 - k) false Vf Of Id St) as O. replace (k + (101 - k))%nat with 101%nat in O by lia. rewrite O in A. clear O.
  assert (In_ : ident n) by (apply in_flat_map in Dn; destruct Dn as (d & D1 & D2); exact (declared_ident _ d n Id D1 D2)).
  rewrite (single n In_) in A. destruct (101 - k)%nat as [|fuel] eqn:Fu; [lia|]. cbn [GetOriginalType] in A. rewrite Fs, Pp in A.
  rewrite combine_map, forallb_forall in A. specialize (A _ (in_map _ _ _ I)). cbn [fst snd] in A. unfold arg_ok in A. cbn [visit_param snd] in A.
  destruct (go_type_of p (visit_type (fst q))) as [go|]; [|discriminate]. split; [exact (converts_runs _ _ _ _ _ A)|discriminate].
Qed.
Lemma label_runs : forall f p c e, coded f p -> label_in (cfl_directives f) c e -> label_ok p (cc_name c) (visit_expr e) = true.
Proof.
  intros f p c e C (l & cf & I & F & H). destruct (coded_choice f p c C I) as (sd & Vs & _ & Ok). unfold visit_choice in Vs. destruct (visit_all visit_case (cc_cases c)) eqn:Va; [|discriminate].
  destruct (match cc_default c with None => _ | Some f => _ end); [|discriminate]. injection Vs as <-.
  destruct (visited_in _ _ _ _ Va F) as (y & Vy & Iy). unfold choice_ok in Ok. cbn [c_cases c_name] in Ok. rewrite !andb_true_iff in Ok. destruct Ok as ((_ & Ok) & _). rewrite forallb_forall in Ok.
  specialize (Ok _ Iy). unfold case_ok in Ok. rewrite andb_true_iff in Ok. destruct Ok as (Ok & _). rewrite forallb_forall in Ok. apply Ok.
  unfold visit_case in Vy. cbn [fst snd] in Vy. destruct cf as [cf|]; [destruct (visit_choice_field cf); [|discriminate]|]; injection Vy as <-; cbn [fst]; now apply in_map.
Qed.

(** An argument that is an enum. *)
Lemma run_enum : forall f p scope E i q e z t idx, coded f p -> enum_argument (cfl_directives f) scope E q e z -> go_tree p scope idx (visit_expr e) = Some t ->
  geval (genv_of p scope) (gstate_of p scope E i) t = Some (GI z) /\
  exists go, go_type_of p (visit_type q) = Some go /\ eval_convert (genv_of p scope) go (GI z) = Some (GI z).
Proof.
  intros f p scope E i q e z t idx C (x & tx & read & en & g & -> & M & V & He & Hq & Hg & Gv & R) T. destruct (go_tree_parts p scope idx _ t T) as (m & a & invoke & s & Tm & K & Ev & _ & _ & <-).
  cbn [visit_expr to_mexpr] in Tm. injection Tm as <-. cbn [MembersSpec.names forallb] in K. rewrite andb_true_r in K.
  destruct (member_code f p scope x tx false read C M V K) as (sl & sy & Sl & Tsl & Asl & Rsl & Mo & Mt & _).
  destruct (enum_code f p scope tx en g C He Hg) as (go & Gt & Kd). destruct He as (k & Lk & St & Ie). destruct (enum_means f p k tx en C Ie St) as (j & Nj & Mn).
  unfold outcome in Ev. cbn [eval_mexpr] in Ev.
  rewrite (own_member (menv_of p) (here p scope) (package_of p) scope x sy (tyref_of p (visit_type tx)) k _ (coded_searchable f p C) (here_scope p scope) Mo (coded_global f p x C V) Mt Mn) in Ev.
  rewrite (proj2 (Nat.leb_le k (MembersSpec.subtype_limit (MembersSpec.Declared (SyEnum j)))) Lk) in Ev. injection Ev as <- _.
  rewrite <- Tsl in Gt. destruct (slot_path p scope (title x) sl go Sl Asl Gt) as (P1 & P2). split.
  - cbn [raw res open_result r_full geval]. rewrite P2, Kd, (Rsl E _ R). cbn [go_value]. replace (representable g z) with true; [reflexivity|]. symmetry. apply Z.eqb_eq. now apply gconv_value.
  - destruct (enum_code f p scope q en g C Hq Hg) as (go' & Gq & Kq). exists go'. split; [exact Gq|]. unfold eval_convert. rewrite Kq. now rewrite (gconv_value g z Gv).
Qed.

(** The number of a label. *)
Lemma nth_param : forall (l : list cparam) t y, In (t, y) l -> exists i, nth_error l i = Some (t, y).
Proof. intros l t y H. now apply In_nth_error. Qed.
Lemma choice_selector : forall f p c t y, coded f p -> In (CChoice c) (cfl_directives f) -> In (t, y) (cc_params c) ->
  MembersSpec.member_of (menv_of p) (package_of p) (cc_name c) y (SyParameter (tyref_of p (visit_type t))).
Proof.
  intros f p c t y C I P. destruct (nth_param _ _ _ P) as (i & H). destruct (coded_choice f p c C I) as (sd & Vs & T1 & Ok). unfold choice_ok in Ok.
  repeat (apply andb_prop in Ok; destruct Ok as (Ok & ?)). match goal with X : distinctb _ = true |- _ => apply distinct_ok in X; rename X into D end.
  rewrite (map_app f_name), app_assoc, map_app in D. apply NoDup_left in D. apply NoDup_map_inv in D.
  assert (Q : nth_error (c_params sd) i = Some (y, visit_type t)).
  { unfold visit_choice in Vs. destruct (visit_all visit_case (cc_cases c)); [|discriminate]. destruct (match cc_default c with None => _ | Some f => _ end); [|discriminate]. injection Vs as <-. cbn. rewrite nth_error_map, H. reflexivity. }
  eexists. split; [cbn; rewrite String.eqb_refl; unfold members_of; rewrite T1; reflexivity|]. exact (member_get p (c_params sd) (case_fields sd) y _ D (param_symbol p _ _ i _ _ Q)).
Qed.
Lemma label_number : forall f p c e z y, coded f p -> In (CChoice c) (cfl_directives f) -> label_value (cfl_directives f) c e z -> label_of p (cc_name c) (visit_expr e) = Some y -> y = z.
Proof.
  intros f p c e z y C I H L. unfold label_of in L. destruct H as [k t z H|sel t en x z On V P He It].
  - cbn [visit_expr to_mexpr] in L. destruct (literal_mexpr k t) as [m|] eqn:Lm; [|discriminate]. pose proof (literal_int k t _ m H Lm) as ->. congruence.
  - cbn [visit_expr to_mexpr] in L. destruct (coded_choice f p c C I) as (cd & Vc & G & _). rewrite G in L. assert (Sc : c_selector cd = visit_expr (CId sel)).
    { unfold visit_choice in Vc. destruct (visit_all visit_case (cc_cases c)); [|discriminate]. destruct (match cc_default c with None => _ | Some f => _ end); [|discriminate]. injection Vc as <-. cbn. now rewrite On. }
    rewrite Sc in L. cbn [visit_expr to_mexpr] in L.
    destruct (EvaluateChoice (menv_of p) nowhere (package_of p) (cc_name c) (mkCh (MName sel) [[MName x]] [])) as [|(sw, zss)] eqn:Ec; [discriminate|].
    destruct He as (k & Lk & St & Ie). destruct (enum_means f p k t en C Ie St) as (j & Nj & Mn).
    assert (Pn : MembersSpec.plain_name (menv_of p) (package_of p) (tyref_of p (visit_type t))).
    { assert (Only : forall q, PackagesSpec.reach [package_of p] (package_of p) q -> q = package_of p).
      { intros q R. pose proof (PackagesFacts.reach_in [package_of p] (package_of p) q (or_introl eq_refl) R) as [<-|[]]. reflexivity. }
      inversion Mn as [|? ? q s0 B R Nq Dc|? ? q t' k' m B R Nq Dc]; subst; unfold MembersSpec.plain_name; rewrite B; pose proof (Only _ R) as ->; eexists (package_of p), _; (split; [left; split; [reflexivity|exact Dc]|exact Nq]). }
    destruct (choice_labels (menv_of p) nowhere (package_of p) (cc_name c) (mkCh (MName sel) [[MName x]] []) sel _ k _ sw zss (coded_searchable f p C) eq_refl (choice_selector f p c t sel C I P) (coded_global f p sel C V) Mn Pn Ec) as (_ & F).
    cbn [ch_labels] in F. inversion F as [|? zs ? zss' F1 F2]; subst. inversion F2; subst. inversion F1 as [|? w ? zs' F3 F4]; subst. inversion F4; subst. injection L as <-.
    destruct F3 as (k' & i' & r & [(Mn' & Gr)|(Mn' & Gr)] & ->).
    + assert (i' = j) as -> by (pose proof (means_unique _ _ _ _ _ (proj1 (coded_searchable f p C)) (or_introl eq_refl) Mn _ _ Mn'); congruence). exact (item_number p j en x z r Nj It Gr).
    + pose proof (means_unique _ _ _ _ _ (proj1 (coded_searchable f p C)) (or_introl eq_refl) Mn _ _ Mn'). discriminate.
Qed.

(** ** The reading of the generated code *)

Definition code_reading (p : pkg) : reading := mkM _ _
  (fun s e => m_int (go_meaning p) s (visit_expr e)) (fun s e => m_cond (go_meaning p) s (visit_expr e))
  (fun s q e => m_arg (go_meaning p) s (visit_param q) (visit_expr e)) (fun s e => m_label (go_meaning p) s (visit_expr e)).
Lemma code_agree : forall p, agree (code_reading p) (go_meaning p).
Proof. intros p. repeat split. Qed.

(** [I'] has the values of [I] in the file, and maybe more. *)
Definition related (ds : list cdirective) (I I' : reading) : Prop :=
  (forall scope e, length_in ds scope e -> more_expr (m_int I scope e) (m_int I' scope e)) /\
  (forall scope e, condition_in ds scope e -> more_cond (m_cond I scope e) (m_cond I' scope e)) /\
  (forall scope array q e, argument_in ds scope array q e -> forall E i, more (m_arg I scope q e E i) (m_arg I' scope q e E i)) /\
  (forall c e, label_in ds c e -> m_label I (cc_name c) e = m_label I' (cc_name c) e).

Theorem code_related : forall f p I, coded f p -> exact_reading (cfl_directives f) I -> related (cfl_directives f) I (code_reading p).
Proof.
  intros f p I C (X1 & X2 & X3 & X4). split; [|split; [|split]].
  - intros scope e L E z H. destruct (length_runs f p scope e C L) as (t & T & Ck). pose proof (X1 _ _ _ _ L H) as V.
    cbn [m_int code_reading go_meaning]. unfold go_run. rewrite T. rewrite (run_int f p scope E None 0 e z t false C ltac:(discriminate) V T Ck). reflexivity.
  - intros scope e L E z H. destruct (condition_runs f p scope e C L) as (t & T & Ck). pose proof (X2 _ _ _ _ L H) as V.
    cbn [m_cond code_reading go_meaning]. unfold go_run. rewrite T. rewrite (run_bool f p scope E None 0 e z t false C ltac:(discriminate) V T Ck). reflexivity.
  - intros scope array q e A E i v H. destruct (argument_runs f p scope array q e C A) as ((t & T & Ck) & _).
    assert (T' : go_tree p scope true (visit_expr e) = Some t) by (destruct array; [exact T|now apply go_tree_index]).
    assert (Ix : forall j, index_of array i = Some j -> j = i) by (unfold index_of; destruct array; congruence).
    cbn [m_arg code_reading go_meaning visit_param snd]. unfold go_run. rewrite T'. destruct (X3 _ _ _ _ _ _ _ A H) as [(z & g & -> & (k & t' & Lk & St & It) & Gv & V)|[(b & -> & (k & Lk & St) & V)|(z & -> & V)]].
    + rewrite (run_int f p scope E _ i e z t array C Ix V T Ck). destruct (int_builtin t' g It) as (n & bits & go' & Vt & G & F & _).
      destruct (coded_kind f p scope k (fst q) t' n bits go' (KInt g) C Lk St Vt G F) as (go & -> & Kd). unfold eval_convert. rewrite Kd. now rewrite (gconv_value g z Gv).
    + rewrite (run_bool f p scope E _ i e b t array C Ix V T Ck).
      destruct (coded_kind f p scope k (fst q) _ "bool" 0 "bool" KBool C Lk St eq_refl eq_refl eq_refl) as (go & -> & Kd). unfold eval_convert. rewrite Kd. reflexivity.
    + destruct (run_enum f p scope E i (fst q) e z t array C V T) as (-> & go & -> & Cv). now rewrite Cv.
  - intros c e L. pose proof (label_runs f p c _ C L) as Ok. cbn [m_label code_reading go_meaning]. unfold label_ok in Ok. destruct (label_of p (cc_name c) (visit_expr e)) as [y|] eqn:Lo; [|discriminate].
    pose proof (X4 _ _ L) as V. destruct L as (l & cf & Ic & _). symmetry. exact (label_number f p c e _ y C Ic V Lo).
Qed.

(** ** The two schemas of a file *)

Lemma more_refl : forall {A} (x : option A), more x x.
Proof. intros A x y H. exact H. Qed.
Lemma builtin_related : forall I I' scope t ps b, (forall e, ps = CLength e -> more_expr (m_int I scope e) (m_int I' scope e)) -> builtin_means I scope t ps b ->
  exists b', builtin_means I' scope t ps b' /\ more_basic b b'.
Proof.
  intros I I' scope t ps b R B. revert R. destruct B as [n b0 g H|signed w H|signed w g H N S|signed e]; intros R.
  - eexists. split; [exact (BM_keyword I' scope n b0 g H)|constructor].
  - eexists. split; [exact (BM_standard I' scope signed w H)|constructor].
  - eexists. split; [exact (BM_width I' scope signed w g H N S)|constructor]. intros E. apply more_refl.
  - eexists. split; [exact (BM_length I' scope signed e)|constructor]. exact (R e eq_refl).
Qed.
Lemma values_more : forall fs fs', Forall2 (fun (a b : env -> nat -> option value) => forall E i, more (a E i) (b E i)) fs fs' -> more_args (values_of fs) (values_of fs').
Proof.
  intros fs fs' F E i. unfold values_of. induction F as [|a b fs fs' H F IH]; [apply more_refl|]. intros l. cbn [map all_of]. specialize (H E i). destruct (a E i) as [v|]; [|discriminate].
  rewrite (H v eq_refl). destruct (all_of (map (fun g => g E i) fs)) as [l0|]; [|discriminate]. cbn. rewrite (IH l0 eq_refl). auto.
Qed.
Lemma type_related : forall ds I I' names scope t T cast, related ds I I' -> used ds scope t -> type_means I ds names scope (ft_inst t) T cast ->
  exists T', type_means I' ds names scope (ft_inst t) T' cast /\ more_type T T'.
Proof.
  intros ds I I' names scope t T cast (R1 & _ & R3 & _) U H. remember (ft_inst t) as i eqn:Ei. destruct H as [ty ps b B|k ty t' b K S B|k ty n ps i params fs K S P N A].
  - destruct (builtin_related I I' scope ty ps b) as (b' & B' & M); [|exact B|].
    + intros e E. apply R1. exists t. split; [exact U|]. left. rewrite <- Ei. exact E.
    + exists (TBasic b'). split; [now constructor|now constructor].
  - destruct (builtin_related I I' scope t' CNone b) as (b' & B' & M); [discriminate|exact B|]. exists (TBasic b'). split; [now apply TM_subtype with k t'|now constructor].
  - assert (X : exists fs', args_mean I' scope params ps fs' /\ more_args (values_of fs) (values_of fs')).
    { destruct A as [|params es fs Ne F L]; [exists []; split; [constructor|apply values_more; constructor]|].
      exists (map (fun pe => m_arg I' scope (fst pe) (snd pe)) (combine params es)). split; [constructor; [exact Ne| |exact L]; clear; induction (combine params es); constructor; auto|].
      apply values_more. assert (Q : forall q e, In (q, e) (combine params es) -> forall E i, more (m_arg I scope q e E i) (m_arg I' scope q e E i)).
      { intros q e Q. apply (R3 scope (match ft_range t with Some _ => true | None => false end) q e). exists t, k, n, params, es. rewrite <- Ei. repeat split; auto. }
      clear - F Q. induction F as [|[q e] a l fs H F IH]; [constructor|]. cbn [map fst snd] in *. constructor; [subst a; apply Q; now left|]. apply IH. intros q' e' J. apply Q. now right. }
    destruct X as (fs' & A' & M). exists (Schema.TRef i (values_of fs')). split; [now apply TM_declared with n params|now constructor].
Qed.
Lemma array_related : forall ds I I' scope t a, related ds I I' -> used ds scope t -> array_means I scope t a -> exists a', array_means I' scope t a' /\ more_option more_array a a'.
Proof.
  intros ds I I' scope t a (R1 & _) U H. destruct H as [p i t n|p t n|p t n e]; eexists; (split; [constructor|]); constructor; (split; [|reflexivity]); constructor.
  apply R1. eexists. split; [exact U|]. now right.
Qed.
Lemma field_related : forall ds I I' names s c F, related ds I I' -> In (CStruct s) ds -> In c (cs_fields s) -> field_means I ds names (cs_name s) c F ->
  exists F', field_means I' ds names (cs_name s) c F' /\ more_field F F'.
Proof.
  intros ds I I' names s c F R Is Ic H. destruct H as [c t a al cast T A L]. assert (U : used ds (cs_name s) (cf_type c)) by now apply U_struct with s.
  destruct (type_related ds I I' names _ _ t cast R U T) as (t' & T' & M1). destruct (array_related ds I I' _ _ a R U A) as (a' & A' & M2).
  eexists. split; [apply FM; eassumption|]. constructor; [exact M1|exact M2|]. unfold condition_means. destruct (cf_if c) as [e|] eqn:Ei; constructor. apply R. exists s, c. auto.
Qed.
Lemma member_related : forall ds I I' names scope c F, related ds I I' -> used ds scope (ccf_type c) -> member_means I ds names scope c F ->
  exists F', member_means I' ds names scope c F' /\ more_field F F'.
Proof.
  intros ds I I' names scope c F R U H. destruct H as [c t a cast T A].
  destruct (type_related ds I I' names _ _ t cast R U T) as (t' & T' & M1). destruct (array_related ds I I' _ _ a R U A) as (a' & A' & M2).
  eexists. split; [apply MM; eassumption|]. constructor; [exact M1|exact M2|constructor].
Qed.
Lemma slot_related : forall ds I I' names scope c F, related ds I I' -> (forall x, c = Some x -> used ds scope (ccf_type x)) -> slot_means I ds names scope c F ->
  exists F', slot_means I' ds names scope c F' /\ more_option more_field F F'.
Proof.
  intros ds I I' names scope c F R U H. destruct H as [|c F M]; [exists None; split; constructor|].
  destruct (member_related ds I I' names scope c F R (U _ eq_refl) M) as (F' & M' & X). exists (Some F'). split; now constructor.
Qed.
Lemma all_related : forall {A B} (P Q : A -> B -> Prop) (R : B -> B -> Prop) l m, (forall x y, In x l -> P x y -> exists z, Q x z /\ R y z) -> Forall2 P l m ->
  exists m', Forall2 Q l m' /\ Forall2 R m m'.
Proof.
  intros A B P Q R l m H F. induction F as [|x y l m Hp F IH]; [exists []; split; constructor|].
  destruct (H x y (or_introl eq_refl) Hp) as (z & Hq & Hr). destruct IH as (m' & F1 & F2); [intros a b I; apply H; now right|]. exists (z :: m'). split; now constructor.
Qed.
Lemma def_related : forall ds I I' names n D, related ds I I' -> def_means I ds names n D -> exists D', def_means I' ds names n D' /\ more_def D D'.
Proof.
  intros ds I I' names n D R H. destruct H as [s fs Is T F|u fs Iu T F|c x i cases d Ic T O Nd Nt V F G|e k t b Ie P K S B|m b Im P B].
  - destruct (all_related _ (field_means I' ds names (cs_name s)) more_field _ _ (fun x y J => field_related ds I I' names s x y R Is J) F) as (fs' & F1 & F2). exists (DStruct fs'). split; now constructor.
  - destruct (all_related _ (member_means I' ds names (cu_name u)) more_field _ _ (fun x y J => member_related ds I I' names _ x y R (U_union _ _ u x Iu eq_refl J)) F) as (fs' & F1 & F2). exists (DUnion fs'). split; now constructor.
  - assert (X : exists d', slot_means I' ds names (cc_name c) (match cc_default c with Some f => f | None => None end) d' /\ more_option more_field d d').
    { apply (slot_related ds I I' names _ _ d R); [|exact G]. intros y E. apply U_default with c; auto. destruct (cc_default c); congruence. }
    destruct X as (d' & G' & Md).
    assert (Y : exists cases', Forall2 (fun a b => fst b = map (m_label I' (cc_name c)) (fst a) /\ slot_means I' ds names (cc_name c) (snd a) (snd b)) (cc_cases c) cases' /\
      Forall2 (fun a b => fst a = fst b /\ more_option more_field (snd a) (snd b)) cases cases').
    { apply (all_related _ _ _ _ _) with (2 := F). intros (l, cf) (l', F0) J (E1 & E2). cbn [fst snd] in *. 
      destruct (slot_related ds I I' names (cc_name c) cf F0 R) as (F' & S' & M'); [intros y ->; now apply U_case with c l|exact E2|].
      exists (l', F'). cbn [fst snd]. split; [split; [|exact S']|split; [reflexivity|exact M']]. subst l'. apply map_ext_in. intros e He. apply R. exists l, cf. auto. }
    destruct Y as (cases' & F1 & F2). exists (DChoice (parameter i) cases' d'). split; [eapply DM_choice; eassumption|now constructor].
  - destruct (builtin_related I I' (ce_name e) t CNone b) as (b' & B' & M); [discriminate|exact B|]. exists (DScalar b'). split; [eapply DM_enum; eassumption|now constructor].
  - destruct (builtin_related I I' (cb_name m) (ci_type (cb_type m)) CNone b) as (b' & B' & M); [discriminate|exact B|]. exists (DScalar b'). split; [eapply DM_bitmask; eassumption|now constructor].
Qed.
Lemma file_related : forall f I I' names sch, related (cfl_directives f) I I' -> file_means I f names sch -> exists sch', file_means I' f names sch' /\ more_schema sch sch'.
Proof.
  intros f I I' names sch R (A & B & C & D & E & F).
  destruct (all_related _ (def_means I' (cfl_directives f) names) more_def _ _ (fun n d _ => def_related _ I I' names n d R) F) as (sch' & F1 & F2). exists sch'. split; [repeat (split; [assumption|])|]; assumption.
Qed.

(** The generated code does what the file says. *)
Theorem code_schema : forall I f p names sch, coded f p -> exact_reading (cfl_directives f) I -> file_means I f names sch ->
  exists code, compile (go_meaning p) p names = Some code /\ more_schema sch code.
Proof.
  intros I f p names sch C X H. destruct (file_related f I (code_reading p) names sch (code_related f p I C X) H) as (code & H' & M). exists code. split; [|exact M].
  destruct (file_compiled (code_reading p) (go_meaning p) f names code (code_agree p) H') as (v & Vf & E). destruct C as (Vp & _). congruence.
Qed.
Theorem text_code : forall I f ts s names sch code, file_ok true f -> file_written f ts -> text_of ts s -> file_means I f names sch -> exact_reading (cfl_directives f) I ->
  generate_code names s = Some code -> more_schema sch code.
Proof.
  intros I f ts s names sch code Ok W T H X G. unfold generate_code in G. rewrite (text_reads f ts s Ok W T) in G. destruct (visit_file f) as [p|] eqn:V; [|discriminate].
  destruct (code_ok p) eqn:K; [|discriminate]. assert (C : coded f p) by (destruct H as (_ & Q1 & Q2 & _); repeat split; assumption).
  destruct (code_schema I f p names sch C X H) as (code' & E & M). congruence.
Qed.

(** ** The text *)

Lemma knownb_ok : forall a, knownb a = true -> ExprPrintSpec.known a.
Proof.
  intros a H. unfold knownb, ExprPrintSpec.known in *. destruct (ExprPrint.symbol a) as [[go|]|]; [discriminate|discriminate H|]. destruct (r_native (res a)) as [t|]; [|exact I].
  destruct (AstTypes.GoType t); [discriminate|discriminate H].
Qed.
Lemma typedb_ok : forall r, typedb r = true -> match r_native r with Some t => AstTypes.GoType t <> None | None => True end.
Proof. intros r H. unfold typedb in H. destruct (r_native r) as [t|]; [|exact I]. destruct (AstTypes.GoType t); [discriminate|discriminate H]. Qed.
Lemma operandsb_ok : forall o a b x y, operandsb o a b x y = true ->
  (x = true \/ (prec o <= ExprPrintSpec.strength a)%nat) /\ (y = true \/ (prec o < ExprPrintSpec.strength b)%nat).
Proof.
  intros o a b x y H. unfold operandsb in H. apply andb_prop in H. destruct H as (H1 & H2). split; [apply orb_prop in H1|apply orb_prop in H2].
  - destruct H1 as [H1|H1]; [now left|right; now apply Nat.leb_le].
  - destruct H2 as [H2|H2]; [now left|right; now apply Nat.ltb_lt].
Qed.
Lemma readable_ok : forall a, readable a = true -> ExprPrintSpec.printable a /\ ExprPrintSpec.agree a.
Proof.
  induction a as [r|r|i go r|a IHa r|a IHa go r|a IHa i IHi r|a IHa d go r|a IHa b IHb r|a IHa r|a IHa r|a IHa r|m a IHa r|a IHa r|a IHa r|op a IHa b IHb r|op a IHa b IHb r|op a IHa b IHb r|both a IHa b IHb r|c IHc a IHa b IHb r];
    cbn [readable ExprPrintSpec.printable ExprPrintSpec.agree res]; intros H;
    (destruct (r_full r) eqn:F; [split; [unfold ExprPrintSpec.finite; destruct (r_type r); exact I || discriminate H|exact I]|]); try discriminate H; try (split; exact I); try exact (IHa H).
  - destruct i; [|discriminate|discriminate]. split; [discriminate|exact I].
  - destruct a; try discriminate H. destruct i as [|t|]; try discriminate H. destruct d as [item c| |]; try discriminate H. apply andb_prop in H. destruct H as (H1 & H2).
    apply negb_true_iff in H1. apply negb_true_iff in H2. cbn [res]. split; [split; [exact H1|exact H2]|]. cbn. now rewrite H1.
  - apply andb_prop in H. destruct H as (H1 & H2). apply Nat.leb_le in H2. destruct (IHa H1). repeat split; auto.
  - rewrite !andb_true_iff in H. destruct H as (((((A & B) & Ka) & Kb) & T) & O). destruct (IHa A), (IHb B).
    split; [split; [assumption|split; [assumption|split; [now apply knownb_ok|split; [now apply knownb_ok|now apply typedb_ok]]]]|split; [assumption|split; [assumption|exact (operandsb_ok _ _ _ _ _ O)]]].
  - rewrite !andb_true_iff in H. destruct H as (((((A & B) & Ka) & Kb) & T) & O). destruct (IHa A), (IHb B).
    split; [split; [assumption|split; [assumption|split; [now apply knownb_ok|split; [now apply knownb_ok|now apply typedb_ok]]]]|split; [assumption|split; [assumption|exact (operandsb_ok _ _ _ _ _ O)]]].
  - rewrite !andb_true_iff in H. destruct H as ((A & B) & O). destruct (IHa A), (IHb B). split; [split; assumption|split; [assumption|split; [assumption|exact (operandsb_ok _ _ _ _ _ O)]]].
Qed.

(** The text of an expression has one reading in Go, and that is its tree. *)
Theorem tree_text : forall p scope idx x t, go_tree p scope idx x = Some t ->
  exists m a ts, to_mexpr x = Some m /\ evaluated p scope m = Some a /\ print a = Some ts /\ go_expression ts t /\ forall t', go_expression ts t' -> t' = t.
Proof.
  intros p scope idx x t H. destruct (go_tree_parts _ _ _ _ _ H) as (m & a & _ & _ & Tm & _ & _ & Ev & R & <-). destruct (readable_ok a R) as (P & A).
  exists m, a, (flatten (raw a)). split; [exact Tm|]. split; [exact Ev|]. split; [exact (print_flatten a P)|].
  assert (G : go_expression (flatten (raw a)) (raw a)) by (apply wf_parses; [now apply raw_wf|]; pose proof (top_range (raw a)); lia).
  split; [exact G|]. intros t' G'. exact (parse_unique _ _ _ G' G).
Qed.
