(** Proofs about the types and values of generated expressions. *)

Require Import ZArith String List Bool Lia ZifyBool.
From Verif Require Import Bits BitsFacts Stream Scalars Traits HonestFacts AstExpr AstTypes AstTypesSpec AstTypesThms GoSyntax GoSyntaxFacts
  ExprPrint ExprPrintSpec ExprPrintFacts GoTypes GoTypesSpec.
Import ListNotations.
Open Scope Z_scope.

(** ** Values *)

Lemma gconv_value : forall g z, gvalue g z -> gconv g z = z.
Proof.
  intros [w|w] z H; cbn in *.
  - unfold to_u, in_u in *. apply Z.mod_small. lia.
  - unfold in_s in H. assert (0 < w); [|now apply to_s_small].
    destruct (Z_lt_le_dec 0 w) as [|L]; [assumption|]. rewrite (Z.pow_neg_r 2 (w - 1)) in H by lia. lia.
Qed.

Definition sized (g : gotype) : Prop := match g with GU w | GS w => 0 < w end.
Lemma gconv_range : forall g z, sized g -> gvalue g (gconv g z).
Proof.
  intros [w|w] z H; cbn in *.
  - unfold to_u, in_u. apply Z.mod_pos_bound. lia.
  - unfold in_s. now apply to_s_range.
Qed.

Lemma kind_sized : forall D S t g, state_ok D S -> int_kind D t = Some g -> sized g.
Proof.
  intros D S t g (_ & _ & _ & _ & W & _) H. unfold int_kind, kind_of in H.
  assert (P : forall k, find_name t predeclared = Some k -> match k with KInt g => sized g | KBool => True end).
  { unfold predeclared. cbn [find_name]. repeat match goal with |- context [if ?c then _ else _] => destruct c end; intros k E; try discriminate E; injection E as <-; cbn; try lia; exact I. }
  destruct (find_name t predeclared) as [k|].
  - specialize (P k eq_refl). destruct k; [injection H as <-; exact P|discriminate].
  - destruct (g_types D t) as [[g'|]|] eqn:E; try discriminate. injection H as <-. destruct g' as [w|w]; apply (W t w); auto.
Qed.

(** ** The values of expressions have their types *)

Definition of_class (D : genv) (c : class) (v : gval) : Prop :=
  match c with
  | CInt z => v = GI z
  | CTest => exists b, v = GB b
  | CTyped t c => (kind_of D t <> None -> of_kind (kind_of D t) v) /\ match c with Some z => v = GI z | None => True end
  end.

Lemma int_class : forall D t c z g, int_kind D t = Some g -> gvalue g z -> match c with Some x => z = x | None => True end -> of_class D (CTyped t c) (GI z).
Proof.
  intros D t c z g H V C. unfold int_kind in H. cbn. destruct (kind_of D t) as [[g'|]|]; try discriminate. injection H as <-. split; [intros _; exact V|].
  destruct c; congruence.
Qed.
Lemma bool_class : forall D t b, is_bool D t = true -> of_class D (CTyped t None) (GB b).
Proof. intros D t b H. unfold is_bool in H. cbn. destruct (kind_of D t) as [[g'|]|]; try discriminate. split; [intros _; exact I|exact I]. Qed.
Lemma class_int : forall D t c v g, int_kind D t = Some g -> of_class D (CTyped t c) v -> exists z, v = GI z /\ gvalue g z.
Proof.
  intros D t c v g H (K & _). unfold int_kind in H. destruct (kind_of D t) as [[g'|]|]; try discriminate. injection H as <-.
  specialize (K ltac:(discriminate)). destruct v; [eauto|contradiction].
Qed.
Lemma class_constant : forall D c v z, of_class D c v -> constant c = Some z -> v = GI z.
Proof. intros D [x| |t [x|]] v z H E; cbn in *; try discriminate; injection E as <-; tauto. Qed.

Lemma representable_eq : forall g z, representable g z = true -> gconv g z = z.
Proof. intros g z H. unfold representable in H. lia. Qed.

Lemma convert_class : forall D f a c v w, (forall t g, int_kind D t = Some g -> sized g) ->
  convert D f a = Some c -> of_class D a v -> eval_convert D f v = Some w -> of_class D c w.
Proof.
  intros D f a c v w HS H A E. unfold convert in H. unfold eval_convert in E.
  destruct (kind_of D f) as [[g|]|] eqn:K; try discriminate; destruct v as [z|b]; try discriminate; injection E as <-.
  - assert (KI : int_kind D f = Some g) by (unfold int_kind; now rewrite K).
    assert (exists c', c = CTyped f c' /\ match c' with Some x => gconv g z = x | None => True end) as (c' & -> & C).
    { destruct a as [x| |t [x|]]; try discriminate.
      - destruct (representable g x) eqn:R; [injection H as <-|discriminate]. injection A as ->. exists (Some x). split; [reflexivity|]. now apply representable_eq.
      - destruct (representable g x) eqn:R; [injection H as <-|discriminate]. destruct A as (_ & A). injection A as ->. exists (Some x). split; [reflexivity|]. now apply representable_eq.
      - destruct (int_kind D t); [injection H as <-; exists None; auto|discriminate]. }
    apply (int_class D f c' _ g KI); [|exact C]. apply gconv_range. exact (HS f g KI).
  - assert (c = CTyped f None) as ->.
    { destruct a as [x| |t [x|]]; try discriminate; try congruence; destruct (is_bool D t); congruence. }
    apply bool_class. unfold is_bool. now rewrite K.
Qed.

Lemma typed_result_class : forall D t g o a b c vx vy z, int_kind D t = Some g -> sized g -> of_class D a (GI vx) -> of_class D b (GI vy) ->
  int_op o vx vy = Some z -> typed_result g t o a b = Some c -> of_class D c (GI (gconv g z)) /\ exists k, c = CTyped t k.
Proof.
  intros D t g o a b c vx vy z K HS A B O H. unfold typed_result in H.
  destruct (constant a) as [x|] eqn:Ca; [destruct (constant b) as [y|] eqn:Cb|].
  - apply (class_constant _ _ _ _ A) in Ca. apply (class_constant _ _ _ _ B) in Cb. injection Ca as ->. injection Cb as ->. rewrite O in H.
    destruct (representable g z) eqn:R; [|discriminate]. injection H as <-. split; [|eauto]. apply (int_class D t _ _ g K); [now apply gconv_range|now apply representable_eq].
  - injection H as <-. split; [|eauto]. apply (int_class D t None _ g K); [now apply gconv_range|exact I].
  - injection H as <-. split; [|eauto]. apply (int_class D t None _ g K); [now apply gconv_range|exact I].
Qed.

Lemma binary_class : forall D o a b c x y w, (forall t g, int_kind D t = Some g -> sized g) ->
  check_binary D o a b = Some c -> (forall v, x = Some v -> of_class D a v) -> (forall v, y = Some v -> of_class D b v) ->
  eval_binary D (Some c) o x y = Some w -> of_class D c w.
Proof.
  intros D o a b c x y w HS H A B E. unfold check_binary in H. unfold eval_binary in E. destruct (group_of o).
  - destruct x as [[vx|]|]; destruct y as [[vy|]|]; try discriminate. cbn in E. specialize (A _ eq_refl). specialize (B _ eq_refl).
    destruct (int_op o vx vy) as [z|] eqn:O; [cbn in E|discriminate]. destruct (divides o b); [|discriminate].
    destruct (common D a b) as [[k| |t k]|]; try discriminate.
    + destruct (constant a) as [x|] eqn:Ca; [|discriminate]. destruct (constant b) as [y|] eqn:Cb; [|discriminate].
      apply (class_constant _ _ _ _ A) in Ca. apply (class_constant _ _ _ _ B) in Cb. injection Ca as ->. injection Cb as ->. rewrite O in H. injection H as <-. injection E as <-. reflexivity.
    + destruct (int_kind D t) as [g|] eqn:G; [|discriminate]. destruct (typed_result_class D t g o a b c vx vy z G (HS t g G) A B O H) as (R & k' & ->).
      rewrite G in E. injection E as <-. exact R.
  - destruct x as [[vx|]|]; destruct y as [[vy|]|]; try discriminate. cbn in E. specialize (A _ eq_refl). specialize (B _ eq_refl).
    destruct (int_op o vx vy) as [z|] eqn:O; [cbn in E|discriminate]. destruct (shift_count D b); [|discriminate].
    destruct a as [x| |t k]; try discriminate.
    + destruct (constant b) as [y|] eqn:Cb; [|discriminate].
      apply (class_constant _ _ _ _ B) in Cb. injection Cb as ->. injection A as ->. rewrite O in H. injection H as <-. injection E as <-. reflexivity.
    + destruct (int_kind D t) as [g|] eqn:G; [|discriminate]. destruct (typed_result_class D t g o _ b c vx vy z G (HS t g G) A B O H) as (R & k' & ->).
      rewrite G in E. injection E as <-. exact R.
  - assert (c = CTest).
    { destruct (common D a b) as [[ | |t k]|]; try discriminate; [congruence|destruct o; congruence|]. destruct (kind_of D t) as [[|]|]; destruct o; congruence. }
    subst c. destruct x as [vx|]; [cbn in E|discriminate]. destruct y as [vy|]; [cbn in E|discriminate]. destruct vx, vy; try discriminate; injection E as <-; cbn; eauto.
  - assert (exists q, w = GB q) as (q & ->).
    { destruct x as [vx|]; [cbn in E|discriminate]. destruct (as_bool vx) as [p|]; [cbn in E|discriminate].
      destruct o, p; try (injection E as <-; eauto); destruct y as [vy|]; try discriminate; cbn in E; destruct (as_bool vy); try discriminate; injection E as <-; eauto. }
    destruct (common D a b) as [[ | |t k]|]; try discriminate; [injection H as <-; cbn; eauto|].
    destruct (is_bool D t) eqn:Bo; [|discriminate]. injection H as <-. now apply bool_class.
Qed.

Lemma len64_bound : forall v, 0 <= v < 2 ^ 64 -> 0 <= Scalars.NumBits v <= 64.
Proof.
  intros v H. destruct (Z_lt_le_dec v 2) as [L|L].
  - unfold Scalars.NumBits. destruct (v =? 0) eqn:E0; [lia|]. replace (v =? 1) with true by lia. lia.
  - destruct (NumBits_least v ltac:(lia)) as (A & B). split; [|apply B; lia].
    destruct (Z_lt_le_dec (Scalars.NumBits v) 0) as [N|N]; [|assumption]. rewrite Z.pow_neg_r in A by lia. lia.
Qed.
Lemma numbits_run : forall v, 0 <= v < 2 ^ 64 -> Scalars.NumBits v = numbits v.
Proof.
  intros v H. unfold numbits. destruct (v <=? 1) eqn:E.
  - unfold Scalars.NumBits. destruct (v =? 0) eqn:E0; [lia|]. replace (v =? 1) with true by lia. lia.
  - destruct (NumBits_least v ltac:(lia)) as (A & B). pose proof (len64_bound v H).
    pose proof (Z.log2_log2_up_spec v ltac:(lia)) as (C & F). pose proof (Z.log2_up_nonneg v).
    apply Z.le_antisymm; [apply B; lia|]. apply Z.log2_up_le_pow2; lia.
Qed.

Lemma numbits_class : forall D S a c v w, state_ok D S -> check_numbits a = Some c -> of_class D a v -> as_int v = Some w -> c = CTyped "int" None /\ 0 <= w < 2 ^ 64.
Proof.
  intros D S a c v w HS H A E. unfold check_numbits in H. destruct a as [x| |t k]; try discriminate.
  - destruct (representable (GU 64) x) eqn:R; [|discriminate]. injection H as <-. split; [reflexivity|]. cbn in A. subst v. injection E as <-.
    pose proof (gconv_range (GU 64) x ltac:(reflexivity)) as G. rewrite (representable_eq _ _ R) in G. exact G.
  - destruct (t =? "uint64")%string eqn:T; [|discriminate]. apply String.eqb_eq in T. subst t. injection H as <-. split; [reflexivity|].
    destruct (class_int D "uint64" k v (GU 64) eq_refl A) as (z & -> & G). injection E as <-. exact G.
Qed.

Lemma eval_class : forall D S, state_ok D S -> forall t c v, check D t = Some c -> geval D S t = Some v -> of_class D c v.
Proof.
  intros D S HS. pose proof (fun t g => kind_sized D S t g HS) as SZ. pose proof HS as (HP & HE & HL & HI & _ & HC).
  induction t as [n|l|a IHa|f IHf a IHa|f IHf|a IHa i IHi|a IHa n|a IHa|a IHa|o a IHa b IHb]; intros c v H E; cbn [check geval] in *.
  - destruct (n =? "index")%string.
    + injection H as <-. injection E as <-. apply (int_class D _ _ _ (GS 64)); [reflexivity| |exact I]. unfold gvalue, in_s. change (64 - 1) with 63. lia.
    + destruct (g_consts D n) as [[t z]|] eqn:G; [|discriminate]. cbn in E. injection H as <-. injection E as <-.
      destruct (HC n t z G) as (g & K & V). now apply (int_class D t _ z g).
  - destruct l; try discriminate; injection H as <-; injection E as <-; cbn; eauto.
  - eauto.
  - assert (CV : forall g, GoTypes.obind (check D a) (convert D g) = Some c -> GoTypes.obind (geval D S a) (eval_convert D g) = Some v -> of_class D c v).
    { intros g H1 H2. destruct (check D a) as [ca|] eqn:A; [cbn in H1|discriminate]. destruct (geval D S a) as [va|] eqn:B; [cbn in H2|discriminate].
      exact (convert_class D g ca c va v SZ H1 (IHa ca va eq_refl eq_refl) H2). }
    destruct f as [f|l|g|f0 f1|f0|f0 f1|f0 f1|f0|f0|o f0 f1]; try discriminate.
    + destruct (f =? "len")%string.
      { destruct (path a); [|discriminate]. destruct (g_elems D a); [|discriminate]. injection H as <-. injection E as <-. apply (int_class D _ _ _ (GS 64)); [reflexivity| |exact I].
        unfold gvalue, in_s. change (64 - 1) with 63. specialize (HL a). lia. }
      destruct (f =? "ztype.NumBits")%string; [|now apply (CV f)].
      destruct (check D a) as [ca|] eqn:A; [cbn in H|discriminate]. destruct (geval D S a) as [va|] eqn:B; [cbn in E|discriminate].
      destruct (as_int va) as [z|] eqn:Z; [cbn in E|discriminate]. injection E as <-.
      destruct (numbits_class D S ca c va z HS H (IHa ca va eq_refl eq_refl) Z) as (-> & R). pose proof (len64_bound z R).
      apply (int_class D _ _ _ (GS 64)); [reflexivity| |exact I]. unfold gvalue, in_s. change (64 - 1) with 63. lia.
    + destruct g as [f| | | | | | | | | ]; try discriminate. now apply (CV f).
  - destruct (path (GInvoke f)) eqn:P; [|discriminate]. destruct (g_paths D (GInvoke f)) as [t|] eqn:G; [|discriminate]. cbn in H. injection H as <-.
    split; [|exact I]. exact (HP _ _ _ G E).
  - destruct (path a); [|discriminate]. destruct (geval D S i) as [vi|]; [cbn in E|discriminate]. destruct (as_int vi) as [z|]; [cbn in E|discriminate].
    assert (exists t, g_elems D a = Some t /\ c = CTyped t None) as (t & G & ->).
    { destruct (check D i) as [[x| |t k]|]; try discriminate; [destruct (0 <=? x)|destruct (shift_count D (CTyped t k))]; try discriminate;
        (destruct (g_elems D a) as [ty|]; [|discriminate]); injection H as <-; eauto. }
    split; [|exact I]. exact (HE _ _ _ _ G E).
  - destruct (path (GSelect a n)) eqn:P; [|discriminate]. destruct (g_paths D (GSelect a n)) as [t|] eqn:G; [|discriminate]. cbn in H. injection H as <-.
    split; [|exact I]. exact (HP _ _ _ G E).
  - destruct (geval D S a) as [va|]; [cbn in E|discriminate]. destruct (as_bool va); [cbn in E|discriminate]. injection E as <-.
    destruct (check D a) as [[x| |t k]|] eqn:A; try discriminate.
    + injection H as <-. cbn. eauto.
    + destruct (is_bool D t) eqn:B; [|discriminate]. injection H as <-. now apply bool_class.
  - rewrite H in E. destruct (geval D S a) as [va|]; [cbn in E|discriminate]. destruct (as_int va) as [z|] eqn:Z; [cbn in E|discriminate].
    destruct (check D a) as [[x| |t k]|] eqn:A; try discriminate.
    + injection H as <-. injection E as <-. specialize (IHa _ _ eq_refl eq_refl). cbn in IHa. subst va. injection Z as ->. reflexivity.
    + specialize (IHa _ _ eq_refl eq_refl). destruct (int_kind D t) as [g|] eqn:G; [|discriminate].
      assert (exists k', c = CTyped t k' /\ match k' with Some x => gconv g (- z) = x | None => True end) as (k' & -> & C).
      { destruct k as [w|].
        - destruct (representable g (- w)) eqn:R; [|discriminate]. injection H as <-. exists (Some (- w)). split; [reflexivity|]. destruct IHa as (_ & ->). injection Z as ->. now apply representable_eq.
        - injection H as <-. exists None; auto. }
      rewrite G in E. injection E as <-. apply (int_class D t k' _ g G); [|exact C]. apply gconv_range. exact (SZ t g G).
  - destruct (check D a) as [ca|] eqn:A; [cbn in H|discriminate]. destruct (check D b) as [cb|] eqn:B; [cbn in H|discriminate]. cbn in E. rewrite H in E.
    refine (binary_class D o ca cb c _ _ v SZ H _ _ E); intros w W; [exact (IHa ca w eq_refl W)|exact (IHb cb w eq_refl W)].
Qed.

(** ** Values without overflow *)

Lemma path_strip : forall t, path t = true -> strip t = t.
Proof. induction t; cbn; intros H; try discriminate; try reflexivity; f_equal; auto. Qed.

Lemma fits_conv : forall D t k g z, result_fits D (Some (CTyped t k)) z -> int_kind D t = Some g -> gconv g z = z.
Proof. intros D t k g z F K. cbn in F. rewrite K in F. now apply gconv_value. Qed.

Lemma convert_exact : forall D S f a ca c va, check D a = Some ca -> of_class D ca va -> convert D f ca = Some c -> geval D S a = Some va ->
  (forall z, geval D S a = Some (GI z) -> result_fits D (Some c) z) -> eval_convert D f va = Some va.
Proof.
  intros D S f a ca c va A V H G F. unfold convert in H. unfold eval_convert.
  destruct (kind_of D f) as [[g|]|] eqn:K; try discriminate.
  - assert (KI : int_kind D f = Some g) by (unfold int_kind; now rewrite K).
    assert ((exists k, c = CTyped f k) /\ exists z, va = GI z) as ((k & ->) & z & ->).
    { destruct ca as [x| |t [x|]]; try discriminate.
      - destruct (representable g x); [injection H as <-|discriminate]. cbn in V. eauto.
      - destruct (representable g x); [injection H as <-|discriminate]. destruct V as (_ & V). eauto.
      - destruct (int_kind D t) as [g'|] eqn:E; [injection H as <-|discriminate]. destruct (class_int D t None va g' E V) as (z & -> & _). eauto. }
    specialize (F z G). now rewrite (fits_conv D f k g z F KI).
  - assert (exists b, va = GB b) as (b & ->); [|reflexivity].
    destruct ca as [x| |t k]; try discriminate; [exact V|]. destruct (is_bool D t) eqn:B; [|discriminate]. unfold is_bool in B. destruct V as (V & _).
    destruct (kind_of D t) as [[|]|]; try discriminate. specialize (V ltac:(discriminate)). destruct va; [contradiction|eauto].
Qed.

Lemma value_exact : forall D S, state_ok D S -> forall t c, check D t = Some c -> no_overflow D S t -> geval D S t = ideal D S (strip t).
Proof.
  intros D S HS. pose proof (eval_class D S HS) as EC.
  induction t as [n|l|a IHa|f IHf a IHa|f IHf|a IHa i IHi|a IHa n|a IHa|a IHa|o a IHa b IHb]; intros c H N.
  - reflexivity.
  - destruct l; reflexivity.
  - exact (IHa c H N).
  - assert (CV : forall g, GoTypes.obind (check D a) (convert D g) = Some c -> no_overflow D S a ->
      (forall z, geval D S a = Some (GI z) -> result_fits D (Some c) z) -> GoTypes.obind (geval D S a) (eval_convert D g) = ideal D S (strip a)).
    { intros g H1 H2 H3. destruct (check D a) as [ca|] eqn:A; [cbn in H1|discriminate]. rewrite <- (IHa ca eq_refl H2).
      destruct (geval D S a) as [va|] eqn:G; [|reflexivity]. cbn [GoTypes.obind]. exact (convert_exact D S g a ca c va A (EC a ca va A G) H1 G ltac:(rewrite G; exact H3)). }
    cbn [no_overflow] in N. rewrite H in N.
    destruct f as [f|l|g|f0 f1|f0|f0 f1|f0 f1|f0|f0|o f0 f1]; try discriminate H.
    + cbn [check geval strip] in *. destruct (f =? "len")%string eqn:L; cbn [orb].
      { cbn [ideal]. rewrite L. destruct (path a) eqn:P; [|discriminate]. now rewrite (path_strip a P). }
      assert (NL : f <> "len"%string) by (apply String.eqb_neq; exact L).
      destruct N as [N|(N & M)]; [congruence|]. destruct (f =? "ztype.NumBits")%string eqn:B.
      * cbn [ideal]. rewrite L, B. destruct (check D a) as [ca|] eqn:A; [cbn in H|discriminate]. rewrite <- (IHa ca eq_refl N).
        destruct (geval D S a) as [va|] eqn:G; [|reflexivity]. cbn [GoTypes.obind]. destruct (as_int va) as [z|] eqn:Z; [|reflexivity]. cbn [option_map].
        destruct (numbits_class D S ca c va z HS H (EC a ca va A G) Z) as (-> & R). now rewrite (numbits_run z R).
      * apply String.eqb_neq in B. destruct M as [M|M]; [congruence|]. exact (CV f H N M).
    + destruct g as [f| | | | | | | | | ]; try discriminate H. destruct N as [N|(N & [M|M])]; try discriminate. exact (CV f H N M).
  - cbn [check] in H. destruct (path (GInvoke f)) eqn:P; [|discriminate]. rewrite (path_strip _ P). reflexivity.
  - cbn [check] in H. destruct (path a) eqn:P; [|discriminate]. cbn [strip geval ideal]. rewrite (path_strip a P).
    destruct (check D i) as [ci|] eqn:C; [|discriminate]. now rewrite (IHi ci eq_refl N).
  - cbn [check] in H. destruct (path (GSelect a n)) eqn:P; [|discriminate]. rewrite (path_strip _ P). reflexivity.
  - cbn [check strip geval ideal] in *. destruct (check D a) as [ca|] eqn:C; [|discriminate]. now rewrite (IHa ca eq_refl N).
  - cbn [no_overflow] in N. destruct N as (N & F). rewrite H in F.
    assert (E : geval D S (GNeg a) = GoTypes.obind (geval D S a) (fun v => option_map (fun z => GI (- z)) (as_int v))).
    { cbn [geval]. change (check D (GNeg a)) with (check D (GNeg a)). rewrite H. destruct (geval D S a) as [va|] eqn:G; [|reflexivity]. cbn [GoTypes.obind].
      destruct va as [z|]; [|reflexivity]. cbn [as_int GoTypes.obind option_map]. specialize (F z eq_refl).
      cbn [check] in H. destruct (check D a) as [[x| |t k]|] eqn:A; try discriminate.
      - injection H as <-. reflexivity.
      - destruct (int_kind D t) as [g|] eqn:K; [|discriminate]. assert (exists k', c = CTyped t k') as (k' & ->).
        { destruct k as [w|]; [destruct (representable g (- w)); [|discriminate]|]; injection H as <-; eauto. }
        rewrite K. now rewrite (fits_conv D t k' g _ F K). }
    rewrite E. assert (exists ca, check D a = Some ca) as (ca & A) by (cbn [check] in H; destruct (check D a); [eauto|discriminate]).
    destruct (strip_neg a) as [-> | (l & l' & -> & _)].
    + cbn [ideal]. now rewrite (IHa ca A N).
    + destruct l; try discriminate; reflexivity.
  - cbn [no_overflow] in N. rewrite H in N. destruct N as (Na & N). cbn [strip geval ideal]. rewrite H. cbn [check] in H.
    destruct (check D a) as [ca|] eqn:A; [cbn [GoTypes.obind] in H|discriminate]. destruct (check D b) as [cb|] eqn:B; [cbn [GoTypes.obind] in H|discriminate].
    rewrite <- (IHa ca eq_refl Na). unfold eval_binary. unfold check_binary in H. destruct (group_of o) eqn:GO.
    + destruct N as (Nb & F). rewrite <- (IHb cb eq_refl Nb). destruct (geval D S a) as [va|]; [|reflexivity]. destruct (geval D S b) as [vb|]; [|reflexivity]. cbn [GoTypes.obind].
      destruct va as [x|]; [|reflexivity]. destruct vb as [y|]; [|reflexivity]. cbn [as_int GoTypes.obind]. destruct (int_op o x y) as [z|] eqn:O; [|reflexivity]. cbn [GoTypes.obind option_map].
      specialize (F x y z eq_refl eq_refl O). destruct (divides o cb); [|discriminate]. destruct (common D ca cb) as [[k| |t k]|]; try discriminate.
      * destruct (constant ca); [|discriminate]. destruct (constant cb); [|discriminate]. destruct (int_op o z0 z1); [|discriminate]. injection H as <-. reflexivity.
      * destruct (int_kind D t) as [g|] eqn:K; [|discriminate]. unfold typed_result in H. assert (exists k', c = CTyped t k') as (k' & ->).
        { destruct (constant ca) as [p|]; [destruct (constant cb) as [q|]; [destruct (int_op o p q) as [s|]; [destruct (representable g s)|]|]|]; try discriminate; injection H as <-; eauto. }
        rewrite K. now rewrite (fits_conv D t k' g z F K).
    + destruct N as (Nb & F). rewrite <- (IHb cb eq_refl Nb). destruct (geval D S a) as [va|]; [|reflexivity]. destruct (geval D S b) as [vb|]; [|reflexivity]. cbn [GoTypes.obind].
      destruct va as [x|]; [|reflexivity]. destruct vb as [y|]; [|reflexivity]. cbn [as_int GoTypes.obind]. destruct (int_op o x y) as [z|] eqn:O; [|reflexivity]. cbn [GoTypes.obind option_map].
      specialize (F x y z eq_refl eq_refl O). destruct (shift_count D cb); [|discriminate]. destruct ca as [k| |t k]; try discriminate.
      * destruct (constant cb); [|discriminate]. destruct (int_op o k z0); [|discriminate]. injection H as <-. reflexivity.
      * destruct (int_kind D t) as [g|] eqn:K; [|discriminate]. unfold typed_result in H. assert (exists k', c = CTyped t k') as (k' & ->).
        { destruct (constant (CTyped t k)) as [p|]; [destruct (constant cb) as [q|]; [destruct (int_op o p q) as [s|]; [destruct (representable g s)|]|]|]; try discriminate; injection H as <-; eauto. }
        rewrite K. now rewrite (fits_conv D t k' g z F K).
    + now rewrite <- (IHb cb eq_refl N).
    + destruct (geval D S a) as [va|]; [|reflexivity]. cbn [GoTypes.obind]. destruct va as [|x]; [reflexivity|]. cbn [as_bool GoTypes.obind].
      destruct o; try discriminate GO; destruct x; try reflexivity; rewrite <- (IHb cb eq_refl (N eq_refl)); reflexivity.
Qed.

(** ** Arithmetic that compiles *)

Lemma mix_closed : forall x y, integer x -> integer y -> exists t, mix_int (Some x) (Some y) = Some (Some t) /\ integer t.
Proof.
  intros x y (rx & X) (ry & Y).
  assert (U : forall t r, int_type_range t r -> is_signed (t_name t) = true -> exists n, to_unsigned (t_name t) = Some n /\ integer (mkT n (t_bits t) (t_dynamic t))).
  { intros t r T S. destruct T as [n r H|n H|n H| |]; try discriminate.
    - unfold named_range in H. repeat (destruct H as [H|H]; [injection H as <- <-; first [discriminate S|eexists; split; [reflexivity|eexists; apply range_named; cbn; repeat (first [left; reflexivity|right])]]|]). contradiction.
    - eexists. split; [reflexivity|]. eexists. cbn. now apply range_bit.
    - eexists. split; [reflexivity|]. eexists. apply range_bit_dynamic. }
  destruct (type_regular x rx X) as ((kx & gx & lx & hx & Rx & _) & _). destruct (type_regular y ry Y) as ((ky & gy & ly & hy & Ry & _) & _).
  unfold mix_int. destruct (same_native (Some x) (Some y)); [eexists; split; [reflexivity|eexists; exact X]|]. rewrite Rx, Ry.
  destruct (ky <=? kx); cbn [fst snd]; destruct (is_signed (t_name x)) eqn:Sx; destruct (is_signed (t_name y)) eqn:Sy; cbn [andb Bool.eqb];
    try (eexists; split; [reflexivity|]; eexists; eassumption).
  - destruct (U x rx X Sx) as (n & E & I). rewrite E. eauto.
  - destruct (U y ry Y Sy) as (n & E & I). rewrite E. eauto.
Qed.

Lemma representable_range : forall g lo hi, sized g -> match g with GU w => (lo, hi) = (0, 2 ^ w) | GS w => (lo, hi) = (- 2 ^ (w - 1), 2 ^ (w - 1)) end ->
  forall z, representable g z = true <-> lo <= z < hi.
Proof.
  intros g lo hi HS E z. assert (V : gvalue g z <-> lo <= z < hi) by (destruct g; injection E as -> ->; cbn; unfold in_u, in_s; tauto).
  rewrite <- V. split; intros H.
  - apply representable_eq in H. rewrite <- H. now apply gconv_range.
  - unfold representable. rewrite (gconv_value g z H). lia.
Qed.

Definition all_ranges : list (string * (Z * Z)) := (("int", (- 2 ^ 63, 2 ^ 63)) :: go_range)%string.
Definition describes (go : string) (g : gotype) (lo hi : Z) : Prop :=
  (forall D, int_kind D go = Some g) /\ (forall z, representable g z = true <-> lo <= z < hi) /\
  In (go, (lo, hi)) all_ranges /\ (forall lo' hi', In (go, (lo', hi')) all_ranges -> lo' = lo /\ hi' = hi).
Lemma describe : forall go lo hi, In (go, (lo, hi)) all_ranges -> exists g, describes go g lo hi.
Proof.
  intros go lo hi H.
  assert (U : forall lo' hi', In (go, (lo', hi')) all_ranges -> lo' = lo /\ hi' = hi).
  { intros lo' hi' H'. unfold all_ranges, go_range in *.
    repeat (destruct H as [H|H]; [injection H as <- <- <-; repeat (destruct H' as [H'|H']; [first [discriminate H'|injection H' as <- <-; split; reflexivity]|]); contradiction|]). contradiction. }
  assert (exists g, (forall D, int_kind D go = Some g) /\ sized g /\ match g with GU w => (lo, hi) = (0, 2 ^ w) | GS w => (lo, hi) = (- 2 ^ (w - 1), 2 ^ (w - 1)) end) as (g & K & W & E).
  { unfold all_ranges, go_range in H.
    repeat (destruct H as [H|H]; [injection H as <- <- <-; eexists; split; [intros D; unfold int_kind, kind_of; cbn; reflexivity|]; split; reflexivity|]). contradiction. }
  exists g. split; [exact K|]. split; [now apply representable_range|]. split; assumption.
Qed.

Lemma go_type_describe : forall r, match r_native r with Some t => integer t | None => True end -> exists go g lo hi, go_type r = Some go /\ describes go g lo hi.
Proof.
  intros r H. unfold go_type. destruct (r_native r) as [t|].
  - destruct H as (rg & H). destruct (type_regular t rg H) as ((k & go & lo & hi & _ & _ & G & I & _) & _). destruct (describe go lo hi) as (g & Q); [right; exact I|]. eauto 8.
  - destruct (describe "int" (- 2 ^ 63) (2 ^ 63)) as (g & Q); [left; reflexivity|]. eauto 8.
Qed.

Definition typ (e : aexpr) (go : string) : Prop := match symbol e with Some s => s = Some go | None => go_type (res e) = Some go end.

Definition compiled (D : genv) (e : aexpr) : Prop :=
  printable e /\ known e /\ r_type (res e) = TyInt /\ match r_native (res e) with Some t => integer t | None => True end /\
  (r_native (res e) = None -> r_full (res e) = true \/ symbol e = None) /\
  if r_full (res e) then check D (raw e) = Some (CInt (r_int (res e))) /\ - 2 ^ 63 <= r_int (res e) < 2 ^ 63
  else exists go g, int_kind D go = Some g /\ typ e go /\
       (constants_fit e -> check D (raw e) = Some (CTyped go None)) /\ (check D (raw e) <> None -> constants_fit e).

Lemma raw_full : forall e, r_full (res e) = true -> raw e = raw_value (res e).
Proof. intros e F. destruct e; cbn [raw res] in *; now rewrite F. Qed.
Lemma printable_full : forall e, r_full (res e) = true -> (printable e <-> finite (res e)).
Proof. intros e F. destruct e; cbn [printable res] in *; rewrite F; tauto. Qed.
Lemma fit_full : forall e, r_full (res e) = true -> constants_fit e.
Proof. intros e F. destruct e; cbn [constants_fit res] in *; rewrite F; exact I. Qed.

Lemma native_known : forall e, match r_native (res e) with Some t => integer t | None => True end -> (forall s, symbol e = Some s -> s <> None) -> known e.
Proof.
  intros e H S. unfold known. destruct (symbol e) as [s|]; [now apply S|]. destruct (r_native (res e)) as [t|] eqn:N; [|exact I].
  destruct (go_type_describe (res e)) as (go & g & lo & hi & G & _); [now rewrite N|]. unfold go_type in G. rewrite N in G. congruence.
Qed.

(** The class of an operand of arithmetic, converted if necessary. *)
Lemma operand_check : forall D r e go g lo hi, compiled D e -> r_type r = TyInt -> go_type r = Some go -> describes go g lo hi ->
  (r_native r = None -> r_native (res e) = None) ->
  let t := cast (converted r e) r (raw e) in
  if r_full (res e) then
    (lo <= r_int (res e) < hi -> exists c, check D t = Some c /\ constant c = Some (r_int (res e)) /\
       (c = CInt (r_int (res e)) \/ c = CTyped go (Some (r_int (res e))))) /\
    (check D t <> None -> check D t = Some (CInt (r_int (res e))) \/ lo <= r_int (res e) < hi)
  else (constants_fit e -> check D t = Some (CTyped go None)) /\ (check D t <> None -> constants_fit e).
Proof.
  intros D r e go g lo hi (_ & Kn & T & NI & NS & C) Tr G (KD & RP & _) NN t. subst t.
  assert (CC : forall c, check D (raw e) = c -> converted r e = true -> check D (cast true r (raw e)) = GoTypes.obind c (convert D go)).
  { intros c E Cv. unfold cast. unfold converted in Cv. unfold go_type in G. destruct (r_native r) as [n|]; [|rewrite andb_false_r in Cv; discriminate]. rewrite G.
    cbn [check]. pose proof (gotype_name n go G) as GN. apply orb_false_iff in GN. destruct GN as (G1 & G2). rewrite G1, G2, E. reflexivity. }
  assert (CV : forall c, convert D go c = match c with CInt z | CTyped _ (Some z) => if representable g z then Some (CTyped go (Some z)) else None
                 | CTyped t' None => match int_kind D t' with Some _ => Some (CTyped go None) | None => None end | CTest => None end).
  { intros c. unfold convert. specialize (KD D). unfold int_kind in KD. destruct (kind_of D go) as [[g'|]|]; try discriminate. injection KD as ->. destruct c as [ | |t' [|]]; reflexivity. }
  destruct (r_full (res e)) eqn:F.
  - destruct C as (C & B). destruct (converted r e) eqn:Cv.
    + rewrite (CC _ C eq_refl). cbn [GoTypes.obind]. rewrite CV. split.
      * intros R. rewrite (proj2 (RP _) R). eexists. split; [reflexivity|]. split; [reflexivity|]. right. reflexivity.
      * destruct (representable g (r_int (res e))) eqn:E; [|congruence]. intros _. right. now apply RP.
    + cbn [cast]. rewrite C. split; [|auto]. intros R. eexists. split; [reflexivity|]. split; [reflexivity|]. left. reflexivity.
  - destruct C as (ge & gk & Ke & Te & C1 & C2). destruct (converted r e) eqn:Cv.
    + split.
      * intros H. rewrite (CC _ (C1 H) eq_refl). cbn [GoTypes.obind]. rewrite CV. rewrite Ke. reflexivity.
      * intros H. apply C2. intros E. rewrite (CC _ E eq_refl) in H. apply H. reflexivity.
    + assert (E : ge = go).
      { unfold converted in Cv. unfold go_type in G. rewrite Tr in Cv. cbn [ety_eqb orb andb] in Cv. destruct (r_native r) as [n|] eqn:N.
        - rewrite G in Cv. unfold operand_type in Cv. unfold typ in Te. destruct (symbol e) as [s|].
          + subst s. apply negb_false_iff, String.eqb_eq in Cv. exact Cv.
          + rewrite T, Tr in Cv. cbn [ety_eqb] in Cv. unfold go_type in Te. destruct (r_native (res e)) as [ne|]; [|discriminate]. rewrite Te in Cv. apply negb_false_iff, String.eqb_eq in Cv. exact Cv.
        - specialize (NN eq_refl). destruct (NS NN) as [|S]; [discriminate|]. unfold typ in Te. rewrite S in Te. unfold go_type in Te. rewrite NN in Te. congruence. }
      subst ge. cbn [cast]. auto.
Qed.

Lemma arith_group : forall op, group_of (arith_op op) = Arithmetic.
Proof. destruct op; reflexivity. Qed.
Lemma arith_divides : forall op c, divides (arith_op op) c = true <-> (divisor op = true -> constant c <> Some 0).
Proof.
  intros op c. unfold divides. destruct op; cbn; try (split; [discriminate|reflexivity]); destruct (constant c) as [z|]; try (split; [congruence|reflexivity]);
  (destruct (z =? 0) eqn:E; cbn; split; intros H; try reflexivity; try discriminate; [assert (z = 0) by lia; subst; exfalso; now apply H|intros _ Q; injection Q as ->; discriminate]).
Qed.

Lemma check_arith : forall D op ca cb go g, int_kind D go = Some g ->
  (ca = CTyped go None \/ exists z, constant ca = Some z /\ (ca = CInt z \/ ca = CTyped go (Some z))) ->
  (cb = CTyped go None \/ exists z, constant cb = Some z /\ (cb = CInt z \/ cb = CTyped go (Some z))) ->
  (ca = CTyped go None \/ cb = CTyped go None) ->
  (forall z, constant ca = Some z -> representable g z = true) -> (forall z, constant cb = Some z -> representable g z = true) ->
  (divisor op = true -> constant cb <> Some 0) ->
  check_binary D (arith_op op) ca cb = Some (CTyped go None).
Proof.
  intros D op ca cb go g K A B O Ra Rb Dv. unfold check_binary. rewrite arith_group, (proj2 (arith_divides op cb) Dv).
  assert (C : common D ca cb = Some (CTyped go None)).
  { destruct A as [->|(za & Ca & A)]; destruct B as [->|(zb & Cb & B)].
    - cbn. now rewrite String.eqb_refl.
    - destruct B as [-> | ->]; cbn; [rewrite K; cbn in Rb; now rewrite (Rb zb eq_refl)|now rewrite String.eqb_refl].
    - destruct A as [-> | ->]; cbn; [rewrite K; cbn in Ra; now rewrite (Ra za eq_refl)|now rewrite String.eqb_refl].
    - destruct O as [-> | ->]; discriminate. }
  rewrite C, K. unfold typed_result. destruct O as [-> | ->]; cbn [constant]; [reflexivity|]. destruct (constant ca); reflexivity.
Qed.

Lemma arith_result : forall op a b r, eval_arith op false a b = (r, SOk) -> r_type a = TyInt -> r_type b = TyInt -> r_full a && r_full b = false ->
  match r_native a with Some t => integer t | None => True end -> match r_native b with Some t => integer t | None => True end ->
  r_type r = TyInt /\ r_full r = false /\ match r_native r with Some t => integer t | None => True end /\
  (r_native r = None -> r_native a = None /\ r_native b = None).
Proof.
  intros op a b r H Ta Tb F Na Nb. unfold eval_arith in H. rewrite Ta, Tb, F in H. cbn [ety_eqb andb orb negb] in H.
  assert (exists n, arithmetic_type a b = Some (TyInt, n) /\ match n with Some t => integer t | None => True end /\ (n = None -> r_native a = None /\ r_native b = None)) as (n & E & In & Nn).
  { unfold arithmetic_type. rewrite Ta, Tb. cbn [ety_eqb andb orb negb]. destruct (same_native (r_native a) (r_native b)) eqn:S.
    - exists (r_native a). split; [reflexivity|]. split; [exact Na|]. intros E. rewrite E in *. destruct (r_native b); [discriminate|auto].
    - destruct (r_native a) as [x|]; destruct (r_native b) as [y|]; try discriminate.
      + destruct (mix_closed x y Na Nb) as (t & M & It). rewrite M. exists (Some t). split; [reflexivity|]. split; [exact It|discriminate].
      + exists (Some x). split; [reflexivity|]. split; [exact Na|discriminate].
      + exists (Some y). split; [reflexivity|]. split; [exact Nb|discriminate]. }
  rewrite E in H. destruct (int_arith op 1 1) as [z|] eqn:O; [|destruct op; discriminate]. injection H as <-. cbn. auto.
Qed.

Lemma arithmetic_compiled : forall D e, arithmetic D e -> compiled D e.
Proof.
  intros D e H. induction H as [e (F & T & B & N) K|n go t r g (F & T & N) Nt P K|n x r0 go t r g (F & T & N) Nt F0 P K|r (F & T & N) Nt|n x r0 r ty F0 P (F & T & N) Nt|a r _ IH F E|a r _ IH F S E|op a b r _ IHa _ IHb F E];
    unfold compiled; cbn [res symbol].
  - split; [apply printable_full; [exact F|unfold finite; now rewrite T]|]. split; [exact K|]. split; [exact T|]. split; [exact N|]. split; [auto|]. rewrite F. split; [|exact B].
    rewrite (raw_full e F). unfold raw_value. rewrite T. unfold neg. destruct (r_int (res e) <? 0) eqn:E; cbn; repeat f_equal; lia.
  - split; [cbn; rewrite F; discriminate|]. split; [unfold known; cbn; discriminate|]. split; [exact T|]. split; [exact N|]. split; [rewrite Nt; discriminate|]. rewrite F.
    exists go, g. split; [exact K|]. split; [reflexivity|]. cbn [raw res constants_fit check path]. rewrite F. cbn [check path String.eqb Ascii.eqb Bool.eqb]. rewrite P. auto.
  - split; [cbn; rewrite F, F0; cbn; repeat split; auto; discriminate|]. split; [unfold known; cbn; discriminate|]. split; [exact T|]. split; [exact N|]. split; [rewrite Nt; discriminate|]. rewrite F.
    exists go, g. split; [exact K|]. split; [reflexivity|]. cbn [raw res constants_fit]. rewrite F, F0. cbn [check path String.eqb Ascii.eqb Bool.eqb]. rewrite P. auto.
  - split; [cbn; rewrite F; exact I|]. split; [unfold known; cbn; now rewrite Nt|]. split; [exact T|]. split; [exact N|]. split; [auto|]. rewrite F.
    exists "int"%string, (GS 64). split; [reflexivity|]. split; [unfold typ, go_type; cbn; now rewrite Nt|]. cbn [raw res constants_fit]. rewrite F. cbn. auto.
  - split; [cbn; rewrite F, F0; discriminate|]. split; [unfold known; cbn; rewrite Nt; discriminate|]. split; [exact T|]. split; [exact N|]. split; [auto|]. rewrite F.
    exists "int64"%string, (GS 64). split; [reflexivity|]. split; [unfold typ, go_type; cbn; now rewrite Nt|]. cbn [raw res constants_fit]. rewrite F, F0. cbn. rewrite P. cbn. auto.
  - destruct IH as (Pr & Kn & T & N & _ & C). rewrite F in C. destruct C as (go & g & K & _ & C1 & C2). unfold eval_numbits in E. rewrite T in E. cbn in E. injection E as <-.
    split; [exact Pr|]. split; [exact I|]. split; [reflexivity|]. split; [exact I|]. split; [auto|]. cbn [r_full].
    exists "int"%string, (GS 64). split; [reflexivity|]. split; [reflexivity|]. cbn [raw res constants_fit r_full]. split.
    + intros H. cbn. rewrite (C1 H). cbn. rewrite K. reflexivity.
    + intros H. apply C2. intros Q. apply H. cbn. now rewrite Q.
  - destruct IH as (Pr & Kn & T & N & NS & C). rewrite F in C. destruct C as (go & g & K & Ty & C1 & C2). unfold eval_paren in E. injection E as <-. cbn [r_full r_type r_native].
    split; [exact Pr|]. split; [|split; [exact T|split; [exact N|split; [auto|]]]].
    + unfold known; cbn. destruct (r_native (res a)) as [t|] eqn:Nt; [|exact I]. destruct (go_type_describe (res a)) as (go' & g' & lo & hi & G & _); [now rewrite Nt|]. unfold go_type in G. rewrite Nt in G. congruence.
    + exists go, g. split; [exact K|]. split; [|cbn [raw res constants_fit r_full]; auto].
      unfold typ in *. cbn [symbol]. unfold same_type in S. unfold go_type in *. cbn. destruct (symbol a); [congruence|exact Ty].
  - pose proof IHa as (Pa & Ka & Ta & Na & _ & _). pose proof IHb as (Pb & Kb & Tb & Nb & _ & _).
    destruct (arith_result op (res a) (res b) r E Ta Tb F Na Nb) as (Tr & Fr & Nr & NN).
    destruct (go_type_describe r Nr) as (go & g & lo & hi & G & Ds). pose proof Ds as (KD & RP & IN & UN).
    pose proof (operand_check D r a go g lo hi IHa Tr G Ds (fun Q => proj1 (NN Q))) as OA.
    pose proof (operand_check D r b go g lo hi IHb Tr G Ds (fun Q => proj2 (NN Q))) as OB.
    assert (GN : match r_native r with Some t => GoType t <> None | None => True end).
    { unfold go_type in G. destruct (r_native r); [congruence|exact I]. }
    split; [cbn; rewrite Fr; auto|]. split; [unfold known; cbn; exact GN|]. split; [exact Tr|]. split; [exact Nr|]. split; [auto|]. rewrite Fr.
    exists go, g. split; [apply KD|]. split; [exact G|]. cbn [raw res constants_fit]. rewrite Fr. cbn [check]. cbv zeta in OA, OB.
    set (ta := cast (converted r a) r (raw a)) in *. set (tb := cast (converted r b) r (raw b)) in *.
    split.
    + intros (CA & CB & R). destruct (R go lo hi G IN) as (RA & RB).
      assert (exists ca, check D ta = Some ca /\ (ca = CTyped go None \/ exists z, constant ca = Some z /\ (ca = CInt z \/ ca = CTyped go (Some z))) /\
              (r_full (res a) = false -> ca = CTyped go None) /\ (forall z, constant ca = Some z -> representable g z = true)) as (ca & Ea & Wa & Ua & Za).
      { destruct (r_full (res a)).
        - destruct (proj1 OA (RA eq_refl)) as (c & Ec & Cc & Dc). exists c. split; [exact Ec|]. split; [right; eauto|]. split; [discriminate|]. intros z Q. apply RP. rewrite Cc in Q. injection Q as <-. exact (RA eq_refl).
        - exists (CTyped go None). split; [exact (proj1 OA CA)|]. split; [auto|]. split; [auto|discriminate]. }
      assert (exists cb, check D tb = Some cb /\ (cb = CTyped go None \/ exists z, constant cb = Some z /\ (cb = CInt z \/ cb = CTyped go (Some z))) /\
              (r_full (res b) = false -> cb = CTyped go None) /\ (forall z, constant cb = Some z -> representable g z = true) /\ (divisor op = true -> constant cb <> Some 0)) as (cb & Eb & Wb & Ub & Zb & Db).
      { destruct (r_full (res b)).
        - destruct (RB eq_refl) as (RB1 & RB2). destruct (proj1 OB RB1) as (c & Ec & Cc & Dc). exists c. split; [exact Ec|]. split; [right; eauto|]. split; [discriminate|].
          split; [intros z Q; apply RP; rewrite Cc in Q; injection Q as <-; exact RB1|]. intros Dv. rewrite Cc. intros Q. injection Q as Q. exact (RB2 Dv Q).
        - exists (CTyped go None). split; [exact (proj1 OB CB)|]. split; [auto|]. split; [auto|]. split; discriminate. }
      rewrite Ea, Eb. cbn [GoTypes.obind]. apply (check_arith D op ca cb go g (KD D) Wa Wb); try assumption.
      destruct (r_full (res a)); [right; apply Ub; exact F|left; apply Ua; reflexivity].
    + intros H. destruct (check D ta) as [ca|] eqn:Ea; [|cbn in H; congruence]. destruct (check D tb) as [cb|] eqn:Eb; [|cbn in H; congruence]. cbn [GoTypes.obind] in H.
      assert (CA : constants_fit a) by (destruct (r_full (res a)) eqn:Fa; [now apply fit_full|apply OA; discriminate]).
      assert (CB : constants_fit b) by (destruct (r_full (res b)) eqn:Fb; [now apply fit_full|apply OB; discriminate]).
      split; [exact CA|]. split; [exact CB|]. intros go' lo' hi' G' IN'. assert (go' = go) by congruence. subst go'. destruct (UN lo' hi' IN') as (-> & ->).
      unfold check_binary in H. rewrite arith_group in H. destruct (divides (arith_op op) cb) eqn:Dv; [|congruence]. rewrite arith_divides in Dv.
      split.
      * intros Fa. rewrite Fa in OA, F. cbn [andb] in F. rewrite F in OB. destruct (proj2 OA ltac:(discriminate)) as [Q|Q]; [|exact Q]. injection Q as ->. pose proof (proj1 OB CB) as Q. injection Q as ->.
        cbn [common] in H. rewrite (KD D) in H. destruct (representable g (r_int (res a))) eqn:Rq; [now apply RP|congruence].
      * intros Fb. rewrite Fb in OB, F. rewrite andb_true_r in F. rewrite F in OA. pose proof (proj1 OA CA) as Qa. injection Qa as ->.
        assert (RR : lo <= r_int (res b) < hi).
        { destruct (proj2 OB ltac:(discriminate)) as [Q|Q]; [|exact Q]. injection Q as ->. cbn [common] in H. rewrite (KD D) in H. destruct (representable g (r_int (res b))) eqn:Rq; [now apply RP|congruence]. }
        split; [exact RR|]. intros Dq Z. destruct (proj1 OB RR) as (c & Ec & Cc & _). injection Ec as <-. apply (Dv Dq). rewrite Cc, Z. reflexivity.
Qed.

(** ** The tree that Go reads *)

Lemma read_raw : forall e ts t, printable e -> agree e -> print e = Some ts -> go_expression ts t -> t = raw e.
Proof.
  intros e ts t P A E G. destruct (raw_wf e P) as (W & T). apply W in A. rewrite (print_flatten e P) in E. injection E as <-.
  apply (parse_unique (flatten (raw e))); [exact G|]. apply wf_parses; [exact A|]. pose proof (top_range (raw e)). lia.
Qed.

Theorem arithmetic_text : forall D e, arithmetic D e -> agree e ->
  exists ts, print e = Some ts /\ (exists t, go_expression ts t) /\
  forall t, go_expression ts t ->
    (check D t <> None <-> constants_fit e) /\
    (r_full (res e) = false -> constants_fit e -> exists go, go_of e = Some go /\ check D t = Some (CTyped go None)) /\
    (r_full (res e) = true -> check D t = Some (CInt (r_int (res e)))).
Proof.
  intros D e H A. destruct (arithmetic_compiled D e H) as (P & _ & _ & _ & _ & C).
  pose proof (proj1 (print_read e P) A) as (ts & t & E & G & _). exists ts. split; [exact E|]. split; [eauto|].
  intros t' G'. rewrite (read_raw e ts t' P A E G'). destruct (r_full (res e)) eqn:F.
  - destruct C as (C & _). rewrite C. split; [|split; [discriminate|reflexivity]]. split; [intros _; now apply fit_full|discriminate].
  - destruct C as (go & g & _ & Ty & C1 & C2). split; [|split; [|discriminate]].
    + split; [exact C2|]. intros Q. rewrite (C1 Q). discriminate.
    + intros _ Q. exists go. split; [|exact (C1 Q)]. unfold typ in Ty. unfold go_of. destruct (symbol e); exact Ty.
Qed.

Theorem text_value : forall D S e ts t, printable e -> agree e -> print e = Some ts -> go_expression ts t ->
  state_ok D S -> check D t <> None -> no_overflow D S t -> geval D S t = ideal D S (source e).
Proof.
  intros D S e ts t P A E G HS C N. rewrite <- (raw_strip e P). rewrite (read_raw e ts t P A E G) in *.
  destruct (check D (raw e)) as [c|] eqn:Q; [|congruence]. exact (value_exact D S HS (raw e) c Q N).
Qed.

(** ** Wrapping around *)

Lemma gconv_mod : forall g a b, sized g -> (gconv g a = gconv g b <-> a mod 2 ^ (match g with GU w | GS w => w end) = b mod 2 ^ (match g with GU w | GS w => w end)).
Proof.
  intros [w|w] a b H; cbn in *.
  - unfold to_u. reflexivity.
  - split; [|apply to_s_mod_eq]. intros E. rewrite <- (to_s_mod w a H), <- (to_s_mod w b H). now rewrite E.
Qed.
Lemma ring_mod : forall o a b a' b' c c' m, In o [Add; Sub; Mul] -> a mod m = a' mod m -> b mod m = b' mod m ->
  int_op o a b = Some c -> int_op o a' b' = Some c' -> c mod m = c' mod m.
Proof.
  intros o a b a' b' c c' m [<-|[<-|[<-|[]]]] A B E E'; cbn in E, E'; injection E as <-; injection E' as <-.
  - rewrite (Zplus_mod a b), (Zplus_mod a' b'). now rewrite A, B.
  - rewrite (Zminus_mod a b), (Zminus_mod a' b'). now rewrite A, B.
  - rewrite (Zmult_mod a b), (Zmult_mod a' b'). now rewrite A, B.
Qed.

Lemma modular_congruent : forall D S go g, state_ok D S -> int_kind D go = Some g -> forall t, modular D S go t -> forall c, check D t = Some c ->
  ((c = CTyped go None \/ exists z, constant c = Some z) /\
   match geval D S t, ideal D S (strip t) with
   | Some (GI v), Some (GI z) => gconv g v = gconv g z
   | None, None => True
   | _, _ => False
   end).
Proof.
  intros D S go g HS K t M. pose proof (kind_sized D S go g HS K) as W.
  assert (TY : forall t, modular D S go t -> forall c, check D t = Some c -> (exists k, c = CTyped go k) \/ exists z, c = CInt z).
  { clear t M. intros t M. induction M as [t k E N|t z E N|a M IH|o a b O Ma IHa Mb IHb]; intros c C.
    - rewrite E in C. injection C as <-. eauto.
    - rewrite E in C. injection C as <-. eauto.
    - exact (IH c C).
    - cbn [check] in C. destruct (check D a) as [ca|] eqn:A; [cbn in C|discriminate]. destruct (check D b) as [cb|] eqn:B; [cbn in C|discriminate].
      destruct (IHa ca eq_refl) as [(ka & ->)|(za & ->)]; destruct (IHb cb eq_refl) as [(kb & ->)|(zb & ->)]; unfold check_binary in C;
        destruct O as [<-|[<-|[<-|[]]]]; cbn in C; rewrite ?String.eqb_refl, ?K in C; cbn in C; rewrite ?K in C; unfold typed_result in C; cbn in C.
      all: repeat match goal with
        | C : context [match ?k with Some _ => _ | None => _ end] |- _ => is_var k; destruct k
        | C : context [if representable ?x ?y then _ else _] |- _ => destruct (representable x y); cbn in C; rewrite ?K in C; unfold typed_result in C; cbn in C
        end; try discriminate; injection C as <-; eauto. }
  induction M as [t k E N|t z E N|a M IH|o a b O Ma IHa Mb IHb]; intros c C.
  - rewrite E in C. injection C as <-. split; [destruct k; [right; cbn; eauto|auto]|]. rewrite <- (value_exact D S HS t _ E N).
    destruct (geval D S t) as [v|] eqn:G; [|exact I]. destruct (class_int D go k v g K (eval_class D S HS t _ v E G)) as (z & -> & _). reflexivity.
  - rewrite E in C. injection C as <-. split; [right; cbn; eauto|]. rewrite <- (value_exact D S HS t _ E N).
    destruct (geval D S t) as [v|] eqn:G; [|exact I]. pose proof (eval_class D S HS t _ v E G) as V. cbn in V. subst v. reflexivity.
  - exact (IH c C).
  - destruct (TY _ (Mo_op D S go o a b O Ma Mb) c C) as [(k & ->)|(z & ->)].
    + split; [destruct k; [right; cbn; eauto|auto]|]. cbn [geval strip ideal]. rewrite C. cbn [check] in C.
      destruct (check D a) as [ca|] eqn:A; [cbn in C|discriminate]. destruct (check D b) as [cb|] eqn:B; [cbn in C|discriminate].
      destruct (IHa ca eq_refl) as (_ & Ia). destruct (IHb cb eq_refl) as (_ & Ib). unfold eval_binary. replace (group_of o) with Arithmetic by (destruct O as [<-|[<-|[<-|[]]]]; reflexivity).
      destruct (geval D S a) as [[x|]|]; destruct (ideal D S (strip a)) as [[x'|]|]; try contradiction; [|exact I].
      destruct (geval D S b) as [[y|]|]; destruct (ideal D S (strip b)) as [[y'|]|]; try contradiction; [|exact I].
      cbn [GoTypes.obind as_int option_map]. rewrite K.
      assert (exists p p', int_op o x y = Some p /\ int_op o x' y' = Some p') as (p & p' & E & E') by (destruct O as [<-|[<-|[<-|[]]]]; cbn; eauto).
      rewrite E, E'. cbn [GoTypes.obind option_map]. rewrite (gconv_value g (gconv g p) (gconv_range g p W)).
      apply gconv_mod; [exact W|]. apply (ring_mod o x y x' y' p p' _ O); try assumption; now apply gconv_mod.
    + split; [right; cbn; eauto|]. cbn [geval strip ideal]. rewrite C. cbn [check] in C.
      destruct (check D a) as [ca|] eqn:A; [cbn in C|discriminate]. destruct (check D b) as [cb|] eqn:B; [cbn in C|discriminate].
      destruct (IHa ca eq_refl) as (_ & Ia). destruct (IHb cb eq_refl) as (_ & Ib). unfold eval_binary. replace (group_of o) with Arithmetic by (destruct O as [<-|[<-|[<-|[]]]]; reflexivity).
      destruct (geval D S a) as [[x|]|]; destruct (ideal D S (strip a)) as [[x'|]|]; try contradiction; [|exact I].
      destruct (geval D S b) as [[y|]|]; destruct (ideal D S (strip b)) as [[y'|]|]; try contradiction; [|exact I].
      cbn [GoTypes.obind as_int option_map].
      assert (exists p p', int_op o x y = Some p /\ int_op o x' y' = Some p') as (p & p' & E & E') by (destruct O as [<-|[<-|[<-|[]]]]; cbn; eauto).
      rewrite E, E'. cbn [GoTypes.obind option_map].
      apply gconv_mod; [exact W|]. apply (ring_mod o x y x' y' p p' _ O); try assumption; now apply gconv_mod.
Qed.

Theorem modular_value : forall D S go g t k, state_ok D S -> int_kind D go = Some g -> modular D S go t -> check D t = Some (CTyped go k) ->
  geval D S t = match ideal D S (strip t) with Some (GI z) => Some (GI (gconv g z)) | _ => None end.
Proof.
  intros D S go g t k HS K M C. destruct (modular_congruent D S go g HS K t M _ C) as (_ & H).
  destruct (geval D S t) as [v|] eqn:G; [|destruct (ideal D S (strip t)) as [[|]|]; [contradiction|contradiction|reflexivity]].
  destruct (class_int D go k v g K (eval_class D S HS t _ v C G)) as (z & -> & V). destruct (ideal D S (strip t)) as [[z'|]|]; try contradiction.
  rewrite <- H. now rewrite (gconv_value g z V).
Qed.

(** ** Operators without conversions *)

Lemma unconverted_raw : forall a b e, unconverted a b e -> (printable a -> printable b -> known a -> known b -> r_type (res a) = TyInt -> r_type (res b) = TyInt ->
   r_full (res a) && r_full (res b) = false -> printable e) /\
  (exists o, raw e = GBin o (raw a) (raw b) /\ (group_of o = Comparison \/ (group_of o = Arithmetic /\ forall c, divides o c = true))).
Proof.
  intros a b e H. destruct H as [op a b r E|op a b r NS E].
  - unfold eval_compare in E. assert (r_full r = false /\ r_type r = TyBool /\ r_native r = None) as (F & T & N).
    { destruct (negb (ety_eqb (r_type (res a)) (r_type (res b))) && _ && _ && _ && _); [discriminate|].
      destruct (int_type (r_type (res a))); [injection E as <-; auto|]. destruct (ety_eqb (r_type (res a)) TyFloat); [destruct (float_compare op _ _); [injection E as <-; auto|discriminate]|].
      destruct (ety_eqb (r_type (res a)) TyString); [destruct (string_compare op _ _); [injection E as <-; auto|discriminate]|]. injection E as <-. auto. }
    split.
    + intros Pa Pb Ka Kb _ _ _. cbn. rewrite F, N. auto.
    + exists (relation_op op). cbn [raw res]. rewrite F. unfold converted. rewrite T. cbn [ety_eqb orb andb cast]. split; [reflexivity|]. left. destruct op; reflexivity.
  - unfold eval_bitwise in E. destruct (int_type (r_type (res a)) && int_type (r_type (res b))); [|discriminate]. destruct (int_bitwise op (r_int (res a)) (r_int (res b))) as [z|]; [|discriminate].
    injection E as <-. split.
    + intros Pa Pb Ka Kb Ta Tb Fab. cbn [printable res r_full r_native]. split; [exact Pa|]. split; [exact Pb|]. intros C. destruct op; discriminate.
    + exists (bits_op op). cbn [raw res r_full]. replace (shifts op) with false by (destruct op; try reflexivity; discriminate). cbn [andb cast].
      split; [reflexivity|]. right. destruct op; try discriminate; split; reflexivity.
Qed.

Lemma check_unconverted : forall D o a b ga gb, int_kind D a = Some ga -> int_kind D b = Some gb ->
  (group_of o = Comparison \/ (group_of o = Arithmetic /\ forall c, divides o c = true)) ->
  (check_binary D o (CTyped a None) (CTyped b None) <> None <-> a = b).
Proof.
  intros D o a b ga gb A B G. unfold check_binary. assert (KI : kind_of D a = Some (KInt ga)) by (unfold int_kind in A; destruct (kind_of D a) as [[|]|]; congruence).
  assert (C : common D (CTyped a None) (CTyped b None) = if (a =? b)%string then Some (CTyped a None) else None) by reflexivity.
  destruct G as [-> | (-> & Dv)]; [|rewrite Dv]; rewrite C; destruct (a =? b)%string eqn:E.
  - apply String.eqb_eq in E. rewrite KI. split; [auto|discriminate].
  - apply String.eqb_neq in E. split; [congruence|contradiction].
  - apply String.eqb_eq in E. rewrite A. split; [auto|discriminate].
  - apply String.eqb_neq in E. split; [congruence|contradiction].
Qed.
Lemma check_unconverted_const : forall D o a ga z, int_kind D a = Some ga ->
  (group_of o = Comparison \/ (group_of o = Arithmetic /\ forall c, divides o c = true)) ->
  (check_binary D o (CTyped a None) (CInt z) <> None <-> representable ga z = true) /\
  (check_binary D o (CInt z) (CTyped a None) <> None <-> representable ga z = true).
Proof.
  intros D o a ga z A G. unfold check_binary. assert (KI : kind_of D a = Some (KInt ga)) by (unfold int_kind in A; destruct (kind_of D a) as [[|]|]; congruence).
  destruct G as [-> | (-> & Dv)]; rewrite ?Dv; cbn [common]; rewrite A; destruct (representable ga z); rewrite ?KI, ?A; cbn; split; split; congruence.
Qed.

(** An expression with its Go type, when it is not constant. *)
Lemma compiled_type : forall D e, arithmetic D e -> r_full (res e) = false -> constants_fit e -> exists go g,
  go_of e = Some go /\ int_kind D go = Some g /\ check D (raw e) = Some (CTyped go None).
Proof.
  intros D e H F C. destruct (arithmetic_compiled D e H) as (_ & _ & _ & _ & _ & Q). rewrite F in Q. destruct Q as (go & g & K & T & C1 & _).
  exists go, g. split; [|split; [exact K|exact (C1 C)]]. unfold typ in T. unfold go_of. destruct (symbol e); exact T.
Qed.
Lemma compiled_const : forall D e, arithmetic D e -> r_full (res e) = true -> check D (raw e) = Some (CInt (r_int (res e))).
Proof. intros D e H F. destruct (arithmetic_compiled D e H) as (_ & _ & _ & _ & _ & Q). rewrite F in Q. apply Q. Qed.

Theorem unconverted_text : forall D a b e ts t, unconverted a b e -> arithmetic D a -> arithmetic D b ->
  r_full (res a) && r_full (res b) = false -> constants_fit a -> constants_fit b ->
  agree e -> print e = Some ts -> go_expression ts t ->
  (r_full (res a) = false -> r_full (res b) = false -> (check D t <> None <-> go_of a = go_of b)) /\
  (r_full (res a) = true -> forall go g, go_of b = Some go -> int_kind D go = Some g -> (check D t <> None <-> representable g (r_int (res a)) = true)) /\
  (r_full (res b) = true -> forall go g, go_of a = Some go -> int_kind D go = Some g -> (check D t <> None <-> representable g (r_int (res b)) = true)).
Proof.
  intros D a b e ts t U Ha Hb F Ca Cb A E G.
  pose proof (arithmetic_compiled D a Ha) as (Pa & Ka & Ta & _). pose proof (arithmetic_compiled D b Hb) as (Pb & Kb & Tb & _).
  destruct (unconverted_raw a b e U) as (P & o & R & GO). specialize (P Pa Pb Ka Kb Ta Tb F). rewrite (read_raw e ts t P A E G), R. cbn [check].
  split; [|split].
  - intros Fa Fb. destruct (compiled_type D a Ha Fa Ca) as (ga & ka & Ga & Ia & Ea). destruct (compiled_type D b Hb Fb Cb) as (gb & kb & Gb & Ib & Eb).
    rewrite Ea, Eb, Ga, Gb. cbn [GoTypes.obind]. rewrite (check_unconverted D o ga gb ka kb Ia Ib GO). split; congruence.
  - intros Fa go g Gb K. assert (Fb : r_full (res b) = false) by (rewrite Fa in F; exact F). destruct (compiled_type D b Hb Fb Cb) as (gb & kb & Gb' & Ib & Eb).
    rewrite (compiled_const D a Ha Fa), Eb. cbn [GoTypes.obind]. assert (gb = go) by congruence. subst gb.
    exact (proj2 (check_unconverted_const D o go g (r_int (res a)) K GO)).
  - intros Fb go g Ga K. assert (Fa : r_full (res a) = false) by (rewrite Fb, andb_true_r in F; exact F). destruct (compiled_type D a Ha Fa Ca) as (ga & ka & Ga' & Ia & Ea).
    rewrite (compiled_const D b Hb Fb), Ea. cbn [GoTypes.obind]. assert (ga = go) by congruence. subst ga.
    exact (proj1 (check_unconverted_const D o go g (r_int (res b)) K GO)).
Qed.

(** ** Shifts *)

Theorem shift_text : forall D op a b r ts t, AstExpr.is_shift op = true -> eval_bitwise op false (res a) (res b) = (r, SOk) ->
  arithmetic D a -> arithmetic D b -> r_full (res a) && r_full (res b) = false -> constants_fit a -> constants_fit b ->
  agree (ABitwise op a b r) -> print (ABitwise op a b r) = Some ts -> go_expression ts t ->
  (r_full (res a) = false ->
     (check D t <> None <-> (r_full (res b) = true -> 0 <= r_int (res b))) /\
     (check D t <> None -> check D t = option_map (fun go => CTyped go None) (go_of a))) /\
  (r_full (res a) = true ->
     exists go lo hi, match r_native (res a) with Some n => GoType n = Some go | None => go = "uint32"%string end /\ In (go, (lo, hi)) go_range /\
     (check D t <> None <-> lo <= r_int (res a) < hi) /\ (check D t <> None -> check D t = Some (CTyped go None))).
Proof.
  intros D op a b r ts t Sh E Ha Hb F Ca Cb A Pr G.
  pose proof (arithmetic_compiled D a Ha) as (Pa & Ka & Ta & Na & _). pose proof (arithmetic_compiled D b Hb) as (Pb & Kb & Tb & _).
  unfold eval_bitwise in E. rewrite Ta, Tb in E. cbn [int_type ety_eqb orb andb] in E. destruct (int_bitwise op (r_int (res a)) (r_int (res b))) as [z|]; [|discriminate]. rewrite Sh in E.
  assert (Fr : r_full r = false) by (injection E as <-; reflexivity).
  assert (Nr : r_native r = match r_native (res a) with Some n => Some n | None => Some (builtin_type "uint32") end) by (injection E as <-; reflexivity). clear E.
  assert (exists go lo hi, match r_native (res a) with Some n => GoType n = Some go | None => go = "uint32"%string end /\ In (go, (lo, hi)) go_range /\
            exists n, r_native r = Some n /\ GoType n = Some go) as (go & lo & hi & Gt & I & n & Nn & Gn).
  { rewrite Nr. destruct (r_native (res a)) as [n|].
    - destruct Na as (rg & Na). destruct (type_regular n rg Na) as ((k & go & lo & hi & _ & _ & Gq & Iq & _) & _). eauto 10.
    - exists "uint32"%string, 0, (2 ^ 32). split; [reflexivity|]. split; [cbn; tauto|]. eexists. split; reflexivity. }
  assert (P : printable (ABitwise op a b r)).
  { cbn [printable res]. rewrite Fr. split; [exact Pa|]. split; [exact Pb|]. intros _ _. rewrite Nn, Gn. discriminate. }
  rewrite (read_raw _ ts t P A Pr G). cbn [raw res]. rewrite Fr. replace (shifts op) with true by (destruct op; try reflexivity; discriminate). rewrite Ta. cbn [ety_eqb andb].
  assert (GS : group_of (bits_op op) = Shift) by (destruct op; try reflexivity; discriminate).
  split.
  - intros Fa. rewrite Fa. cbn [cast check]. destruct (compiled_type D a Ha Fa Ca) as (ga & ka & Ga & Ia & Ea). rewrite Ea, Ga. cbn [GoTypes.obind option_map].
    destruct (r_full (res b)) eqn:Fb.
    + rewrite (compiled_const D b Hb Fb). cbn [GoTypes.obind]. unfold check_binary. rewrite GS. cbn [shift_count]. rewrite Ia. unfold typed_result. cbn [constant].
      destruct (0 <=? r_int (res b)) eqn:Z; split; try congruence; split; try congruence; intros Q; [lia|specialize (Q eq_refl); lia].
    + destruct (compiled_type D b Hb Fb Cb) as (gb & kb & Gb & Ib & Eb). rewrite Eb. cbn [GoTypes.obind]. unfold check_binary. rewrite GS. cbn [shift_count]. rewrite Ib, Ia. unfold typed_result. cbn [constant].
      split; [split; [intros _ Q; discriminate Q|intros _; discriminate]|reflexivity].
  - intros Fa. rewrite Fa. exists go, lo, hi. split; [exact Gt|]. split; [exact I|]. assert (Fb : r_full (res b) = false) by (rewrite Fa in F; exact F).
    destruct (describe go lo hi (or_intror I)) as (g & KD & RP & _).
    destruct (compiled_type D b Hb Fb Cb) as (gb & kb & Gb & Ib & Eb). unfold cast. rewrite Nn, Gn. cbn [check]. pose proof (gotype_name n go Gn) as GN. apply orb_false_iff in GN. destruct GN as (G1 & G2).
    rewrite G1, G2, (compiled_const D a Ha Fa), Eb. cbn [GoTypes.obind]. unfold convert. pose proof (KD D) as KI. unfold int_kind in KI. destruct (kind_of D go) as [[g'|]|] eqn:KO; try discriminate. injection KI as ->.
    rewrite <- RP. destruct (representable g (r_int (res a))); cbn [GoTypes.obind]; [|split; [split; congruence|congruence]].
    unfold check_binary. rewrite GS. cbn [shift_count]. rewrite Ib, (KD D). unfold typed_result. cbn [constant]. split; [split; [reflexivity|discriminate]|reflexivity].
Qed.

(** ** numbits of a constant *)

Theorem numbits_constant : forall a r, r_type a = TyInt -> 0 <= r_int a < 2 ^ 63 -> eval_numbits true a = (r, SOk) ->
  ((exists k, 1 <= k /\ r_int a = 2 ^ k) -> r_int r = numbits (r_int a) + 1) /\
  ((~ exists k, 1 <= k /\ r_int a = 2 ^ k) -> r_int r = numbits (r_int a)).
Proof.
  intros a r T B E. unfold eval_numbits in E. rewrite T in E. cbn in E. injection E as <-. cbn [r_int]. unfold AstExpr.len64.
  assert (U : u64 (r_int a) = r_int a) by (unfold u64, to_u; apply Z.mod_small; assert (2 ^ 63 < 2 ^ 64) by reflexivity; lia). rewrite U. set (v := r_int a) in *.
  unfold numbits. split.
  - intros (k & Hk & E). rewrite E. assert (2 <= 2 ^ k) by (change 2 with (2 ^ 1) at 1; apply Z.pow_le_mono_r; lia).
    replace (2 ^ k =? 0) with false by lia. replace (2 ^ k <=? 1) with false by lia. rewrite Z.log2_pow2, Z.log2_up_pow2 by lia. lia.
  - intros NP. destruct (v =? 0) eqn:Z0; [destruct (v <=? 1) eqn:Z1; lia|]. destruct (v <=? 1) eqn:Z1.
    + assert (v = 1) by lia. rewrite H. reflexivity.
    + pose proof (Z.le_log2_log2_up v). pose proof (Z.le_log2_up_succ_log2 v).
      assert (Z.log2 v <> Z.log2_up v); [|lia]. intros Q. apply Z.log2_log2_up_exact in Q; [|lia]. destruct Q as (k & Q). apply NP. exists k. split; [|exact Q].
      destruct (Z_lt_le_dec k 1) as [L|L]; [|exact L]. exfalso. destruct (Z_lt_le_dec k 0) as [M|M]; [rewrite Z.pow_neg_r in Q by exact M; lia|]. assert (k = 0) by lia. subst k. cbn in Q. lia.
Qed.
