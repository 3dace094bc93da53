(** Proofs about the visitor. *)

Require Import ZArith String Ascii List Bool Lia.
From Verif Require Literals LiteralsSpec LiteralsFacts AstExpr AstTypes Files.
From Verif Require Import Packages PackagesSpec PackagesFacts Visitor VisitorSpec.
Import ListNotations.
Open Scope string_scope.

(** ** Lists *)

Lemma map_eq : forall {A B C} (f : A -> B) (g : A -> C) l1 l2,
  (forall x y, In x l1 -> In y l2 -> f x = f y -> g x = g y) -> map f l1 = map f l2 -> map g l1 = map g l2.
Proof.
  induction l1 as [|x l1 IH]; intros [|y l2] Hf H; cbn in H; try discriminate; [reflexivity|].
  cbn. inversion H as [[H1 H2]]. f_equal; [apply Hf; [now left|now left|assumption]|apply IH; [|assumption]].
  intros a b Ha Hb. apply Hf; now right.
Qed.

Lemma visit_all_eq : forall {A B C} (f : A -> option B) (g : A -> C) l1 l2 r,
  (forall x y z, In x l1 -> In y l2 -> f x = Some z -> f y = Some z -> g x = g y) ->
  visit_all f l1 = Some r -> visit_all f l2 = Some r -> map g l1 = map g l2.
Proof.
  induction l1 as [|x l1 IH]; intros [|y l2] r Hf H1 H2; cbn in H1, H2.
  - reflexivity.
  - destruct (f y); [destruct (visit_all f l2)|]; congruence.
  - destruct (f x); [destruct (visit_all f l1)|]; congruence.
  - destruct (f x) as [x'|] eqn:Ex; [|discriminate]. destruct (visit_all f l1) as [r1|] eqn:E1; [|discriminate].
    destruct (f y) as [y'|] eqn:Ey; [|discriminate]. destruct (visit_all f l2) as [r2|] eqn:E2; [|discriminate].
    assert (x' = y' /\ r1 = r2) as [-> ->] by (split; congruence).
    cbn. f_equal.
    + apply (Hf x y y'); [now left|now left|assumption|assumption].
    + apply (IH l2 r2); [|reflexivity|assumption]. intros a b z Ha Hb. apply Hf; now right.
Qed.

Lemma visit_all_map : forall {A B} (f : A -> option B) (g : A -> A) l, (forall x, f (g x) = f x) -> visit_all f (map g l) = visit_all f l.
Proof. intros A B f g l H. induction l as [|x l IH]; [reflexivity|]. cbn. now rewrite H, IH. Qed.

Lemma visit_all_none : forall {A B} (f : A -> option B) l, visit_all f l = None <-> exists x, In x l /\ f x = None.
Proof.
  intros A B f l. induction l as [|x l IH]; cbn.
  - split; [discriminate|intros (x & [] & _)].
  - destruct (f x) as [y|] eqn:E.
    + destruct (visit_all f l) as [r|] eqn:El.
      * split; [discriminate|]. intros (z & [->|Hz] & Hn); [congruence|]. assert (X : Some r = None) by (apply IH; eauto); discriminate X.
      * split; [|reflexivity]. intros _. destruct (proj1 IH eq_refl) as (z & Hz & Hn). eauto.
    + split; [|reflexivity]. intros _. eauto.
Qed.

(** ** Expressions *)

Lemma visit_expr_inj : forall a b, visit_expr a = visit_expr b -> a = b.
Proof.
  induction a; intros b H; destruct b; try (destruct op); try (destruct op0); cbn in H; try discriminate H;
    try (inversion H; subst; f_equal; eauto; fail); reflexivity.
Qed.

Lemma visit_opt_inj : forall a b, visit_opt a = visit_opt b -> a = b.
Proof. intros [a|] [b|] H; cbn in H; try discriminate; [|reflexivity]. f_equal. apply visit_expr_inj. congruence. Qed.

(** ** Types *)

Fixpoint ctype_ind' (P : ctype -> Prop) (Hk : forall n, P (CKeyword n)) (Hb : forall s w, P (CBitField s w))
  (Hn : forall names args, Forall P args -> P (CNamed names args)) (t : ctype) : P t :=
  match t with
  | CKeyword n => Hk n
  | CBitField s w => Hb s w
  | CNamed names args =>
      Hn names args ((fix go l : Forall P l := match l with [] => Forall_nil P | x :: l' => Forall_cons x (ctype_ind' P Hk Hb Hn x) (go l') end) args)
  end.

Lemma strip_type_same : forall t, visit_type (strip_type t) = visit_type t.
Proof.
  apply ctype_ind'.
  - reflexivity.
  - intros s [w|]; [|reflexivity]. cbn [strip_type]. destruct (same_as s w) as [n|] eqn:E; [|reflexivity].
    destruct s; do 65 (destruct w as [|w]; [try discriminate E; injection E as <-; reflexivity|]); discriminate E.
  - intros names args IH. cbn [strip_type visit_type].
    assert (Hm : map visit_type (map strip_type args) = map visit_type args).
    { rewrite map_map. induction IH as [|x l Hx _ IH]; [reflexivity|]. cbn. now rewrite Hx, IH. }
    now rewrite Hm.
Qed.

Definition builtins : list ctype :=
  (map CKeyword keywords ++ CBitField true None :: CBitField false None ::
   map (fun w => CBitField true (Some w)) (seq 1 64) ++ map (fun w => CBitField false (Some w)) (seq 1 64))%list.
Definition is_builtin (t : ctype) : bool := match t with CNamed _ _ => false | _ => true end.
Lemma proper_builtin : forall t, proper_type t -> is_builtin t = true -> In t builtins.
Proof.
  intros [n|s [w|]|] H Hb; try discriminate Hb; unfold builtins; cbn in H.
  - apply in_or_app. left. now apply in_map.
  - apply in_or_app. right. right. right. apply in_or_app. destruct s; [left|right]; apply in_map_iff; exists w; split; auto; apply in_seq; lia.
  - apply in_or_app. right. destruct s; [now left|right; now left].
Qed.

Definition ref_eqb (a b : tref) : bool :=
  match a, b with
  | TRef x p n z [], TRef x' p' n' z' [] => Bool.eqb x x' && (p =? p') && (n =? n') && (z =? z')%Z
  | _, _ => false
  end.
Definition ctype_eqb (a b : ctype) : bool :=
  match a, b with
  | CKeyword n, CKeyword m => n =? m
  | CBitField s None, CBitField s' None => Bool.eqb s s'
  | CBitField s (Some w), CBitField s' (Some w') => Bool.eqb s s' && (w =? w')%nat
  | _, _ => false
  end.
Lemma ctype_eqb_eq : forall a b, ctype_eqb a b = true -> a = b.
Proof.
  intros [n|s [w|]|] [m|s' [w'|]|] H; cbn in H; try discriminate.
  - apply String.eqb_eq in H. now subst.
  - apply andb_true_iff in H as [H1 H2]. apply eqb_prop in H1. apply Nat.eqb_eq in H2. now subst.
  - apply eqb_prop in H. now subst.
Qed.
Lemma builtin_table : forallb (fun a => forallb (fun b => implb (ref_eqb (visit_type a) (visit_type b)) (ctype_eqb (strip_type a) (strip_type b))) builtins) builtins = true.
Proof. vm_compute. reflexivity. Qed.
Lemma builtin_shape : forall t, is_builtin t = true -> exists n b, visit_type t = TRef true "" n b [].
Proof. intros [n|s w|] H; try discriminate; cbn; eauto. Qed.

(** Names *)
Fixpoint dots (s : string) : bool := match s with EmptyString => false | String c s' => (c =? ".")%char || dots s' end.
Lemma ident_dots : forall s, ident s -> dots s = false.
Proof.
  intros s [_ H]. induction s as [|c s IH]; [reflexivity|]. cbn in H. apply andb_true_iff in H as [Hc H].
  cbn. rewrite (IH H), orb_false_r. destruct (Ascii.eqb_spec c "."); [|reflexivity]. subst. discriminate Hc.
Qed.
Lemma last_dot_none : forall s, dots s = false -> last_dot s = None.
Proof.
  induction s as [|c s IH]; [reflexivity|]. cbn. intros H. apply orb_false_iff in H as [Hc H]. now rewrite (IH H), Hc.
Qed.
Lemma last_dot_app : forall a b, dots b = false -> last_dot (a ++ "." ++ b) = Some (a, b).
Proof.
  induction a as [|c a IH]; intros b Hb.
  - change ("" ++ "." ++ b) with (String "." b). cbn [last_dot]. now rewrite (last_dot_none b Hb).
  - change (String c a ++ "." ++ b) with (String c (a ++ "." ++ b)). cbn [last_dot]. now rewrite (IH b Hb).
Qed.
Lemma append_assoc : forall a b c : string, (a ++ b) ++ c = a ++ (b ++ c).
Proof. induction a as [|x a IH]; intros b c; [reflexivity|]. cbn. now rewrite IH. Qed.
Lemma join_snoc : forall sep l n, l <> [] -> join sep (l ++ [n])%list = join sep l ++ sep ++ n.
Proof.
  intros sep l n H. induction l as [|a l IH]; [easy|]. destruct l as [|b l]; [reflexivity|].
  change (join sep ((a :: b :: l) ++ [n])%list) with (a ++ sep ++ join sep ((b :: l) ++ [n])%list).
  rewrite IH by discriminate. change (join sep (a :: b :: l)) with (a ++ sep ++ join sep (b :: l)).
  now rewrite !append_assoc.
Qed.
Lemma visit_named : forall names args, names <> [] -> Forall ident names ->
  visit_type (CNamed names args) = TRef false (join "." (removelast names)) (last names "") 0 (map visit_type args).
Proof.
  intros names args Hn H. cbn [visit_type]. destruct (exists_last Hn) as (l & n & ->).
  rewrite removelast_last, last_last. apply Forall_app in H as [Hl Hs]. inversion Hs as [|? ? Hd _]; subst. apply ident_dots in Hd.
  destruct l as [|a l].
  - cbn [app join]. now rewrite (last_dot_none n Hd).
  - rewrite join_snoc by discriminate. now rewrite (last_dot_app _ n Hd).
Qed.
Lemma join_ident : forall a l, ident a -> Forall ident l -> join "." (a :: l) <> "".
Proof.
  intros a l [Ha _] _. destruct l as [|b l]; [exact Ha|]. destruct a as [|c a]; [easy|]. discriminate.
Qed.
Lemma app_dot_inj : forall a b x y, dots a = false -> dots b = false -> a ++ "." ++ x = b ++ "." ++ y -> a = b /\ x = y.
Proof.
  induction a as [|c a IH]; intros [|d b] x y Ha Hb H.
  - cbn in H. split; congruence.
  - cbn in H. inversion H; subst. discriminate Hb.
  - cbn in H. inversion H; subst. discriminate Ha.
  - cbn in Ha, Hb. apply orb_false_iff in Ha as [_ Ha]. apply orb_false_iff in Hb as [_ Hb].
    cbn [append] in H. inversion H as [[Hc Hr]]. destruct (IH b x y Ha Hb Hr) as [-> ->]. now subst.
Qed.
Lemma dots_app : forall a b, dots (a ++ b) = dots a || dots b.
Proof. induction a as [|c a IH]; intros b; [reflexivity|]. cbn. now rewrite IH, orb_assoc. Qed.
Lemma join_inj : forall l1 l2, Forall ident l1 -> Forall ident l2 -> join "." l1 = join "." l2 -> l1 = l2.
Proof.
  induction l1 as [|a l1 IH]; intros [|b l2] H1 H2 H.
  - reflexivity.
  - exfalso. inversion H2; subst. now apply (join_ident b l2).
  - exfalso. inversion H1; subst. now apply (join_ident a l1).
  - inversion H1 as [|? ? Ha Hl1]; inversion H2 as [|? ? Hb Hl2]; subst. pose proof (ident_dots a Ha) as Da. pose proof (ident_dots b Hb) as Db.
    destruct l1 as [|a' l1], l2 as [|b' l2].
    + cbn in H. now subst.
    + exfalso. assert (D : dots (join "." [a]) = true); [|cbn [join] in D; congruence].
      rewrite H. cbn [join]. rewrite !dots_app. cbn. now rewrite orb_true_r.
    + exfalso. assert (D : dots (join "." [b]) = true); [|cbn [join] in D; congruence].
      rewrite <- H. cbn [join]. rewrite !dots_app. cbn. now rewrite orb_true_r.
    + change (a ++ "." ++ join "." (a' :: l1) = b ++ "." ++ join "." (b' :: l2)) in H.
      destruct (app_dot_inj _ _ _ _ Da Db H) as [-> Hj]. f_equal. now apply IH.
Qed.
Lemma removelast_last_eq : forall (l : list string), l <> [] -> l = (removelast l ++ [last l ""])%list.
Proof. intros l H. now apply app_removelast_last. Qed.
Lemma Forall_removelast : forall {A} (P : A -> Prop) l, Forall P l -> Forall P (removelast l).
Proof.
  intros A P l H. destruct l as [|x l]; [constructor|]. destruct (exists_last (l := x :: l)) as (l' & y & E); [discriminate|].
  rewrite E in *. rewrite removelast_last. now apply Forall_app in H.
Qed.

Lemma proper_args : forall args, fold_right (fun a P => proper_type a /\ P) True args <-> Forall proper_type args.
Proof.
  induction args as [|a l IH]; cbn; [now split|]. rewrite IH. split; [intros [H1 H2]; now constructor|intros H; inversion H; now split].
Qed.

Lemma visit_type_inj : forall a b, proper_type a -> proper_type b -> visit_type a = visit_type b -> strip_type a = strip_type b.
Proof.
  intros a. induction a as [n|s w|names args IH] using ctype_ind'; intros b Ha Hb H.
  1,2: (destruct (is_builtin b) eqn:Eb;
    [ apply ctype_eqb_eq;
      match goal with |- ctype_eqb (strip_type ?x) _ = _ =>
        pose proof (proper_builtin x Ha eq_refl) as Ia; pose proof (proper_builtin b Hb Eb) as Ib;
        pose proof builtin_table as T; rewrite forallb_forall in T; specialize (T _ Ia); cbv beta in T; rewrite forallb_forall in T; specialize (T _ Ib); cbv beta in T;
        rewrite H in T; destruct (builtin_shape b Eb) as (m & z & E); rewrite E in T;
        change (ref_eqb (TRef true "" m z []) (TRef true "" m z [])) with ((m =? m) && (z =? z)%Z) in T;
        rewrite String.eqb_refl, Z.eqb_refl in T; exact T
      end
    | destruct b as [| |names args]; try discriminate Eb; destruct Hb as (Hn & Hi & _); rewrite (visit_named names args Hn Hi) in H; discriminate H ]).
  destruct (is_builtin b) eqn:Eb.
  - destruct Ha as (Hn & Hi & _). rewrite (visit_named names args Hn Hi) in H. destruct (builtin_shape b Eb) as (m & z & E). congruence.
  - destruct b as [| |names' args']; try discriminate Eb. destruct Ha as (Hn & Hi & Hp). destruct Hb as (Hn' & Hi' & Hp').
    rewrite (visit_named _ _ Hn Hi), (visit_named _ _ Hn' Hi') in H. inversion H as [[H1 H2 H3]].
    cbn [strip_type]. f_equal.
    + rewrite (removelast_last_eq names Hn), (removelast_last_eq names' Hn'). rewrite H2. f_equal.
      apply join_inj; [now apply Forall_removelast|now apply Forall_removelast|assumption].
    + apply proper_args in Hp. apply proper_args in Hp'. rewrite Forall_forall in IH, Hp, Hp'.
      apply (map_eq visit_type strip_type); [|assumption]. intros x y Hx Hy E. apply IH; auto.
Qed.

(** ** Instantiations *)

Lemma visit_arg_inj : forall a b, visit_arg a = visit_arg b -> strip_arg a = strip_arg b.
Proof.
  intros [n|e] [m|e'] H; cbn in H |- *.
  - now inversion H.
  - f_equal. apply visit_expr_inj. exact H.
  - f_equal. apply visit_expr_inj. exact H.
  - f_equal. now apply visit_expr_inj.
Qed.
Lemma strip_arg_same : forall a, visit_arg (strip_arg a) = visit_arg a.
Proof. now intros [n|e]. Qed.
Lemma strip_inst_same : forall i, visit_inst (strip_inst i) = visit_inst i.
Proof.
  intros [t p]. unfold visit_inst, strip_inst. cbn [ci_type ci_params]. destruct p as [|l|e]; rewrite strip_type_same; try reflexivity.
  f_equal. rewrite map_map. apply map_ext. exact strip_arg_same.
Qed.
Lemma visit_inst_inj : forall a b, proper_inst a -> proper_inst b -> visit_inst a = visit_inst b -> strip_inst a = strip_inst b.
Proof.
  intros [t p] [t' p'] [Ht Hp] [Ht' Hp'] H. unfold visit_inst, strip_inst in *. cbn [ci_type ci_params] in *.
  assert (E : visit_type t = visit_type t' /\ match p with CArgs l => CArgs (map strip_arg l) | p => p end = match p' with CArgs l => CArgs (map strip_arg l) | p => p end).
  { destruct p as [|l|e], p' as [|l'|e']; inversion H as [[H1 H2]]; split; auto; try reflexivity.
    - congruence.
    - destruct l'; [now elim Hp'|discriminate].
    - destruct l; [now elim Hp|discriminate].
    - f_equal. apply (map_eq visit_arg strip_arg); [|assumption]. intros x y _ _. apply visit_arg_inj.
    - f_equal. now apply visit_expr_inj. }
  destruct E as [E1 E2]. f_equal; [now apply visit_type_inj|destruct p, p'; exact E2].
Qed.

(** ** Fields *)

Lemma strip_field_type_same : forall t, visit_field_type (strip_field_type t) = visit_field_type t.
Proof.
  intros [p i inst n r]. unfold visit_field_type, strip_field_type. cbn. destruct r as [r|]; cbn; rewrite strip_inst_same; reflexivity.
Qed.
Lemma visit_field_type_inj : forall a b z, proper_inst (ft_inst a) -> proper_inst (ft_inst b) ->
  visit_field_type a = Some z -> visit_field_type b = Some z -> strip_field_type a = strip_field_type b.
Proof.
  intros [p i inst n r] [p' i' inst' n' r'] z Ha Hb H1 H2. unfold visit_field_type, strip_field_type in *. cbn in *.
  destruct r as [r|], r' as [r'|]; cbn.
  - destruct i; [discriminate|]. destruct i'; [discriminate|]. subst z || idtac.
    assert (H : (n, visit_inst inst, Some (mkArray (visit_opt r) p)) = (n', visit_inst inst', Some (mkArray (visit_opt r') p'))) by congruence.
    inversion H as [[E1 E2 E3 E4]]. rewrite (visit_inst_inj _ _ Ha Hb E2), (visit_opt_inj _ _ E3). reflexivity.
  - destruct i; [discriminate|]. congruence.
  - destruct i'; [discriminate|]. congruence.
  - assert (H : (n, visit_inst inst, @None array) = (n', visit_inst inst', None)) by congruence.
    inversion H as [[E1 E2]]. now rewrite (visit_inst_inj _ _ Ha Hb E2).
Qed.
Lemma visit_field_type_none : forall t, visit_field_type t = None <-> implicit_array t.
Proof.
  intros [p i inst n r]. unfold visit_field_type, implicit_array. cbn. destruct r as [r|]; [|split; [discriminate|intros [_ []]; reflexivity]].
  destruct i; split; try discriminate; intros; try reflexivity; [split; [reflexivity|discriminate]|destruct H; discriminate].
Qed.

(** *** Alignments *)
Definition align_of (e : option cexpr) : option Z := match e with None => Some 0%Z | Some e => visit_alignment e end.
Lemma align_literal : forall t z, LiteralsSpec.int_literal Literals.TDecimal (list_ascii_of_string t) z ->
  visit_alignment (CLiteral Literals.TDecimal t) = if (z <=? 255)%Z then Some z else None.
Proof. intros t z H. unfold visit_alignment. now rewrite (LiteralsFacts.alignment_value _ _ _ H). Qed.
Lemma align_other : forall e z, visit_alignment e = Some z -> exists t, e = CLiteral Literals.TDecimal t.
Proof.
  intros e z H. destruct e; try discriminate H. cbn in H. destruct k; try discriminate H. eauto.
Qed.
Lemma string_of_ascii_inj : forall a b, list_ascii_of_string a = list_ascii_of_string b -> a = b.
Proof. intros a b H. rewrite <- (string_of_list_ascii_of_string a), <- (string_of_list_ascii_of_string b). now rewrite H. Qed.

Lemma strip_align_same : forall e, align_of (strip_align e) = align_of e.
Proof.
  intros e. destruct e as [e|]; [|reflexivity]. destruct e; try reflexivity. destruct k; try reflexivity.
  cbn [strip_align]. destruct t as [|c t]; [reflexivity|]. destruct c as [[|] [|] [|] [|] [|] [|] [|] [|]]; try reflexivity.
  destruct t; reflexivity.
Qed.

Import LiteralsSpec.
Lemma digit_ten : forall c c' d, digit c d -> digit c' d -> (d < 10)%nat -> c = c'.
Proof.
  intros c c' d H H' Hd. do 10 (destruct d as [|d]; [destruct H as [H|H], H' as [H'|H']; cbn in H, H'; congruence|]). lia.
Qed.
Definition no_zero (t : Files.text) : Prop := match t with [] => True | c :: _ => c <> "0"%char end.
Lemma no_zero_app : forall t c, no_zero (t ++ [c])%list -> t <> [] -> no_zero t.
Proof. intros [|x t] c H Ht; [easy|exact H]. Qed.
Lemma numeral_nonneg : forall t z, numeral 10 t z -> (0 <= z)%Z.
Proof. intros t z H. induction H; lia. Qed.
Lemma digit_zero : forall c, digit c 0 -> c = "0"%char.
Proof. intros c [H|H]; cbn in H; congruence. Qed.
Lemma numeral_positive : forall t z, numeral 10 t z -> no_zero t -> t <> [] -> (0 < z)%Z.
Proof.
  intros t z H. induction H as [|t z c d H IH Hd Hb]; intros Hn Ht; [easy|].
  destruct t as [|x t].
  - inversion H; subst.
    + destruct d; [|lia]. apply digit_zero in Hd. cbn in Hn. now elim Hn.
    + destruct t; discriminate.
  - specialize (IH (no_zero_app _ _ Hn ltac:(discriminate)) ltac:(discriminate)). lia.
Qed.
Lemma decimal_unique : forall t z, numeral 10 t z -> no_zero t -> forall t', numeral 10 t' z -> no_zero t' -> t = t'.
Proof.
  intros t z H. induction H as [|t z c d H IH Hd Hb]; intros Hn t' H' Hn'.
  - destruct t' as [|c t']; [reflexivity|]. pose proof (numeral_positive _ _ H' Hn' ltac:(discriminate)). lia.
  - inversion H' as [E1 E2|t2 z2 c2 d2 H2 Hd2 Hb2 E1 E2]; subst.
    + pose proof (numeral_positive (t ++ [c])%list (z * 10 + Z.of_nat d)%Z) as P. exfalso.
      assert ((0 < z * 10 + Z.of_nat d)%Z); [|lia]. apply P; [now constructor|assumption|now destruct t].
    + assert (z = z2 /\ d = d2) as [-> ->] by lia. rewrite (digit_ten c c2 d2 Hd Hd2) by lia. f_equal.
      destruct t as [|x t], t2 as [|x2 t2]; try reflexivity.
      * exfalso. inversion H; subst; [|destruct t; discriminate].
        pose proof (numeral_positive _ _ H2 (no_zero_app _ _ Hn' ltac:(discriminate)) ltac:(discriminate)). lia.
      * exfalso. inversion H2; subst; [|destruct t0; discriminate].
        pose proof (numeral_positive _ _ H (no_zero_app _ _ Hn ltac:(discriminate)) ltac:(discriminate)). lia.
      * apply IH; [now apply (no_zero_app _ c)|assumption|now apply (no_zero_app _ c2)].
Qed.
Lemma decimal_literal_unique : forall t t' z, int_literal Literals.TDecimal t z -> int_literal Literals.TDecimal t' z -> t = t'.
Proof.
  intros t t' z H H'. inversion H as [| | |E0 E1 E2|c u z0 Hc Hu E0 E1 E2]; inversion H' as [| | |E0' E1' E2'|c' u' z0' Hc' Hu' E0' E1' E2']; subst.
  - reflexivity.
  - exfalso. pose proof (numeral_positive _ _ Hu' Hc' ltac:(discriminate)). lia.
  - exfalso. pose proof (numeral_positive _ _ Hu Hc ltac:(discriminate)). lia.
  - now apply (decimal_unique _ z).
Qed.
Lemma literal_zero : forall t, int_literal Literals.TDecimal (list_ascii_of_string t) 0 -> t = "0".
Proof. intros t H. apply string_of_ascii_inj. apply (decimal_literal_unique _ _ 0%Z H). constructor. Qed.

Lemma align_inj : forall a b z, proper_align a -> proper_align b -> align_of a = Some z -> align_of b = Some z -> strip_align a = strip_align b.
Proof.
  assert (K : forall a z, proper_align a -> align_of a = Some z ->
    (z = 0%Z /\ strip_align a = None) \/ (z <> 0%Z /\ exists t, a = Some (CLiteral Literals.TDecimal t) /\ int_literal Literals.TDecimal (list_ascii_of_string t) z)).
  { intros [e|] z Hp H.
    - destruct (align_other _ _ H) as (t & ->). destruct (Hp t eq_refl) as (z' & Hz). cbn [align_of] in H. rewrite (align_literal _ _ Hz) in H.
      destruct (Z.leb_spec z' 255); [|discriminate]. assert (z' = z) by congruence. subst z'.
      destruct (Z.eq_dec z 0) as [->|Hn]; [left|right; eauto]. split; [reflexivity|]. now rewrite (literal_zero t Hz).
    - cbn in H. left. split; [congruence|reflexivity]. }
  intros a b z Ha Hb H1 H2. destruct (K a z Ha H1) as [[-> Ea]|(Hn & t & -> & Ht)].
  - destruct (K b 0%Z Hb H2) as [[_ Eb]|(Hn & _)]; [congruence|easy].
  - destruct (K b z Hb H2) as [[-> _]|(_ & t' & -> & Ht')]; [easy|].
    now rewrite (string_of_ascii_inj _ _ (decimal_literal_unique _ _ _ Ht Ht')).
Qed.

(** *** Fields of structs, choices and unions *)
Lemma visit_field_eq : forall f, visit_field f = match visit_field_type (cf_type f) with None => None | Some (n, t, a) =>
  match align_of (cf_align f) with None => None | Some al => Some (mkField n t a (cf_optional f) al (visit_opt (cf_init f)) (visit_opt (cf_if f)) (visit_opt (cf_constraint f))) end end.
Proof. reflexivity. Qed.
Lemma strip_field_same : forall f, visit_field (strip_field f) = visit_field f.
Proof. intros f. rewrite !visit_field_eq. cbn [strip_field cf_type cf_align cf_optional cf_init cf_if cf_constraint]. now rewrite strip_field_type_same, strip_align_same. Qed.
Lemma visit_field_inj : forall a b z, proper_field a -> proper_field b -> visit_field a = Some z -> visit_field b = Some z -> strip_field a = strip_field b.
Proof.
  intros a b z [Ha Aa] [Hb Ab] H1 H2. rewrite visit_field_eq in H1, H2.
  destruct (visit_field_type (cf_type a)) as [[[n t] r]|] eqn:Ea; [|discriminate]. destruct (align_of (cf_align a)) as [al|] eqn:La; [|discriminate].
  destruct (visit_field_type (cf_type b)) as [[[n' t'] r']|] eqn:Eb; [|discriminate]. destruct (align_of (cf_align b)) as [al'|] eqn:Lb; [|discriminate].
  rewrite <- H2 in H1. inversion H1 as [[E1 E2 E3 E4 E5 E6 E7 E8]]. subst n' t' r' al'.
  unfold strip_field. rewrite E4, (visit_opt_inj _ _ E6), (visit_opt_inj _ _ E7), (visit_opt_inj _ _ E8).
  now rewrite (align_inj _ _ al Aa Ab La Lb), (visit_field_type_inj _ _ _ Ha Hb Ea Eb).
Qed.
Lemma visit_field_none : forall f, proper_align (cf_align f) -> (visit_field f = None <-> bad_align f \/ implicit_array (cf_type f)).
Proof.
  intros f Hp. rewrite visit_field_eq. rewrite <- visit_field_type_none. destruct (visit_field_type (cf_type f)) as [[[n t] r]|]; [|split; [intros _; now right|reflexivity]].
  assert (E : align_of (cf_align f) = None <-> bad_align f).
  { unfold bad_align. destruct (cf_align f) as [e|] eqn:Ef; cbn [align_of].
    - split.
      + intros H. exists e. split; [reflexivity|]. intros (t' & z & -> & Hz & Hl). rewrite (align_literal _ _ Hz) in H.
        destruct (Z.leb_spec z 255); [discriminate|lia].
      + intros (e' & E & H). injection E as <-. destruct (visit_alignment e) as [z|] eqn:Ev; [|reflexivity]. exfalso. apply H.
        destruct (align_other _ _ Ev) as (t' & ->). destruct (Hp t' eq_refl) as (z' & Hz). exists t', z'. repeat split; auto.
        rewrite (align_literal _ _ Hz) in Ev. destruct (Z.leb_spec z' 255); [assumption|discriminate].
    - split; [discriminate|intros (e & H & _); discriminate]. }
  destruct (align_of (cf_align f)); split; try discriminate; intros H.
  - destruct H as [H|H]; [apply E in H; discriminate|discriminate].
  - left. now apply E.
  - reflexivity.
Qed.

Lemma strip_choice_field_same : forall f, visit_choice_field (strip_choice_field f) = visit_choice_field f.
Proof. intros f. unfold visit_choice_field, strip_choice_field. cbn. now rewrite strip_field_type_same. Qed.
Lemma visit_choice_field_inj : forall a b z, proper_choice_field a -> proper_choice_field b ->
  visit_choice_field a = Some z -> visit_choice_field b = Some z -> strip_choice_field a = strip_choice_field b.
Proof.
  intros a b z Ha Hb H1 H2. unfold visit_choice_field in *.
  destruct (visit_field_type (ccf_type a)) as [[[n t] r]|] eqn:Ea; [|discriminate].
  destruct (visit_field_type (ccf_type b)) as [[[n' t'] r']|] eqn:Eb; [|discriminate].
  rewrite <- H2 in H1. inversion H1. subst. unfold strip_choice_field. now rewrite (visit_field_type_inj _ _ _ Ha Hb Ea Eb).
Qed.
Lemma visit_choice_field_none : forall f, visit_choice_field f = None <-> implicit_array (ccf_type f).
Proof.
  intros f. rewrite <- visit_field_type_none. unfold visit_choice_field. destruct (visit_field_type (ccf_type f)) as [[[n t] r]|]; split; easy.
Qed.

(** ** Parameters and functions *)

Lemma strip_params_same : forall l, map visit_param (map strip_param l) = map visit_param l.
Proof. intros l. rewrite map_map. apply map_ext. intros [t n]. unfold visit_param, strip_param. cbn. now rewrite strip_type_same. Qed.
Lemma strip_functions_same : forall l, map visit_function (map strip_function l) = map visit_function l.
Proof. intros l. rewrite map_map. apply map_ext. intros [t n e]. unfold visit_function, strip_function. cbn. now rewrite strip_type_same. Qed.
Lemma visit_params_inj : forall a b, Forall proper_param a -> Forall proper_param b -> map visit_param a = map visit_param b -> map strip_param a = map strip_param b.
Proof.
  intros a b Ha Hb. rewrite Forall_forall in Ha, Hb. apply map_eq. intros [t n] [t' n'] Hx Hy H. unfold visit_param in H. cbn in H. inversion H.
  unfold strip_param. cbn. f_equal. apply visit_type_inj; [exact (Ha _ Hx)|exact (Hb _ Hy)|assumption].
Qed.
Lemma visit_functions_inj : forall a b, Forall proper_function a -> Forall proper_function b ->
  map visit_function a = map visit_function b -> map strip_function a = map strip_function b.
Proof.
  intros a b Ha Hb. rewrite Forall_forall in Ha, Hb. apply map_eq. intros [t n e] [t' n' e'] Hx Hy H. unfold visit_function in H. cbn in H.
  inversion H as [[E1 E2 E3]]. unfold strip_function. cbn. rewrite (visit_expr_inj _ _ E2).
  pose proof (visit_type_inj _ _ (Ha _ Hx) (Hb _ Hy) E3) as E. cbn in E. now rewrite E.
Qed.

(** ** Structs, unions and choices *)

Lemma struct_same : forall s, visit_struct (strip_struct s) = visit_struct s.
Proof.
  intros s. unfold visit_struct, strip_struct. cbn. rewrite strip_params_same, strip_functions_same.
  now rewrite (visit_all_map visit_field strip_field _ strip_field_same).
Qed.
Lemma struct_inj : forall a b z, proper_struct a -> proper_struct b -> visit_struct a = Some z -> visit_struct b = Some z -> strip_struct a = strip_struct b.
Proof.
  intros a b z (A1 & A2 & A3) (B1 & B2 & B3) H1 H2. unfold visit_struct in *.
  destruct (visit_all visit_field (cs_fields a)) as [fa|] eqn:Ea; [|discriminate]. destruct (visit_all visit_field (cs_fields b)) as [fb|] eqn:Eb; [|discriminate].
  rewrite <- H2 in H1. inversion H1 as [[E1 E2 E3 E4 E5]]. subst fb. unfold strip_struct. rewrite E1, E2.
  rewrite (visit_params_inj _ _ A1 B1 E3), (visit_functions_inj _ _ A3 B3 E5). f_equal.
  rewrite Forall_forall in A2, B2. apply (visit_all_eq visit_field strip_field _ _ fa); auto. intros x y w Hx Hy. apply visit_field_inj; auto.
Qed.
Lemma union_same : forall u, visit_union (strip_union u) = visit_union u.
Proof.
  intros s. unfold visit_union, strip_union. cbn. rewrite strip_params_same, strip_functions_same.
  now rewrite (visit_all_map visit_choice_field strip_choice_field _ strip_choice_field_same).
Qed.
Lemma union_inj : forall a b z, proper_union a -> proper_union b -> visit_union a = Some z -> visit_union b = Some z -> strip_union a = strip_union b.
Proof.
  intros a b z (A1 & A2 & A3) (B1 & B2 & B3) H1 H2. unfold visit_union in *.
  destruct (visit_all visit_choice_field (cu_fields a)) as [fa|] eqn:Ea; [|discriminate]. destruct (visit_all visit_choice_field (cu_fields b)) as [fb|] eqn:Eb; [|discriminate].
  rewrite <- H2 in H1. inversion H1 as [[E1 E2 E3 E4 E5]]. subst fb. unfold strip_union. rewrite E1, E2.
  rewrite (visit_params_inj _ _ A1 B1 E3), (visit_functions_inj _ _ A3 B3 E5). f_equal.
  rewrite Forall_forall in A2, B2. apply (visit_all_eq visit_choice_field strip_choice_field _ _ fa); auto. intros x y w Hx Hy. apply visit_choice_field_inj; auto.
Qed.

Definition strip_case (x : list cexpr * option cchoicefield) : list cexpr * option cchoicefield := (fst x, option_map strip_choice_field (snd x)).
Lemma strip_case_same : forall x, visit_case (strip_case x) = visit_case x.
Proof. intros [l [f|]]; [|reflexivity]. unfold visit_case, strip_case. cbn. now rewrite strip_choice_field_same. Qed.
Lemma visit_case_inj : forall a b z, proper_slot (snd a) -> proper_slot (snd b) -> visit_case a = Some z -> visit_case b = Some z -> strip_case a = strip_case b.
Proof.
  intros [l [f|]] [l' [f'|]] z Ha Hb H1 H2; unfold visit_case, strip_case in *; cbn in *.
  - destruct (visit_choice_field f) as [x|] eqn:E1; [|discriminate]. destruct (visit_choice_field f') as [x'|] eqn:E2; [|discriminate].
    rewrite <- H2 in H1. inversion H1 as [[H3 H4]]. subst x'. rewrite (visit_choice_field_inj _ _ _ Ha Hb E1 E2). f_equal.
    rewrite <- (map_id l), <- (map_id l'). apply (map_eq visit_expr (fun x => x)); [|assumption]. intros u v _ _. apply visit_expr_inj.
  - destruct (visit_choice_field f); congruence.
  - destruct (visit_choice_field f'); congruence.
  - rewrite <- H2 in H1. inversion H1 as [H3]. f_equal.
    rewrite <- (map_id l), <- (map_id l'). apply (map_eq visit_expr (fun x => x)); [|assumption]. intros u v _ _. apply visit_expr_inj.
Qed.
Lemma visit_case_none : forall x, visit_case x = None <-> bad_slot (snd x).
Proof.
  intros [l [f|]]; unfold visit_case, bad_slot; cbn.
  - pose proof (visit_choice_field_none f) as N. destruct (visit_choice_field f) as [y|].
    + split; [discriminate|]. intros (g & E & Hg). injection E as <-. apply N in Hg. discriminate.
    + split; [|reflexivity]. intros _. exists f. split; [reflexivity|now apply N].
  - split; [discriminate|]. intros (g & E & _). discriminate.
Qed.
Definition default_of (d : option (option cchoicefield)) : option (option case) :=
  match d with None => Some None | Some f => option_map Some (visit_case ([], f)) end.
Lemma visit_choice_eq : forall c, visit_choice c = match visit_all visit_case (cc_cases c), default_of (cc_default c) with
  | Some cases, Some d => Some (mkChoice (cc_name c) (cc_templates c) (map visit_param (cc_params c)) (visit_expr (cc_on c)) cases d (map visit_function (cc_functions c)))
  | _, _ => None end.
Proof. reflexivity. Qed.
Lemma choice_same : forall c, visit_choice (strip_choice c) = visit_choice c.
Proof.
  intros c. rewrite !visit_choice_eq. unfold strip_choice. cbn [cc_cases cc_default cc_name cc_templates cc_params cc_on cc_functions].
  rewrite strip_params_same, strip_functions_same. change (fun x => (fst x, option_map strip_choice_field (snd x))) with strip_case.
  rewrite (visit_all_map visit_case strip_case _ strip_case_same).
  assert (E : default_of (option_map (option_map strip_choice_field) (cc_default c)) = default_of (cc_default c)); [|now rewrite E].
  destruct (cc_default c) as [f|]; [|reflexivity]. cbn. change ([], option_map strip_choice_field f) with (strip_case ([], f)). now rewrite strip_case_same.
Qed.
Lemma choice_inj : forall a b z, proper_choice a -> proper_choice b -> visit_choice a = Some z -> visit_choice b = Some z -> strip_choice a = strip_choice b.
Proof.
  intros a b z (A1 & A2 & A3 & A4) (B1 & B2 & B3 & B4) H1 H2. rewrite visit_choice_eq in H1, H2.
  destruct (visit_all visit_case (cc_cases a)) as [ca|] eqn:Ea; [|discriminate]. destruct (default_of (cc_default a)) as [da|] eqn:Da; [|discriminate].
  destruct (visit_all visit_case (cc_cases b)) as [cb|] eqn:Eb; [|discriminate]. destruct (default_of (cc_default b)) as [db|] eqn:Db; [|discriminate].
  rewrite <- H2 in H1. inversion H1 as [[E1 E2 E3 E4 E5 E6 E7]]. subst cb db. unfold strip_choice. rewrite E1, E2.
  rewrite (visit_params_inj _ _ A1 B1 E3), (visit_functions_inj _ _ A4 B4 E7), (visit_expr_inj _ _ E4). f_equal.
  - change (fun x => (fst x, option_map strip_choice_field (snd x))) with strip_case.
    rewrite Forall_forall in A2, B2. apply (visit_all_eq visit_case strip_case _ _ ca); auto. intros x y w Hx Hy. apply visit_case_inj; auto.
  - destruct (cc_default a) as [fa|], (cc_default b) as [fb|]; cbn in Da, Db |- *.
    + destruct (visit_case ([], fa)) as [x|] eqn:X; [|discriminate]. destruct (visit_case ([], fb)) as [y|] eqn:Y; [|discriminate].
      cbn in Da, Db. assert (x = y) by congruence. subst y. pose proof (visit_case_inj ([], fa) ([], fb) x A3 B3 X Y) as K.
      unfold strip_case in K. cbn in K. congruence.
    + destruct (visit_case ([], fa)); cbn in Da; congruence.
    + destruct (visit_case ([], fb)); cbn in Db; congruence.
    + reflexivity.
Qed.
Lemma enum_same : forall e, visit_enum (strip_enum e) = visit_enum e.
Proof.
  intros e. unfold visit_enum, strip_enum. cbn. rewrite strip_inst_same, map_map. f_equal. apply map_ext. now intros [[m n] v].
Qed.
Lemma enum_inj : forall a b, proper_inst (ce_type a) -> proper_inst (ce_type b) -> visit_enum a = visit_enum b -> strip_enum a = strip_enum b.
Proof.
  intros a b Ha Hb H. unfold visit_enum in H. inversion H as [[E1 E2 E3]]. unfold strip_enum. rewrite E1, (visit_inst_inj _ _ Ha Hb E2). f_equal.
  revert E3. apply map_eq. intros [[m n] v] [[m' n'] v'] _ _ E. inversion E. f_equal. now apply visit_opt_inj.
Qed.
Lemma bitmask_same : forall b, visit_bitmask (strip_bitmask b) = visit_bitmask b.
Proof. intros b. unfold visit_bitmask, strip_bitmask. cbn. now rewrite strip_inst_same. Qed.
Lemma bitmask_inj : forall a b, proper_inst (cb_type a) -> proper_inst (cb_type b) -> visit_bitmask a = visit_bitmask b -> strip_bitmask a = strip_bitmask b.
Proof.
  intros a b Ha Hb H. unfold visit_bitmask in H. inversion H as [[E1 E2 E3]]. unfold strip_bitmask. rewrite E1, (visit_inst_inj _ _ Ha Hb E2). f_equal.
  rewrite <- (map_id (cb_values a)), <- (map_id (cb_values b)). revert E3. apply map_eq. intros [n v] [n' v'] _ _ E. inversion E. f_equal. now apply visit_opt_inj.
Qed.

(** ** Files *)

Lemma directives_none : forall l p, visit_directives p l = None <-> exists d, In d l /\
  match d with CStruct s => visit_struct s = None | CUnion u => visit_union u = None | CChoice c => visit_choice c = None | _ => False end.
Proof.
  induction l as [|d l IH]; intros p; cbn [visit_directives].
  - split; [discriminate|intros (d & [] & _)].
  - destruct (visit_directive p d) as [q|] eqn:E.
    + rewrite IH. split.
      * intros (x & Hx & H). exists x. split; [now right|assumption].
      * intros (x & [<-|Hx] & H); [|eauto]. exfalso. destruct d; try contradiction; cbn in E; rewrite H in E; discriminate.
    + split; [|reflexivity]. intros _. exists d. split; [now left|]. destruct d; cbn in E; try discriminate; [destruct (visit_struct s)|destruct (visit_choice c)|destruct (visit_union u)]; easy.
Qed.
Lemma struct_none : forall s, Forall (fun f => proper_align (cf_align f)) (cs_fields s) -> (visit_struct s = None <-> bad_directive (CStruct s)).
Proof.
  intros s Hp. rewrite Forall_forall in Hp. unfold visit_struct. cbn [bad_directive]. pose proof (visit_all_none visit_field (cs_fields s)) as N.
  assert (E : (exists x, In x (cs_fields s) /\ visit_field x = None) <-> exists f, In f (cs_fields s) /\ (bad_align f \/ implicit_array (cf_type f))).
  { split; intros (x & Hx & H); exists x; (split; [assumption|]); apply visit_field_none; auto. }
  rewrite <- E, <- N. destruct (visit_all visit_field (cs_fields s)); split; easy.
Qed.
Lemma union_none : forall u, visit_union u = None <-> bad_directive (CUnion u).
Proof.
  intros u. unfold visit_union. cbn [bad_directive]. pose proof (visit_all_none visit_choice_field (cu_fields u)) as N.
  assert (E : (exists x, In x (cu_fields u) /\ visit_choice_field x = None) <-> exists f, In f (cu_fields u) /\ implicit_array (ccf_type f)).
  { split; intros (x & Hx & H); exists x; (split; [assumption|]); now apply visit_choice_field_none. }
  rewrite <- E, <- N. destruct (visit_all visit_choice_field (cu_fields u)); split; easy.
Qed.
Lemma choice_none : forall c, visit_choice c = None <-> bad_directive (CChoice c).
Proof.
  intros c. rewrite visit_choice_eq. cbn [bad_directive]. pose proof (visit_all_none visit_case (cc_cases c)) as N.
  assert (E : (exists x, In x (cc_cases c) /\ visit_case x = None) <-> exists x, In x (cc_cases c) /\ bad_slot (snd x)).
  { split; intros (x & Hx & H); exists x; (split; [assumption|]); now apply visit_case_none. }
  rewrite <- E, <- N.
  assert (D : default_of (cc_default c) = None <-> exists f, cc_default c = Some f /\ bad_slot f).
  { destruct (cc_default c) as [f|]; cbn [default_of].
    - pose proof (visit_case_none ([], f)) as M. cbn [snd] in M. destruct (visit_case ([], f)); cbn [option_map].
      + split; [discriminate|]. intros (g & Eg & Hg). injection Eg as <-. apply M in Hg. discriminate.
      + split; [|reflexivity]. intros _. exists f. split; [reflexivity|now apply M].
    - split; [discriminate|]. intros (f & Ef & _). discriminate. }
  rewrite <- D. destruct (visit_all visit_case (cc_cases c)), (default_of (cc_default c)); split; intros H; try reflexivity; try discriminate; auto;
    destruct H; discriminate.
Qed.
Lemma file_crashes : forall f, Forall proper_aligns (cfl_directives f) ->
  (visit_file f = None <-> cfl_package f = None \/ exists d, In d (cfl_directives f) /\ bad_directive d).
Proof.
  intros f Hp. rewrite Forall_forall in Hp. unfold visit_file. destruct (cfl_package f) as [ids|]; [|split; [intros _; now left|reflexivity]].
  rewrite directives_none. split.
  - intros (d & Hd & H). right. exists d. split; [assumption|]. specialize (Hp d Hd). destruct d; try contradiction.
    + now apply struct_none.
    + now apply choice_none.
    + now apply union_none.
  - intros [H|(d & Hd & H)]; [discriminate|]. exists d. split; [assumption|]. specialize (Hp d Hd). destruct d; try contradiction.
    + now apply struct_none.
    + now apply choice_none.
    + now apply union_none.
Qed.

Lemma strip_directives_same : forall l p, visit_directives p (flat_map strip_directive l) = visit_directives p l.
Proof.
  induction l as [|d l IH]; intros p; [reflexivity|]. cbn [flat_map visit_directives].
  destruct d; cbn [strip_directive app visit_directives visit_directive];
    rewrite ?struct_same, ?union_same, ?choice_same, ?enum_same, ?bitmask_same, ?strip_type_same; unfold visit_const; rewrite ?strip_inst_same;
    try apply IH; [destruct (visit_struct s)|destruct (visit_choice c)|destruct (visit_union u)]; try apply IH; reflexivity.
Qed.
Lemma file_same : forall f, visit_file (strip_file f) = visit_file f.
Proof.
  intros f. unfold visit_file, strip_file. cbn. destruct (cfl_package f); [|reflexivity]. apply strip_directives_same.
Qed.

(** ** Imports *)

Lemma import_parts : forall i, cim_names i <> [] ->
  visit_import i = mkI (join "" (removelast (flat_map (fun n => [n; "."]) (cim_names i)))) (match cim_symbol i with None => "*" | Some _ => "." end).
Proof.
  intros [names s] Hn. cbn in Hn. unfold visit_import, import_children. cbn [cim_names cim_symbol].
  set (b := flat_map (fun n => [n; "."]) names).
  set (y := match s with Some n => n | None => "*" end).
  assert (E : firstn (length ("import" :: b ++ [y; ";"])%list - 3) (skipn 1 ("import" :: b ++ [y; ";"])%list) = b).
  { cbn [length skipn]. rewrite app_length. cbn [length].
    replace (S (length b + 2) - 3)%nat with (length b) by lia. rewrite firstn_app, firstn_all, Nat.sub_diag. cbn. apply app_nil_r. }
  cbv zeta. rewrite E. f_equal. destruct s; [|reflexivity].
  destruct (exists_last Hn) as (l & n & ->). subst b. rewrite flat_map_app. cbn [flat_map app].
  change [n; "."] with ([n] ++ ["."])%list. rewrite app_assoc. apply last_last.
Qed.
Lemma dotted : forall names, names <> [] -> join "" (removelast (flat_map (fun n => [n; "."]) names)) = join "." names.
Proof.
  assert (J : forall l, join "" l = fold_right append "" l).
  { induction l as [|a l IH]; [reflexivity|]. destruct l as [|b l].
    - cbn. induction a as [|c a IHa]; [reflexivity|]. cbn. now f_equal.
    - change (join "" (a :: b :: l)) with (a ++ "" ++ join "" (b :: l)). rewrite IH. reflexivity. }
  assert (A : forall a, a ++ "" = a) by (induction a as [|c a IHa]; [reflexivity|]; cbn; now f_equal).
  intros names Hn. rewrite J. induction names as [|a l IH]; [easy|]. destruct l as [|b l].
  - apply A.
  - change (flat_map (fun n => [n; "."]) (a :: b :: l)) with (a :: "." :: flat_map (fun n => [n; "."]) (b :: l)).
    assert (R : forall x y r, r <> [] -> removelast (x :: y :: r) = x :: y :: @removelast string r) by (intros x y [|z r] Hr; [easy|reflexivity]).
    rewrite R by discriminate. cbn [fold_right]. rewrite IH by discriminate. reflexivity.
Qed.
Lemma import_whole : forall names, names <> [] -> visit_import (mkCIm names None) = mkI (join "." names) "*".
Proof. intros names H. rewrite import_parts by assumption. cbn [cim_names cim_symbol]. now rewrite dotted. Qed.
Lemma import_single : forall names n, names <> [] -> visit_import (mkCIm names (Some n)) = mkI (join "." names) ".".
Proof. intros names n H. rewrite import_parts by assumption. cbn [cim_names cim_symbol]. now rewrite dotted. Qed.

(** ** Duplicates *)

(** A map of the package, for one kind of directives. *)
Lemma kind_map : forall {A B} (pick : cdirective -> option A) (name : A -> string) (value : A -> option B) (m : pkg -> list (string * B)),
  (forall p d q x, visit_directive p d = Some q -> pick d = Some x -> exists y, value x = Some y /\ m q = (name x, y) :: m p) ->
  (forall p d q, visit_directive p d = Some q -> pick d = None -> m q = m p) ->
  forall l p q, visit_directives p l = Some q -> forall n,
  (no_such pick name n l -> get n (m q) = get n (m p)) /\
  (forall x, last_such pick name n l x -> get n (m q) = value x).
Proof.
  intros A B pick name value m Hs Hn. induction l as [|d l IH]; intros p q H n.
  - cbn in H. injection H as <-. split; [reflexivity|]. intros x (l1 & d & l2 & E & _). destruct l1; discriminate.
  - cbn in H. destruct (visit_directive p d) as [p1|] eqn:E1; [|discriminate]. destruct (IH _ _ H n) as [I1 I2]. split.
    + intros Hno. rewrite I1 by (intros d' y Hd; apply Hno; now right). destruct (pick d) as [x|] eqn:Ep.
      * destruct (Hs _ _ _ _ E1 Ep) as (y & _ & ->). cbn. destruct (String.eqb_spec (name x) n) as [En|]; [|reflexivity].
        exfalso. apply (Hno d x); [now left|assumption|assumption].
      * now rewrite (Hn _ _ _ E1 Ep).
    + intros x (l1 & d' & l2 & E & Hp & Hx & Hl). destruct l1 as [|d1 l1]; cbn [app] in E; inversion E; subst.
      * rewrite I1 by (intros d0 y Hd Hy; eapply Hl; eassumption). destruct (Hs _ _ _ _ E1 Hp) as (y & -> & ->). cbn. now rewrite String.eqb_refl.
      * apply I2. exists l1, d', l2. repeat split; auto.
Qed.
Lemma struct_name : forall s y, visit_struct s = Some y -> s_name y = cs_name s.
Proof. intros s y H. unfold visit_struct in H. destruct (visit_all _ _); [|discriminate]. now injection H as <-. Qed.
Lemma choice_name : forall s y, visit_choice s = Some y -> c_name y = cc_name s.
Proof. intros s y H. rewrite visit_choice_eq in H. destruct (visit_all _ _); [|discriminate]. destruct (default_of _); [|discriminate]. now injection H as <-. Qed.
Lemma union_name : forall s y, visit_union s = Some y -> u_name y = cu_name s.
Proof. intros s y H. unfold visit_union in H. destruct (visit_all _ _); [|discriminate]. now injection H as <-. Qed.

(** ** References to imported types *)

Lemma import_of_complete : forall w l n, distinct w -> (forall i, In i l -> exists q, In q w /\ p_name q = i_package i) ->
  (exists i q s, In i l /\ i_type i = "*" /\ In q w /\ p_name q = i_package i /\ declares q n s) ->
  exists m, import_of w l n = Some m /\ m <> "".
Proof.
  intros w l n [Hd He]. induction l as [|i l IH]; intros Hk (j & q & s & Hj & Hs & Hq & Hn & Hdec); [destruct Hj|].
  cbn [import_of]. destruct (Hk i (or_introl eq_refl)) as (r & Hr & Hrn).
  destruct (position_first (i_package i) w Hd r Hr Hrn) as (k & Ek & En). rewrite Ek, En.
  destruct (((i_type i =? "*") || (i_type i =? n))%string && HasType r n) eqn:E.
  - exists (i_package i). split; [reflexivity|]. intros H0. apply He. rewrite <- H0, <- Hrn. now apply in_map.
  - destruct Hj as [<-|Hj].
    + exfalso. assert (q = r) by (eapply same_name; [exact Hd|assumption|assumption|congruence]). subst r.
      rewrite Hs in E. cbn in E. unfold HasType in E. unfold declares in Hdec. now rewrite Hdec in E.
    + apply IH; [intros x Hx; apply Hk; now right|]. exists j, q, s. auto.
Qed.
Lemma imported_reference : forall w p imports n bits, distinct w -> In p w -> ident n -> undeclared p n ->
  p_imports p = map visit_import imports -> Forall (fun i => cim_names i <> []) imports ->
  (forall i, In i (p_imports p) -> exists q, In q w /\ p_name q = i_package i) ->
  ((exists t', resolveTypeReference w p (mkTR false "" n bits) = Some t') <->
   exists i q s, In i imports /\ cim_symbol i = None /\ In q w /\ p_name q = join "." (cim_names i) /\ declares q n s).
Proof.
  intros w p imports n bits Hd Hp Hid Hu Hi Hn Hk. rewrite Forall_forall in Hn. split.
  - intros (t' & H). destruct (resolve_spec _ _ _ _ H Hp eq_refl) as (_ & _ & _ & (q & s & Hq & Hqn & Hqs) & _ & _ & Himp). cbn in Himp, Hqs.
    destruct (Himp eq_refl Hu) as (i & Hin & Hpk & Hty). rewrite Hi in Hin. apply in_map_iff in Hin as ([names sy] & <- & Hin).
    specialize (Hn _ Hin). cbn in Hn. destruct sy as [y|].
    + exfalso. rewrite (import_single names y Hn) in Hty. cbn in Hty. destruct Hty as [Hty|Hty]; [discriminate|].
      subst n. pose proof (ident_dots _ Hid) as D. discriminate D.
    + exists (mkCIm names None), q, s. rewrite (import_whole names Hn) in Hpk. cbn in Hpk |- *. repeat split; auto. congruence.
  - intros (i & q & s & Hin & Hsy & Hq & Hqn & Hdec). unfold resolveTypeReference. cbn [tr_builtin tr_package tr_name tr_bits negb String.eqb].
    unfold HasType. unfold undeclared in Hu. rewrite Hu.
    destruct (import_of_complete w (p_imports p) n Hd Hk) as (m & E & Hm).
    + exists (visit_import i), q, s. destruct i as [names sy]. cbn in Hsy, Hqn. subst sy. pose proof (Hn _ Hin) as Hne. cbn in Hne. rewrite Hi.
      split; [now apply in_map|]. rewrite (import_whole names Hne). cbn. auto.
    + rewrite E. destruct (String.eqb_spec m ""); [contradiction|]. eauto.
Qed.
Lemma directives_head : forall l p q, visit_directives p l = Some q -> vp_imports q = vp_imports p /\ vp_name q = vp_name p.
Proof.
  induction l as [|d l IH]; intros p q H; cbn in H; [now injection H as <-|].
  destruct (visit_directive p d) as [r|] eqn:E; [|discriminate]. destruct (IH _ _ H) as [-> ->].
  destruct d; cbn in E; try (injection E as <-; split; reflexivity);
    [destruct (visit_struct s)|destruct (visit_choice c)|destruct (visit_union u)]; try discriminate; injection E as <-; split; reflexivity.
Qed.
Lemma file_head : forall f v, visit_file f = Some v ->
  vp_imports v = map visit_import (cfl_imports f) /\ exists ids, cfl_package f = Some ids /\ vp_name v = join "." ids.
Proof.
  intros f v H. unfold visit_file in H. destruct (cfl_package f) as [ids|]; [|discriminate]. destruct (directives_head _ _ _ H) as [-> ->]. cbn. eauto.
Qed.

(** ** The maps of a file *)

Lemma file_kind : forall {A B} (pick : cdirective -> option A) (name : A -> string) (value : A -> option B) (m : pkg -> list (string * B)),
  (forall p d q x, visit_directive p d = Some q -> pick d = Some x -> exists y, value x = Some y /\ m q = (name x, y) :: m p) ->
  (forall p d q, visit_directive p d = Some q -> pick d = None -> m q = m p) ->
  (forall a b, m (mkPkg a b [] [] [] [] [] [] [] []) = []) ->
  forall f v n, visit_file f = Some v ->
  (no_such pick name n (cfl_directives f) -> get n (m v) = None) /\ (forall x, last_such pick name n (cfl_directives f) x -> get n (m v) = value x).
Proof.
  intros A B pick name value m H1 H2 H3 f v n H. unfold visit_file in H. destruct (cfl_package f) as [ids|]; [|discriminate].
  destruct (kind_map pick name value m H1 H2 _ _ _ H n) as [I1 I2]. split; [|assumption]. intros Hn. rewrite (I1 Hn), H3. reflexivity.
Qed.
Lemma file_structs : forall f v n, visit_file f = Some v ->
  (no_such pick_struct cs_name n (cfl_directives f) -> get n (vp_structs v) = None) /\
  (forall x, last_such pick_struct cs_name n (cfl_directives f) x -> get n (vp_structs v) = visit_struct x).
Proof.
  apply (file_kind pick_struct cs_name visit_struct vp_structs); [| |reflexivity]; intros p d q; [intros x|]; intros H Hp; destruct d; try discriminate Hp; cbn in H.
  all: try (injection H as <-; reflexivity).
  - injection Hp as <-. destruct (visit_struct s) as [y|] eqn:E; [|discriminate]. injection H as <-. exists y. cbn. now rewrite (struct_name _ _ E).
  - destruct (visit_choice c); [|discriminate]. now injection H as <-.
  - destruct (visit_union u); [|discriminate]. now injection H as <-.
Qed.
Lemma file_choices : forall f v n, visit_file f = Some v ->
  (no_such pick_choice cc_name n (cfl_directives f) -> get n (vp_choices v) = None) /\
  (forall x, last_such pick_choice cc_name n (cfl_directives f) x -> get n (vp_choices v) = visit_choice x).
Proof.
  apply (file_kind pick_choice cc_name visit_choice vp_choices); [| |reflexivity]; intros p d q; [intros x|]; intros H Hp; destruct d; try discriminate Hp; cbn in H.
  all: try (injection H as <-; reflexivity).
  - injection Hp as <-. destruct (visit_choice c) as [y|] eqn:E; [|discriminate]. injection H as <-. exists y. cbn. now rewrite (choice_name _ _ E).
  - destruct (visit_struct s); [|discriminate]. now injection H as <-.
  - destruct (visit_union u); [|discriminate]. now injection H as <-.
Qed.
Lemma file_unions : forall f v n, visit_file f = Some v ->
  (no_such pick_union cu_name n (cfl_directives f) -> get n (vp_unions v) = None) /\
  (forall x, last_such pick_union cu_name n (cfl_directives f) x -> get n (vp_unions v) = visit_union x).
Proof.
  apply (file_kind pick_union cu_name visit_union vp_unions); [| |reflexivity]; intros p d q; [intros x|]; intros H Hp; destruct d; try discriminate Hp; cbn in H.
  all: try (injection H as <-; reflexivity).
  - injection Hp as <-. destruct (visit_union u) as [y|] eqn:E; [|discriminate]. injection H as <-. exists y. cbn. now rewrite (union_name _ _ E).
  - destruct (visit_struct s); [|discriminate]. now injection H as <-.
  - destruct (visit_choice c); [|discriminate]. now injection H as <-.
Qed.
Lemma skip_kind : forall {B} (m : pkg -> list (string * B)) p d q,
  match d with CStruct _ | CChoice _ | CUnion _ => True | _ => False end ->
  (forall a b c e i s s' en u u' bm ch ch', m (mkPkg a b c e i s en u bm ch) = m (mkPkg a b c e i s' en u' bm ch')) ->
  visit_directive p d = Some q -> m q = m p.
Proof.
  intros B m p d q Hd Hm H. destruct p. destruct d; try contradiction; cbn in H.
  - destruct (visit_struct s); [|discriminate]. injection H as <-. apply Hm.
  - destruct (visit_choice c); [|discriminate]. injection H as <-. apply Hm.
  - destruct (visit_union u); [|discriminate]. injection H as <-. apply Hm.
Qed.
Lemma file_enums : forall f v n, visit_file f = Some v ->
  (no_such pick_enum ce_name n (cfl_directives f) -> get n (vp_enums v) = None) /\
  (forall x, last_such pick_enum ce_name n (cfl_directives f) x -> get n (vp_enums v) = Some (visit_enum x)).
Proof.
  apply (file_kind pick_enum ce_name (fun x => Some (visit_enum x)) vp_enums); [| |reflexivity]; intros p d q; [intros x|]; intros H Hp; destruct d; try discriminate Hp.
  all: try (cbn in H; injection H as <-; reflexivity); try ((refine (skip_kind vp_enums _ _ _ _ (fun _ _ _ _ _ _ _ _ _ _ _ _ _ => eq_refl) H); exact I)).
  injection Hp as <-. cbn in H. injection H as <-. eexists. split; reflexivity.
Qed.
Lemma file_bitmasks : forall f v n, visit_file f = Some v ->
  (no_such pick_bitmask cb_name n (cfl_directives f) -> get n (vp_bitmasks v) = None) /\
  (forall x, last_such pick_bitmask cb_name n (cfl_directives f) x -> get n (vp_bitmasks v) = Some (visit_bitmask x)).
Proof.
  apply (file_kind pick_bitmask cb_name (fun x => Some (visit_bitmask x)) vp_bitmasks); [| |reflexivity]; intros p d q; [intros x|]; intros H Hp; destruct d; try discriminate Hp.
  all: try (cbn in H; injection H as <-; reflexivity); try ((refine (skip_kind vp_bitmasks _ _ _ _ (fun _ _ _ _ _ _ _ _ _ _ _ _ _ => eq_refl) H); exact I)).
  injection Hp as <-. cbn in H. injection H as <-. eexists. split; reflexivity.
Qed.
Lemma file_consts : forall f v n, visit_file f = Some v ->
  (no_such pick_const (fun x => snd (fst x)) n (cfl_directives f) -> get n (vp_consts v) = None) /\
  (forall t e m, last_such pick_const (fun x => snd (fst x)) n (cfl_directives f) (t, m, e) -> get n (vp_consts v) = Some (visit_const t m e)).
Proof.
  intros f v n H. destruct (file_kind pick_const (fun x => snd (fst x)) (fun x => Some (visit_const (fst (fst x)) (snd (fst x)) (snd x))) vp_consts) with (f := f) (v := v) (n := n) as [I1 I2]; auto.
  - intros p d q x Hd Hp; destruct d; try discriminate Hp. injection Hp as <-. cbn in Hd. injection Hd as <-. eexists. split; reflexivity.
  - intros p d q Hd Hp; destruct d; try discriminate Hp.
    all: try (cbn in Hd; injection Hd as <-; reflexivity); (refine (skip_kind vp_consts _ _ _ _ (fun _ _ _ _ _ _ _ _ _ _ _ _ _ => eq_refl) Hd); exact I).
  - split; [assumption|]. intros t e m Hx. now rewrite (I2 _ Hx).
Qed.
Lemma file_subtypes : forall f v n, visit_file f = Some v ->
  (no_such pick_subtype snd n (cfl_directives f) -> get n (vp_subtypes v) = None) /\
  (forall t m, last_such pick_subtype snd n (cfl_directives f) (t, m) -> get n (vp_subtypes v) = Some (visit_type t)).
Proof.
  intros f v n H. destruct (file_kind pick_subtype snd (fun x => Some (visit_type (fst x))) vp_subtypes) with (f := f) (v := v) (n := n) as [I1 I2]; auto.
  - intros p d q x Hd Hp; destruct d; try discriminate Hp. injection Hp as <-. cbn in Hd. injection Hd as <-. eexists. split; reflexivity.
  - intros p d q Hd Hp; destruct d; try discriminate Hp.
    all: try (cbn in Hd; injection Hd as <-; reflexivity); (refine (skip_kind vp_subtypes _ _ _ _ (fun _ _ _ _ _ _ _ _ _ _ _ _ _ => eq_refl) Hd); exact I).
  - split; [assumption|]. intros t m Hx. now rewrite (I2 _ Hx).
Qed.
Lemma file_instantiated : forall f v n, visit_file f = Some v ->
  (no_such pick_instantiate snd n (cfl_directives f) -> get n (vp_instantiated v) = None) /\
  (forall t m, last_such pick_instantiate snd n (cfl_directives f) (t, m) -> get n (vp_instantiated v) = Some (visit_type t)).
Proof.
  intros f v n H. destruct (file_kind pick_instantiate snd (fun x => Some (visit_type (fst x))) vp_instantiated) with (f := f) (v := v) (n := n) as [I1 I2]; auto.
  - intros p d q x Hd Hp; destruct d; try discriminate Hp. injection Hp as <-. cbn in Hd. injection Hd as <-. eexists. split; reflexivity.
  - intros p d q Hd Hp; destruct d; try discriminate Hp.
    all: try (cbn in Hd; injection Hd as <-; reflexivity); (refine (skip_kind vp_instantiated _ _ _ _ (fun _ _ _ _ _ _ _ _ _ _ _ _ _ => eq_refl) Hd); exact I).
  - split; [assumption|]. intros t m Hx. now rewrite (I2 _ Hx).
Qed.

(** ** Equal trees *)

Lemma same_trees :
  (forall a b, visit_expr a = visit_expr b <-> a = b) /\
  (forall a b x y, proper_struct a -> proper_struct b -> visit_struct a = Some x -> visit_struct b = Some y -> (x = y <-> strip_struct a = strip_struct b)) /\
  (forall a b x y, proper_union a -> proper_union b -> visit_union a = Some x -> visit_union b = Some y -> (x = y <-> strip_union a = strip_union b)) /\
  (forall a b x y, proper_choice a -> proper_choice b -> visit_choice a = Some x -> visit_choice b = Some y -> (x = y <-> strip_choice a = strip_choice b)) /\
  (forall a b, proper_inst (ce_type a) -> proper_inst (ce_type b) -> (visit_enum a = visit_enum b <-> strip_enum a = strip_enum b)) /\
  (forall a b, proper_inst (cb_type a) -> proper_inst (cb_type b) -> (visit_bitmask a = visit_bitmask b <-> strip_bitmask a = strip_bitmask b)) /\
  (forall a b, proper_type a -> proper_type b -> (visit_type a = visit_type b <-> strip_type a = strip_type b)).
Proof.
  split; [|split; [|split; [|split; [|split; [|split]]]]].
  - intros a b. split; [apply visit_expr_inj|now intros ->].
  - intros a b x y Pa Pb Ha Hb. split; intros E; [subst y; now apply (struct_inj a b x)|].
    rewrite <- struct_same in Ha, Hb. rewrite E in Ha. congruence.
  - intros a b x y Pa Pb Ha Hb. split; intros E; [subst y; now apply (union_inj a b x)|].
    rewrite <- union_same in Ha, Hb. rewrite E in Ha. congruence.
  - intros a b x y Pa Pb Ha Hb. split; intros E; [subst y; now apply (choice_inj a b x)|].
    rewrite <- choice_same in Ha, Hb. rewrite E in Ha. congruence.
  - intros a b Pa Pb. split; intros E; [now apply enum_inj|]. rewrite <- (enum_same a), <- (enum_same b). now rewrite E.
  - intros a b Pa Pb. split; intros E; [now apply bitmask_inj|]. rewrite <- (bitmask_same a), <- (bitmask_same b). now rewrite E.
  - intros a b Pa Pb. split; intros E; [now apply visit_type_inj|]. rewrite <- (strip_type_same a), <- (strip_type_same b). now rewrite E.
Qed.
