(** The members of a schema file in the Go code for it: lemmas for ExprCodeThms.v. *)

Require Import ZArith String Ascii List Bool Lia ZifyBool ZifyNat.
From Verif Require Import Bits BitsFacts Traits Schema.
From Verif Require Literals LiteralsSpec LiteralsFacts CodecChoiceSpec AstExpr AstTypes AstTypesSpec AstTypesThms GoSyntax ExprPrint ExprPrintSpec ExprPrintFacts GoTypes GoTypesSpec GoTypesFacts.
From Verif Require Members MembersSpec MembersFacts PackagesSpec Names.
From Verif Require Import Packages Visitor VisitorSpec VisitorFacts Parser FileParser Compile CompileSpec CompileFacts CompileThms ExprCode ExprCodeSpec ExprValue.
Import ListNotations.
Open Scope string_scope.
Open Scope list_scope.

(** ** Lists *)

Lemma distinct_ok : forall l, distinctb l = true -> NoDup l.
Proof.
  induction l as [|x l IH]; cbn; [constructor|]. intros H. apply andb_prop in H. destruct H as (H1 & H2). constructor; [|auto].
  intros I. apply negb_true_iff in H1. assert (existsb (String.eqb x) l = true); [|congruence]. apply existsb_exists. exists x. split; [exact I|apply String.eqb_refl].
Qed.
Lemma get_app : forall {A} n (l m : list (string * A)), get n (l ++ m) = match get n l with Some x => Some x | None => get n m end.
Proof. induction l as [|(k, v) l IH]; intros m; cbn; [reflexivity|]. destruct (k =? n)%string; [reflexivity|apply IH]. Qed.
Lemma get_entries : forall {A B} (f : A -> B) n l, get n (entries f l) = option_map f (get n l).
Proof. induction l as [|(k, v) l IH]; cbn; [reflexivity|]. destruct (k =? n)%string; [reflexivity|apply IH]. Qed.
Lemma get_numbered_at : forall {A B} (f : nat -> B) n (l : list (string * A)) k a, get n l = Some a ->
  exists i, get n (map (fun x => (fst (snd x), f (fst x))) (combine (seq k (length l)) l)) = Some (f (k + i)%nat) /\ nth_error l i = Some (n, a).
Proof.
  induction l as [|(m, v) l IH]; intros k a H; [discriminate|]. cbn [get length seq combine map fst snd nth_error] in *. destruct (String.eqb_spec m n) as [->|N].
  - exists O. rewrite Nat.add_0_r. cbn. split; congruence.
  - destruct (IH (Datatypes.S k) a H) as (i & G & E). exists (Datatypes.S i). rewrite <- Nat.add_succ_comm. split; [exact G|exact E].
Qed.
Lemma get_numbered : forall {A B} (f : nat -> B) n (l : list (string * A)) a, get n l = Some a -> exists i, get n (numbered f l) = Some (f i) /\ nth_error l i = Some (n, a).
Proof. intros A B f n l a H. exact (get_numbered_at f n l 0 a H). Qed.
Lemma get_numbered_none : forall {A B} (f : nat -> B) n (l : list (string * A)), get n l = None -> get n (numbered f l) = None.
Proof.
  intros A B f n l. unfold numbered. generalize 0%nat. induction l as [|(m, v) l IH]; intros k H; [reflexivity|]. cbn [get length seq combine map fst snd] in *.
  destruct (m =? n)%string; [discriminate|]. now apply IH.
Qed.
Lemma names_numbered : forall {A B} (f : nat -> B) (l : list (string * A)), map fst (numbered f l) = map fst l.
Proof.
  intros A B f l. unfold numbered. generalize 0%nat. induction l as [|(m, v) l IH]; intros k; [reflexivity|]. cbn [length seq combine map fst snd]. f_equal. apply IH.
Qed.
Lemma get_in : forall {A} n (l : list (string * A)) x, get n l = Some x -> In (n, x) l.
Proof. induction l as [|(k, v) l IH]; cbn; [discriminate|]. intros x H. destruct (String.eqb_spec k n) as [->|N]; [left; congruence|right; auto]. Qed.
Lemma get_unique : forall {A} n (l : list (string * A)) x, NoDup (map fst l) -> In (n, x) l -> get n l = Some x.
Proof.
  induction l as [|(k, v) l IH]; cbn; intros x D I; [contradiction|]. inversion D; subst. destruct I as [I|I].
  - injection I as -> ->. now rewrite String.eqb_refl.
  - destruct (String.eqb_spec k n) as [->|N]; [|auto]. exfalso. apply H1. apply in_map_iff. exists (n, x). auto.
Qed.
Lemma get_not : forall {A} n (l : list (string * A)), ~ In n (map fst l) -> get n l = None.
Proof. induction l as [|(k, v) l IH]; cbn; intros I; [reflexivity|]. destruct (String.eqb_spec k n) as [->|N]; [exfalso; auto|auto]. Qed.
Lemma NoDup_map : forall {A B} (f : A -> B) l, NoDup (map f l) -> NoDup l.
Proof. intros A B f. exact (NoDup_map_inv f). Qed.
Lemma nth_lt : forall {A} (l : list A) i x, nth_error l i = Some x -> (i < length l)%nat.
Proof. intros A l i x H. apply nth_error_Some. congruence. Qed.
Lemma NoDup_right : forall {A} (l m : list A), NoDup (l ++ m) -> NoDup m.
Proof. induction l as [|x l IH]; cbn; intros m H; [exact H|]. inversion H; subst. auto. Qed.
Lemma NoDup_at : forall {A B} (f : A -> B) l i j x y, NoDup (map f l) -> nth_error l i = Some x -> nth_error l j = Some y -> f x = f y -> i = j.
Proof.
  intros A B f l i j x y D Hi Hj E. apply (proj1 (NoDup_nth_error _) D).
  - rewrite map_length. apply nth_error_Some. congruence.
  - rewrite !nth_error_map, Hi, Hj. cbn. now rewrite E.
Qed.

(** ** Names in Go *)

Definition lower (s : string) : bool := match s with String c _ => let k := nat_of_ascii c in (97 <=? k)%nat && (k <=? 122)%nat | EmptyString => true end.
Lemma upper_not : forall c r, lower (String (Members.upper c) r) = false.
Proof.
  intros c r. cbn [lower]. unfold Members.upper. destruct ((97 <=? nat_of_ascii c) && (nat_of_ascii c <=? 122))%nat eqn:E; [|exact E].
  apply andb_prop in E. destruct E as (E1 & E2). apply Nat.leb_le in E1, E2. rewrite nat_ascii_embedding by lia. destruct (97 <=? nat_of_ascii c - 32)%nat eqn:X; [apply Nat.leb_le in X; lia|reflexivity].
Qed.
Lemma title_defined : forall n, GoTypes.find_name (Members.title n) GoTypes.predeclared = None.
Proof.
  intros n. assert (L : forall m, lower m = false -> GoTypes.find_name m GoTypes.predeclared = None).
  { intros m H. unfold GoTypes.predeclared. cbn [GoTypes.find_name].
    repeat match goal with |- context [String.eqb ?a m] => destruct (String.eqb_spec a m) as [<-|_]; [discriminate H|] end. reflexivity. }
  destruct n as [|c r]; [reflexivity|]. apply L. apply upper_not.
Qed.

(** ** Types *)

Lemma int_builtin : forall t g, int_type t g -> exists n bits go, visit_type t = Visitor.TRef true "" n bits [] /\ AstTypes.GoType (AstExpr.mkT n bits false) = Some go /\
  GoTypes.find_name go GoTypes.predeclared = Some (GoTypes.KInt g) /\ GoTypesSpec.integer (AstExpr.mkT n bits false).
Proof.
  intros t g [n g' H|signed w g' W S].
  - assert (X : AstTypes.VisitTypeReference n = AstExpr.mkT n 0 false /\ exists go, AstTypes.GoType (AstExpr.mkT n 0 false) = Some go /\ GoTypes.find_name go GoTypes.predeclared = Some (GoTypes.KInt g') /\
      exists r, In (n, r) AstTypesSpec.named_range).
    { unfold int_names in H. repeat (destruct H as [H|H]; [injection H as <- <-; split; [reflexivity|]; eexists; split; [reflexivity|]; split; [reflexivity|];
        eexists; cbn; repeat (first [left; reflexivity|right])|]). contradiction. }
    destruct X as (V & go & G & F & r & R). exists n, 0%Z, go. cbn [visit_type]. rewrite V. split; [reflexivity|]. split; [exact G|]. split; [exact F|].
    exists r. now apply AstTypesSpec.range_named.
  - pose proof (visit_width signed w W) as V. destruct (existsb (Nat.eqb w) [8; 16; 32; 64]%nat) eqn:X.
    + apply existsb_exists in X. destruct X as (x & I & E). apply Nat.eqb_eq in E. subst x. exists ((if signed then "int" else "uint") ++ string_of_list_ascii (Files.decimal w))%string, 0%Z.
      assert (g' = Z.of_nat w). { destruct S as (_ & S1 & S2). specialize (S2 (Z.of_nat w)). cbn in I, S2. lia. } subst g'.
      destruct I as [<-|[<-|[<-|[<-|[]]]]]; destruct signed; (eexists; split; [exact V|]; split; [reflexivity|]; split; [reflexivity|];
        eexists; apply AstTypesSpec.range_named; cbn; repeat (first [left; reflexivity|right])).
    + exists (if signed then "int" else "bit"), (Z.of_nat w). destruct S as (S & S1 & S2). assert (S3 := S2 8%Z). assert (S4 := S2 16%Z). assert (S5 := S2 32%Z). assert (S6 := S2 64%Z). cbn [In] in S3, S4, S5, S6. clear S2.
      destruct S as [<-|[<-|[<-|[<-|[]]]]]; destruct signed;
        (eexists; split; [exact V|]; split; [unfold AstTypes.GoType; cbn [AstExpr.t_name AstExpr.t_bits AstExpr.t_dynamic String.eqb Ascii.eqb Bool.eqb orb]; unfold AstTypes.goBits;
           repeat match goal with |- context [(?a =? ?b)%Z] => replace (a =? b)%Z with false by lia | |- context [(?a <=? ?b)%Z] => first [replace (a <=? b)%Z with false by lia|replace (a <=? b)%Z with true by lia] end; reflexivity|];
         split; [reflexivity|]; eexists; constructor; lia).
Qed.

(** A file with the package that the visitor makes of it, for which there is code. *)
Definition coded (f : cfile) (p : pkg) : Prop :=
  visit_file f = Some p /\ declared_once (cfl_directives f) /\ Forall ident (flat_map declares (cfl_directives f)) /\ code_ok p = true.

Lemma coded_ok : forall f p, coded f p ->
  vp_instantiated p = [] /\ vp_name p <> "" /\ NoDup (map Members.title (map fst (type_symbols p))) /\
  (forall n k, In (n, k) (vp_consts p) -> const_ok p n k = true) /\
  (forall n s, In (n, s) (vp_structs p) -> struct_ok p s = true) /\ (forall n c, In (n, c) (vp_choices p) -> choice_ok p c = true) /\
  (forall n u, In (n, u) (vp_unions p) -> union_ok p u = true).
Proof.
  intros f p (_ & _ & _ & H). unfold code_ok in H. repeat (apply andb_prop in H; destruct H as (H & ?)).
  assert (N : none_of (vp_instantiated p) = true) by assumption. destruct (vp_instantiated p) as [|] eqn:Ei; [|discriminate N]. split; [reflexivity|].
  match goal with X : negb (vp_name p =? "") = true |- _ => apply negb_true_iff, String.eqb_neq in X; split; [exact X|] end.
  match goal with X : distinctb _ = true |- _ => apply distinct_ok in X; split; [exact X|] end.
  repeat match goal with X : forallb _ _ = true |- _ => rewrite forallb_forall in X end.
  split.
  - intros n k I. match goal with X : forall x, In x (vp_consts p) -> _ |- _ => specialize (X _ I); apply andb_prop in X; apply X end.
  - split; [|split]; intros n x I.
    + match goal with X : forall x, In x (vp_structs p) -> _ |- _ => exact (X _ I) end.
    + match goal with X : forall x, In x (vp_choices p) -> _ |- _ => exact (X _ I) end.
    + match goal with X : forall x, In x (vp_unions p) -> _ |- _ => exact (X _ I) end.
Qed.

Lemma coded_searchable : forall f p, coded f p -> MembersSpec.searchable (menv_of p) (package_of p).
Proof.
  intros f p C. destruct (coded_ok f p C) as (_ & N & _). split; [|split; [|split]].
  - split; cbn; [constructor; [tauto|constructor]|]. intros [X|[]]. auto.
  - left. reflexivity.
  - intros q R (r & R1 & X). assert (Z : forall r, PackagesSpec.reach [package_of p] (package_of p) r -> r = package_of p).
    { intros r' H. induction H as [|q' r' H IH X']; [reflexivity|]. subst q'. destruct X'. }
    assert (q = package_of p) by (now apply Z). subst q. assert (r = package_of p) by (now apply Z). subst r. destruct X.
  - cbn. lia.
Qed.

(** The types that are declared in a file. *)
Definition declared_symbol (p : pkg) (d : cdirective) : option sym :=
  match d with
  | CConst t _ _ => Some (SyConst (tyref_of p (visit_type (ci_type t))))
  | CSubtype t _ => Some (Packages.SySubtype (tyref_of p (visit_type t)))
  | _ => None
  end.
Lemma inst_ref : forall i, ti_ref (visit_inst i) = visit_type (ci_type i).
Proof. intros [t [|l|e]]; reflexivity. Qed.
Lemma symbol_declared : forall f p d n s, coded f p -> In d (cfl_directives f) -> In n (declares d) -> declared_symbol p d = Some s -> get n (type_symbols p) = Some s.
Proof.
  intros f p d n s (V & O & _ & _) I N S. destruct (tables f p d n V O I N) as (T1 & T2 & T3 & T4 & T5 & T6 & T7 & T8).
  assert (T : get n (vp_enums p) = None) by (destruct d; try discriminate S; assumption). apply (get_numbered_none SyEnum) in T.
  unfold type_symbols. rewrite !get_app, !get_entries, T. destruct d; try discriminate S; cbn in T1, T2, T3, T4, T5, T6, T7, T8, S; rewrite ?T1, ?T2, ?T3, ?T4, ?T5, ?T6, ?T7, ?T8; cbn; try (exact S).
  now rewrite inst_ref.
Qed.
Lemma symbol_none : forall f p n, coded f p -> visible (cfl_directives f) n -> get n (type_symbols p) = None.
Proof.
  intros f p n (V & _ & _ & _) N. pose proof (tables_none f p n V N) as T. unfold Compile.find_symbol, has in T. unfold type_symbols. rewrite !get_app, !get_entries.
  destruct (get n (vp_choices p)); [discriminate T|]. destruct (get n (vp_bitmasks p)); [discriminate T|]. destruct (get n (vp_unions p)); [discriminate T|].
  destruct (get n (vp_enums p)) eqn:En; [discriminate T|]. rewrite (get_numbered_none SyEnum n _ En). destruct (get n (vp_structs p)); [discriminate T|]. destruct (get n (vp_consts p)); [discriminate T|].
  destruct (get n (vp_instantiated p)); [discriminate T|]. destruct (get n (vp_subtypes p)); [discriminate T|]. reflexivity.
Qed.
Lemma coded_global : forall f p n, coded f p -> visible (cfl_directives f) n -> MembersSpec.not_global (menv_of p) (package_of p) n.
Proof. intros f p n C N. split; [exact (symbol_none f p n C N)|]. intros q []. Qed.

Lemma coded_means : forall f p k t t' n bits, coded f p -> stands_for (cfl_directives f) k t t' -> visit_type t' = Visitor.TRef true "" n bits [] ->
  MembersSpec.means [package_of p] (package_of p) (tyref_of p (visit_type t)) k (MembersSpec.Builtin (mkTR true "" n bits)).
Proof.
  intros f p k t t' n bits C H V. induction H as [t|k m t t' I H IH].
  - rewrite V. now apply MembersSpec.means_builtin.
  - pose proof C as (_ & _ & Id & _). rewrite (single m) by (eapply declared_ident; eauto; now left). cbn [tyref_of]. apply (MembersSpec.means_subtype _ _ _ (package_of p) (tyref_of p (visit_type t))).
    + reflexivity.
    + apply PackagesSpec.reach_self.
    + reflexivity.
    + cbn. exact (symbol_declared f p (CSubtype t m) m _ C I (or_introl eq_refl) eq_refl).
    + apply IH. exact V.
Qed.

Lemma find_only : forall {A} (P : A -> bool) l x, In x l -> P x = true -> (forall y, In y l -> P y = true -> y = x) -> find P l = Some x.
Proof.
  induction l as [|y l IH]; intros x I H U; [contradiction|]. cbn. destruct (P y) eqn:E.
  - f_equal. apply U; [now left|exact E].
  - apply IH; [destruct I as [->|I]; [congruence|exact I]|exact H|]. intros z Iz Hz. apply U; [now right|exact Hz].
Qed.
Lemma title_once : forall f p x y, coded f p -> In x (vp_subtypes p) -> In y (vp_subtypes p) -> Members.title (fst x) = Members.title (fst y) -> x = y.
Proof.
  intros f p x y C Ix Iy E. destruct (coded_ok f p C) as (_ & _ & D & _). unfold type_symbols in D. rewrite !map_app in D. do 7 (apply NoDup_right in D).
  unfold entries in D. rewrite !map_map in D. cbn [fst] in D.
  apply In_nth_error in Ix. destruct Ix as (i & Hi). apply In_nth_error in Iy. destruct Iy as (j & Hj).
  assert (i = j) by (eapply (NoDup_at _ _ i j x y D Hi Hj E)). congruence.
Qed.

Lemma coded_kind : forall f p c k t t' n bits go' kd, coded f p -> (k <= 100)%nat -> stands_for (cfl_directives f) k t t' -> visit_type t' = Visitor.TRef true "" n bits [] ->
  AstTypes.GoType (AstExpr.mkT n bits false) = Some go' -> GoTypes.find_name go' GoTypes.predeclared = Some kd ->
  exists go, go_type_of p (visit_type t) = Some go /\ GoTypes.kind_of (genv_of p c) go = Some kd.
Proof.
  intros f p c k t t' n bits go' kd C K H V G F. pose proof C as (Vf & O & Id & _). destruct (coded_ok f p C) as (_ & N & _). pose proof H as H0. destruct H as [t|k m t t' I H].
  - exists go'. rewrite V. split; [exact G|]. unfold GoTypes.kind_of. now rewrite F.
  - assert (Im : ident m) by (eapply declared_ident; eauto; now left). rewrite (single m Im) in *. exists (Members.title m). split.
    + unfold go_type_of, tyref_of, Members.PackageGoType. cbn [tr_builtin tr_package tr_name]. rewrite String.eqb_refl. destruct (String.eqb_spec (vp_name p) ""); [congruence|reflexivity].
    + unfold GoTypes.kind_of. rewrite title_defined. cbn [GoTypes.g_types genv_of]. unfold named_kind.
      destruct (tables f p (CSubtype t m) m Vf O I (or_introl eq_refl)) as (_ & _ & _ & _ & _ & _ & T & _). apply get_in in T.
      rewrite (find_only _ _ (m, visit_type t) T).
      * cbn [fst]. rewrite <- (single m Im). replace 101%nat with (Datatypes.S k + (100 - k))%nat by lia. rewrite (original f p (Datatypes.S k) (CNamed [m] []) t' _ false Vf O Id H0), V.
        replace (100 - k)%nat with (Datatypes.S (99 - k)) by lia. cbn [GetOriginalType]. unfold builtin_kind. now rewrite G.
      * cbn. apply String.eqb_refl.
      * intros y Iy E. apply String.eqb_eq in E. exact (title_once f p y _ C Iy T E).
Qed.

(** ** Enums *)

Lemma symbol_enum : forall f p e, coded f p -> In (CEnum e) (cfl_directives f) ->
  exists i, get (ce_name e) (type_symbols p) = Some (SyEnum i) /\ nth_error (vp_enums p) i = Some (ce_name e, visit_enum e).
Proof.
  intros f p e (V & O & _ & _) I. destruct (tables f p (CEnum e) (ce_name e) V O I (or_introl eq_refl)) as (T1 & T2 & T3 & T4 & T5 & T6 & T7 & T8).
  destruct (get_numbered SyEnum _ _ _ T4) as (i & G & N). exists i. split; [|exact N]. unfold type_symbols. rewrite !get_app, !get_entries, T2, T5, T3. cbn [option_map]. now rewrite G.
Qed.
Lemma enum_means : forall f p k t e, coded f p -> In (CEnum e) (cfl_directives f) -> stands_for (cfl_directives f) k t (CNamed [ce_name e] []) ->
  exists i, nth_error (vp_enums p) i = Some (ce_name e, visit_enum e) /\
    MembersSpec.means [package_of p] (package_of p) (tyref_of p (visit_type t)) k (MembersSpec.Declared (SyEnum i)).
Proof.
  intros f p k t e C Ie H. destruct (symbol_enum f p e C Ie) as (i & G & N). exists i. split; [exact N|]. pose proof C as (_ & _ & Id & _).
  assert (Ide : ident (ce_name e)) by (eapply declared_ident; [exact Id|exact Ie|now left]). remember (CNamed [ce_name e] []) as t' eqn:Et.
  induction H as [t|k m t t' I H IH]; subst.
  - rewrite (single _ Ide). cbn [tyref_of]. apply (MembersSpec.means_declared _ _ _ (package_of p)); [reflexivity|apply PackagesSpec.reach_self|reflexivity|exact G|exact Logic.I].
  - rewrite (single m) by (eapply declared_ident; eauto; now left). cbn [tyref_of]. apply (MembersSpec.means_subtype _ _ _ (package_of p) (tyref_of p (visit_type t))).
    + reflexivity.
    + apply PackagesSpec.reach_self.
    + reflexivity.
    + cbn. exact (symbol_declared f p (CSubtype t m) m _ C I (or_introl eq_refl) eq_refl).
    + apply IH. reflexivity.
Qed.

Lemma NoDup_left : forall {A} (l m : list A), NoDup (l ++ m) -> NoDup l.
Proof. induction l as [|x l IH]; cbn; intros m H; [constructor|]. inversion H; subst. constructor; [intros I; apply H2; apply in_or_app; now left|eauto]. Qed.
Lemma NoDup_disjoint : forall {A} (l m : list A) x, NoDup (l ++ m) -> In x l -> In x m -> False.
Proof.
  induction l as [|y l IH]; intros m x D I J; [contradiction|]. cbn in D. inversion D as [|? ? N D']; subst. destruct I as [->|I]; [apply N, in_or_app; now right|exact (IH m x D' I J)].
Qed.
Lemma enum_title : forall f p x y, coded f p -> In x (vp_enums p) -> In y (vp_enums p) -> Members.title (fst x) = Members.title (fst y) -> x = y.
Proof.
  intros f p x y C Ix Iy E. destruct (coded_ok f p C) as (_ & _ & D & _). unfold type_symbols in D. rewrite !map_app in D. do 3 (apply NoDup_right in D). apply NoDup_left in D.
  rewrite names_numbered, map_map in D. apply In_nth_error in Ix. destruct Ix as (i & Hi). apply In_nth_error in Iy. destruct Iy as (j & Hj).
  assert (i = j) by (eapply (NoDup_at _ _ i j x y D Hi Hj E)). congruence.
Qed.
Lemma enum_no_subtype : forall f p x y, coded f p -> In x (vp_enums p) -> In y (vp_subtypes p) -> Members.title (fst x) <> Members.title (fst y).
Proof.
  intros f p x y C Ix Iy E. destruct (coded_ok f p C) as (_ & _ & D & _). unfold type_symbols in D. rewrite !map_app in D. do 3 (apply NoDup_right in D).
  rewrite names_numbered in D. unfold entries in D. rewrite !map_map in D. cbn [fst] in D. refine (NoDup_disjoint _ _ (Members.title (fst x)) D _ _).
  - rewrite <- map_map. now apply in_map, in_map.
  - do 3 (apply in_or_app; right). rewrite E. exact (in_map (fun z => Members.title (fst z)) _ _ Iy).
Qed.
Lemma enum_under_kind : forall f p e g, coded f p -> has_int (cfl_directives f) (ci_type (ce_type e)) g -> enum_kind p (visit_enum e) = Some (GoTypes.KInt g).
Proof.
  intros f p e g C (k & t' & K & H & It). pose proof C as (Vf & O & Id & _). destruct (int_builtin t' g It) as (n & bits & go & Vt & G & F & _).
  unfold enum_kind, visit_enum. cbn [e_type]. rewrite inst_ref. replace 101%nat with (k + (101 - k))%nat by lia. rewrite (original f p k _ t' _ false Vf O Id H), Vt.
  replace (101 - k)%nat with (Datatypes.S (100 - k)) by lia. cbn [GetOriginalType]. unfold builtin_kind. now rewrite G.
Qed.
Lemma enum_code : forall f p c t e g, coded f p -> has_enum (cfl_directives f) t e -> has_int (cfl_directives f) (ci_type (ce_type e)) g ->
  exists go, go_type_of p (visit_type t) = Some go /\ GoTypes.kind_of (genv_of p c) go = Some (GoTypes.KInt g).
Proof.
  intros f p c t e g C (k & K & H & Ie) Hg. pose proof C as (Vf & O & Id & _). destruct (coded_ok f p C) as (_ & N & _).
  assert (Ide : ident (ce_name e)) by (eapply declared_ident; [exact Id|exact Ie|now left]). pose proof (enum_under_kind f p e g C Hg) as Ek.
  destruct (tables f p (CEnum e) (ce_name e) Vf O Ie (or_introl eq_refl)) as (U1 & U2 & U3 & U4 & U5 & _).
  assert (Named : forall m, ident m -> go_type_of p (visit_type (CNamed [m] [])) = Some (Members.title m)).
  { intros m Im. rewrite (single m Im). unfold go_type_of, tyref_of, Members.PackageGoType. cbn [tr_builtin tr_package tr_name]. rewrite String.eqb_refl. destruct (String.eqb_spec (vp_name p) ""); [congruence|reflexivity]. }
  pose proof H as H0. remember (CNamed [ce_name e] []) as t' eqn:Et. destruct H as [t|k m t t' I H]; subst.
  - exists (Members.title (ce_name e)). split; [exact (Named _ Ide)|]. unfold GoTypes.kind_of. rewrite title_defined. cbn [GoTypes.g_types genv_of]. unfold named_kind.
    pose proof (get_in _ _ _ U4) as J.
    destruct (find (fun s => (Members.title (fst s) =? Members.title (ce_name e))%string) (vp_subtypes p)) as [s|] eqn:Fs.
    { apply find_some in Fs. destruct Fs as (Is & Q). apply String.eqb_eq in Q. exfalso. exact (enum_no_subtype f p _ s C J Is (eq_sym Q)). }
    rewrite (find_only _ _ (ce_name e, visit_enum e) J); [exact Ek|cbn; apply String.eqb_refl|]. intros y Iy E. apply String.eqb_eq in E. exact (enum_title f p y _ C Iy J E).
  - assert (Im : ident m) by (exact (declared_ident _ _ m Id I (or_introl eq_refl))). exists (Members.title m). split; [exact (Named m Im)|].
    unfold GoTypes.kind_of. rewrite title_defined. cbn [GoTypes.g_types genv_of]. unfold named_kind.
    destruct (tables f p (CSubtype t m) m Vf O I (or_introl eq_refl)) as (_ & _ & _ & _ & _ & _ & T & _). apply get_in in T.
    rewrite (find_only _ _ (m, visit_type t) T).
    + cbn [fst]. rewrite <- (single m Im). replace 101%nat with (Datatypes.S k + (100 - k))%nat by lia. rewrite (original f p (Datatypes.S k) (CNamed [m] []) _ _ false Vf O Id H0), (single _ Ide).
      replace (100 - k)%nat with (Datatypes.S (99 - k)) by lia. cbn [GetOriginalType]. unfold Compile.find_symbol, has. rewrite U1, U2, U3, U4, U5. cbn [orb]. now rewrite U4.
    + cbn. apply String.eqb_refl.
    + intros y Iy E. apply String.eqb_eq in E. exact (title_once f p y _ C Iy T E).
Qed.

(** The numbers of items. *)
Lemma literal_value : forall k t z v, LiteralsSpec.int_literal k (list_ascii_of_string t) z -> Literals.eval_literal k (list_ascii_of_string t) = Some (Literals.VInt v) -> v = z /\ (0 <= z < 2 ^ 63)%Z.
Proof.
  intros k t z v H E. destruct (LiteralsFacts.int_literal_value k _ z H) as (P & A & B).
  assert (N : ~ (2 ^ 63 <= z \/ LiteralsFacts.upper_binary k (list_ascii_of_string t))%Z). { intros Q. apply B in Q. now rewrite Q in E. }
  assert (L : (z < 2 ^ 63)%Z) by (destruct (Z.lt_ge_cases z (2 ^ 63)); [assumption|exfalso; apply N; now left]).
  assert (X : Literals.eval_literal k (list_ascii_of_string t) = Some (Literals.VInt z)) by (apply A; split; [exact L|tauto]). split; [congruence|]. split; [exact P|exact L].
Qed.
Lemma signed_value : forall e z r, signed_literal e z -> item_value (visit_expr e) = Some r -> r = int_result z /\ (-2 ^ 63 <= z < 2 ^ 63)%Z.
Proof.
  intros e z r [k t y L|k t y L] Q; cbn [visit_expr uop_token fst snd item_value] in Q; (destruct (Literals.eval_literal k (list_ascii_of_string t)) as [[v| | |]|] eqn:El; try discriminate Q; destruct (literal_value k t y v L El) as (-> & R)).
  - injection Q as <-. split; [reflexivity|]. lia.
  - assert (Eu : fst (AstExpr.eval_unary true true (int_result y)) = int_result (- y)) by (unfold AstExpr.eval_unary, int_result; cbn; unfold i64; rewrite to_s_small; [reflexivity|lia|lia]).
    rewrite Eu in Q. injection Q as <-. split; [reflexivity|]. lia.
Qed.
Definition item_entry (x : option mark * string * option cexpr) : string * option Visitor.expr := let '(_, n, v) := x in (n, visit_opt v).
Lemma items_counted : forall items next l, items_from next items l -> forall prev r,
  match prev with None => next = 0%Z | Some q => AstExpr.r_type q = AstExpr.TyInt /\ next = (AstExpr.r_int q + 1)%Z /\ (-2 ^ 63 <= AstExpr.r_int q < 2 ^ 63)%Z end ->
  item_values prev (map item_entry items) = Some r -> map (fun x => (fst x, AstExpr.r_int (snd x))) r = l.
Proof.
  intros items next l H. induction H as [next|next m x v z items l L H IH|next m x items l B H IH]; intros prev r P Q; cbn [map item_entry item_values visit_opt option_map] in Q.
  - injection Q as <-. reflexivity.
  - destruct (item_value (visit_expr v)) as [q|] eqn:Ev; [|discriminate Q]. destruct (signed_value v z q L Ev) as (-> & R).
    destruct (item_values (Some (int_result z)) (map item_entry items)) as [r'|] eqn:Er; [|discriminate]. injection Q as <-. cbn. f_equal. apply (IH (Some (int_result z)) r'); [|exact Er]. cbn [int_result AstExpr.r_type AstExpr.r_int]. split; [reflexivity|]. split; [reflexivity|]. lia.
  - assert (En : AstExpr.enum_next prev = Some (AstExpr.int_result next)).
    { destruct prev as [q|]; [|subst next; reflexivity]. destruct P as (Ty & -> & R). cbn. rewrite Ty. cbn. unfold i64. rewrite to_s_small; [reflexivity|lia|lia]. }
    rewrite En in Q. destruct (item_values (Some (AstExpr.int_result next)) (map item_entry items)) as [r'|] eqn:Er; [|discriminate]. injection Q as <-. cbn. f_equal.
    apply (IH (Some (AstExpr.int_result next)) r'); [|exact Er]. cbn [AstExpr.int_result AstExpr.r_type AstExpr.r_int]. split; [reflexivity|]. split; [reflexivity|]. destruct prev as [q|]; lia.
Qed.
Lemma get_values : forall (r : list (string * AstExpr.result)) x z, NoDup (map fst r) -> In (x, z) (map (fun y => (fst y, AstExpr.r_int (snd y))) r) ->
  forall v, get x r = Some v -> AstExpr.r_int v = z.
Proof.
  intros r x z D I v G. apply in_map_iff in I. destruct I as ((x', v') & E & I). cbn in E. injection E as -> <-. rewrite (get_unique _ _ _ D I) in G. congruence.
Qed.
Lemma item_number : forall p i e x z v, nth_error (vp_enums p) i = Some (ce_name e, visit_enum e) -> item_of e x z -> get x (enum_values p i) = Some v -> AstExpr.r_int v = z.
Proof.
  intros p i e x z v N (l & H & D & I) G. unfold enum_values in G. rewrite N in G. unfold visit_enum in G. cbn [e_items] in G. change (fun '(_, n, v) => (n, visit_opt v)) with item_entry in G.
  destruct (item_values None (map item_entry (ce_items e))) as [r|] eqn:Er; [|discriminate]. pose proof (items_counted _ _ _ H None r eq_refl Er) as M. subst l.
  refine (get_values r x z _ I v G). rewrite map_map in D. exact D.
Qed.

Lemma item_const : forall f p j e n r, coded f p -> nth_error (vp_enums p) j = Some (ce_name e, visit_enum e) -> get n (enum_values p j) = Some r ->
  get (Members.title (ce_name e) ++ Names.item_name n)%string (item_consts p) = Some (Members.title (ce_name e), AstExpr.r_int r).
Proof.
  intros f p j e n r (_ & _ & _ & H) N G. unfold code_ok in H. repeat (apply andb_prop in H; destruct H as (H & ?)).
  apply distinct_ok in H. apply get_unique; [exact (NoDup_left _ _ H)|]. unfold enum_values in G. rewrite N in G. apply in_flat_map. exists (ce_name e, visit_enum e). split; [exact (nth_error_In _ _ N)|].
  cbn [fst snd]. destruct (item_values None (e_items (visit_enum e))) as [l|]; [|discriminate]. apply get_in in G. apply in_map_iff. exists (n, r). split; [reflexivity|exact G].
Qed.
Lemma title_index : forall n x, ident n -> (Members.title n ++ x =? "index")%string = false.
Proof.
  intros [|c r] x H; [destruct H as (H & _); now destruct H|]. apply String.eqb_neq. intros E. cbn [Members.title String.append] in E. injection E as E _.
  destruct c as [[] [] [] [] [] [] [] []]; vm_compute in E; discriminate.
Qed.

(** ** Members *)

Lemma visit_nth : forall {A B} (v : A -> option B) l r i x, visit_all v l = Some r -> nth_error l i = Some x -> exists y, v x = Some y /\ nth_error r i = Some y.
Proof.
  induction l as [|a l IH]; intros r i x H I; [destruct i; discriminate|]. cbn in H. destruct (v a) as [b|] eqn:Va; [|discriminate]. destruct (visit_all v l) as [r'|]; [|discriminate].
  injection H as <-. destruct i as [|i]; [injection I as ->; exists b; auto|]. exact (IH r' i x eq_refl I).
Qed.

Definition slots_of (ps : list param) (fs : list Visitor.field) : list slot := param_slots ps ++ field_slots fs.
Definition is_array (f : Visitor.field) : bool := match f_array f with Some _ => true | None => false end.
Definition names_of (ps : list param) (fs : list Visitor.field) : list string := map fst ps ++ map f_name fs.
Definition placed (ps : list param) (fs : list Visitor.field) (s : slot) : Prop :=
  match sl_place s with
  | inl i => nth_error ps i = Some (sl_name s, sl_type s) /\ sl_array s = false
  | inr i => exists f, nth_error fs i = Some f /\ sl_name s = f_name f /\ sl_type s = ti_ref (f_type f) /\ sl_array s = is_array f
  end.
Lemma combine_seq : forall {A} (l : list A) i x k, In (i, x) (combine (seq k (length l)) l) -> (k <= i)%nat /\ nth_error l (i - k) = Some x.
Proof.
  induction l as [|a l IH]; intros i x k H; [contradiction|]. cbn in H. destruct H as [H|H].
  - injection H as <- <-. split; [lia|]. now rewrite Nat.sub_diag.
  - destruct (IH i x (Datatypes.S k) H) as (L & E). split; [lia|]. replace (i - k)%nat with (Datatypes.S (i - Datatypes.S k)) by lia. exact E.
Qed.
Lemma slot_placed : forall ps fs s, In s (slots_of ps fs) -> placed ps fs s.
Proof.
  intros ps fs s H. apply in_app_or in H. destruct H as [H|H].
  - apply in_map_iff in H. destruct H as ((i & (n & t)) & <- & H). apply combine_seq in H. destruct H as (_ & H). rewrite Nat.sub_0_r in H. unfold placed. cbn. auto.
  - apply in_flat_map in H. destruct H as ((i & f) & I & H). cbn [snd fst] in H. destruct (f_optional f || _); [contradiction|]. destruct H as [<-|[]].
    apply combine_seq in I. destruct I as (_ & I). rewrite Nat.sub_0_r in I. unfold placed. cbn. exists f. auto.
Qed.
Definition position_of (ps : list param) (s : slot) : nat := match sl_place s with inl i => i | inr i => (length ps + i)%nat end.
Lemma placed_name : forall ps fs s, placed ps fs s -> nth_error (names_of ps fs) (position_of ps s) = Some (sl_name s).
Proof.
  intros ps fs s H. unfold placed, position_of, names_of, param in *. destruct (sl_place s) as [i|i].
  - destruct H as (H & _). rewrite nth_error_app1; [|rewrite map_length; exact (nth_lt _ _ _ H)]. exact (map_nth_error fst i ps H).
  - destruct H as (f & H & N & _). rewrite nth_error_app2 by (rewrite map_length; lia). rewrite map_length. replace (length ps + i - length ps)%nat with i by lia. rewrite nth_error_map, H. cbn. now rewrite N.
Qed.
Lemma placed_position : forall ps fs s s', placed ps fs s -> placed ps fs s' -> position_of ps s = position_of ps s' -> s = s'.
Proof.
  intros ps fs s s' H H' E. destruct s as [n t pl a], s' as [n' t' pl' a']. unfold placed, position_of in *. cbn in *.
  assert (B : forall i x, nth_error ps i = Some x -> (i < length ps)%nat) by (intros i x X; exact (nth_lt _ _ _ X)).
  destruct pl as [i|i], pl' as [j|j].
  - subst j. destruct H as (H & ->), H' as (H' & ->). rewrite H in H'. injection H' as <- <-. reflexivity.
  - destruct H as (H & _). apply B in H. lia.
  - destruct H' as (H' & _). apply B in H'. lia.
  - assert (i = j) by lia. subst j. destruct H as (f & H & -> & -> & ->), H' as (f' & H' & -> & -> & ->). rewrite H in H'. injection H' as <-. reflexivity.
Qed.
Lemma slot_found : forall ps fs s, NoDup (map Members.title (names_of ps fs)) -> In s (slots_of ps fs) ->
  find (fun x => (Members.title (sl_name x) =? Members.title (sl_name s))%string) (slots_of ps fs) = Some s.
Proof.
  intros ps fs s D I. apply find_only; [exact I|apply String.eqb_refl|]. intros y Iy E. apply String.eqb_eq in E.
  apply slot_placed in I, Iy. apply (placed_position ps fs _ _ Iy I). exact (NoDup_at _ _ _ _ _ _ D (placed_name ps fs y Iy) (placed_name ps fs s I) E).
Qed.
Lemma slot_known : forall ps fs x, existsb (fun s => (sl_name s =? x)%string) (slots_of ps fs) = true -> exists s, In s (slots_of ps fs) /\ sl_name s = x.
Proof. intros ps fs x H. apply existsb_exists in H. destruct H as (s & I & E). apply String.eqb_eq in E. eauto. Qed.
Lemma slot_param : forall ps fs s i x t, NoDup (map Members.title (names_of ps fs)) -> In s (slots_of ps fs) -> sl_name s = x -> nth_error ps i = Some (x, t) ->
  s = mkSlot x t (inl i) false.
Proof.
  intros ps fs s i x t D I N H. apply (placed_position ps fs); [now apply slot_placed|cbn; auto|]. apply slot_placed in I.
  apply (NoDup_at _ _ _ _ _ x D (placed_name ps fs s I)); [|now rewrite N]. exact (placed_name ps fs (mkSlot x t (inl i) false) (conj H eq_refl)).
Qed.
Lemma slot_field : forall ps fs s i f, NoDup (map Members.title (names_of ps fs)) -> In s (slots_of ps fs) -> sl_name s = f_name f -> nth_error fs i = Some f ->
  s = mkSlot (f_name f) (ti_ref (f_type f)) (inr i) (is_array f).
Proof.
  intros ps fs s i f D I N H. assert (P : placed ps fs (mkSlot (f_name f) (ti_ref (f_type f)) (inr i) (is_array f))) by (cbn; eauto).
  apply (placed_position ps fs); [now apply slot_placed|exact P|]. apply slot_placed in I. apply (NoDup_at _ _ _ _ _ (f_name f) D (placed_name ps fs s I)); [|now rewrite N]. exact (placed_name ps fs _ P).
Qed.

Lemma member_get : forall p ps fs x sy, NoDup (names_of ps fs) -> In (x, sy) (field_symbols p fs ++ param_symbols p ps) -> get x (field_symbols p fs ++ param_symbols p ps) = Some sy.
Proof.
  intros p ps fs x sy D I. apply get_unique; [|exact I]. rewrite map_app. unfold field_symbols, param_symbols. rewrite !map_rev, !map_map. cbn [fst]. rewrite <- rev_app_distr. apply NoDup_rev. exact D.
Qed.
Lemma param_symbol : forall p ps fs i x t, nth_error ps i = Some (x, t) -> In (x, SyParameter (tyref_of p t)) (field_symbols p fs ++ param_symbols p ps).
Proof. intros p ps fs i x t H. apply in_or_app. right. apply -> in_rev. apply in_map_iff. exists (x, t). split; [reflexivity|exact (nth_error_In _ _ H)]. Qed.
Lemma field_symbol : forall p ps fs i f, nth_error fs i = Some f -> In (f_name f, SyField (tyref_of p (ti_ref (f_type f))) (is_array f)) (field_symbols p fs ++ param_symbols p ps).
Proof. intros p ps fs i f H. apply in_or_app. left. apply -> in_rev. apply in_map_iff. exists f. split; [reflexivity|exact (nth_error_In _ _ H)]. Qed.

Lemma coded_struct : forall f p s, coded f p -> In (CStruct s) (cfl_directives f) -> exists sd, visit_struct s = Some sd /\
  get (cs_name s) (vp_structs p) = Some sd /\ get (cs_name s) (vp_choices p) = None /\ struct_ok p sd = true.
Proof.
  intros f p s C I. pose proof C as (V & O & _ & _). destruct (tables f p (CStruct s) (cs_name s) V O I (or_introl eq_refl)) as (T1 & T2 & _).
  pose proof (visited f p (CStruct s) V I) as N. cbn in N. destruct (visit_struct s) as [sd|]; [|congruence]. exists sd. split; [reflexivity|]. split; [exact T1|]. split; [exact T2|].
  destruct (coded_ok f p C) as (_ & _ & _ & _ & S & _). exact (S _ _ (get_in _ _ _ T1)).
Qed.
Lemma coded_choice : forall f p c, coded f p -> In (CChoice c) (cfl_directives f) -> exists cd, visit_choice c = Some cd /\
  get (cc_name c) (vp_choices p) = Some cd /\ choice_ok p cd = true.
Proof.
  intros f p s C I. pose proof C as (V & O & _ & _). destruct (tables f p (CChoice s) (cc_name s) V O I (or_introl eq_refl)) as (_ & T1 & _).
  pose proof (visited f p (CChoice s) V I) as N. cbn in N. destruct (visit_choice s) as [sd|]; [|congruence]. exists sd. split; [reflexivity|]. split; [exact T1|].
  destruct (coded_ok f p C) as (_ & _ & _ & _ & _ & S & _). exact (S _ _ (get_in _ _ _ T1)).
Qed.
Lemma coded_union : forall f p u, coded f p -> In (CUnion u) (cfl_directives f) -> exists ud, visit_union u = Some ud /\
  get (cu_name u) (vp_unions p) = Some ud /\ get (cu_name u) (vp_structs p) = None /\ get (cu_name u) (vp_choices p) = None /\ union_ok p ud = true.
Proof.
  intros f p s C I. pose proof C as (V & O & _ & _). destruct (tables f p (CUnion s) (cu_name s) V O I (or_introl eq_refl)) as (T2 & T3 & T1 & _).
  pose proof (visited f p (CUnion s) V I) as N. cbn in N. destruct (visit_union s) as [sd|]; [|congruence]. exists sd. split; [reflexivity|]. split; [exact T1|]. split; [exact T2|]. split; [exact T3|].
  destruct (coded_ok f p C) as (_ & _ & _ & _ & _ & _ & S). exact (S _ _ (get_in _ _ _ T1)).
Qed.

Lemma visited_field : forall c y, visit_field c = Some y -> f_name y = ft_name (cf_type c) /\ f_type y = visit_inst (ft_inst (cf_type c)) /\
  is_array y = (match ft_range (cf_type c) with Some _ => true | None => false end) /\ f_optional y = cf_optional c /\ f_if y = visit_opt (cf_if c) /\
  (forall len, ft_range (cf_type c) = Some len -> exists a, f_array y = Some a /\ a_length a = visit_opt len).
Proof.
  intros c y H. unfold visit_field, visit_field_type in H. destruct (ft_range (cf_type c)) as [len|]; [destruct (ft_implicit (cf_type c)); [discriminate|]|];
    (destruct (match cf_align c with None => _ | Some e => _ end); [|discriminate]; injection H as <-; cbn; split; [reflexivity|]; split; [reflexivity|]; split; [reflexivity|]; split; [reflexivity|]; split; [reflexivity|]);
    intros l E; [injection E as <-; eauto|discriminate].
Qed.

(** The functions of a struct hide no member. *)
Lemma member_among : forall p ps fs fns x sy, NoDup (map Members.title (names_of ps fs ++ map fn_name fns)) -> In (x, sy) (field_symbols p fs ++ param_symbols p ps) ->
  get x (function_symbols fns ++ field_symbols p fs ++ param_symbols p ps) = Some sy.
Proof.
  intros p ps fs fns x sy D I. apply NoDup_map in D. rewrite get_app. pose proof (member_get p ps fs x sy (NoDup_left _ _ D) I) as G.
  destruct (get x (function_symbols fns)) as [y|] eqn:F; [|exact G]. exfalso. apply get_in in F. unfold function_symbols in F. apply in_rev in F. apply in_map_iff in F.
  destruct F as (g & E & Ig). injection E as <- _. apply get_in in G. apply (in_map fst) in G. rewrite map_app in G. unfold field_symbols, param_symbols in G.
  rewrite !map_rev, !map_map in G. cbn [fst] in G. rewrite <- rev_app_distr in G. apply in_rev in G. change (In (fn_name g) (names_of ps fs)) in G.
  apply (in_map fn_name) in Ig. clear - D G Ig. revert D G. generalize (names_of ps fs). intros l0. induction l0 as [|n l IH]; intros D G; [contradiction|]. inversion D. destruct G as [->|G]; [|now apply IH].
  match goal with H : ~ In _ _ |- _ => apply H end. apply in_or_app. now right.
Qed.

(** A member in the generated code. *)
Lemma member_code : forall f p scope x t array read, coded f p -> member (cfl_directives f) scope x t array read -> visible (cfl_directives f) x -> known_name p scope x = true ->
  exists s sy, go_slot p scope (Members.title x) = Some s /\ sl_type s = visit_type t /\ sl_array s = array /\
    (forall E v, read E = Some v -> slot_value s E = Some (Some v)) /\
    MembersSpec.member_of (menv_of p) (package_of p) scope x sy /\ MembersSpec.member_type sy (tyref_of p (visit_type t)) /\
    (array = true -> sy = SyField (tyref_of p (visit_type t)) true).
Proof.
  intros f p scope x t array read C M V K. unfold known_name in K. rewrite (symbol_none f p x C V) in K.
  assert (Here : forall l, members_of p scope = Some l -> Members.me_members (menv_of p) (p_name (package_of p)) scope = Some l).
  { intros l H. cbn. now rewrite String.eqb_refl. }
  destruct M as [s i t x I <- H|c i t x I <- H|s i fd I <- H Op].
  - destruct (coded_struct f p s C I) as (sd & Vs & T1 & T2 & Ok). unfold slots in K. rewrite T1, T2 in K. unfold struct_ok in Ok.
    repeat (apply andb_prop in Ok; destruct Ok as (Ok & ?)). match goal with X : distinctb _ = true |- _ => apply distinct_ok in X; rename X into D end.
    fold (names_of (s_params sd) (s_fields sd)) in D. pose proof D as D0. rewrite map_app in D. apply NoDup_left in D. fold (slots_of (s_params sd) (s_fields sd)) in K. apply slot_known in K. destruct K as (sl & Is & Ns).
    assert (P : nth_error (s_params sd) i = Some (x, visit_type t)).
    { unfold visit_struct in Vs. destruct (visit_all visit_field (cs_fields s)); [|discriminate]. injection Vs as <-. cbn. rewrite nth_error_map, H. reflexivity. }
    pose proof (slot_param _ _ _ _ _ _ D Is Ns P) as E. exists sl, (SyParameter (tyref_of p (visit_type t))). subst sl. cbn [sl_type sl_array].
    split; [unfold go_slot, slots; rewrite T1, T2; exact (slot_found _ _ _ D Is)|]. split; [reflexivity|]. split; [reflexivity|].
    split; [intros E v R; unfold slot_value; cbn; unfold read_param in R; now rewrite R|]. split; [|split; [now left|discriminate]].
    eexists. split; [apply Here; unfold members_of; rewrite T1, T2; reflexivity|].
    apply member_among; [exact D0|]. exact (param_symbol p _ _ i _ _ P).
  - destruct (coded_choice f p c C I) as (sd & Vs & T1 & Ok). unfold slots in K. rewrite T1 in K. unfold choice_ok in Ok.
    repeat (apply andb_prop in Ok; destruct Ok as (Ok & ?)). match goal with X : distinctb _ = true |- _ => apply distinct_ok in X; rename X into D end.
    rewrite (map_app f_name), app_assoc, map_app in D. apply NoDup_left in D.
    assert (D' : NoDup (map Members.title (names_of (c_params sd) []))).
    { unfold names_of. cbn. rewrite app_nil_r. rewrite map_app in D. now apply NoDup_left in D. }
    assert (S0 : param_slots (c_params sd) = slots_of (c_params sd) []) by (unfold slots_of, field_slots; cbn; now rewrite app_nil_r).
    rewrite S0 in K. apply slot_known in K. destruct K as (sl & Is & Ns).
    assert (P : nth_error (c_params sd) i = Some (x, visit_type t)).
    { unfold visit_choice in Vs. destruct (visit_all visit_case (cc_cases c)); [|discriminate]. destruct (match cc_default c with None => _ | Some f => _ end); [|discriminate]. injection Vs as <-. cbn. rewrite nth_error_map, H. reflexivity. }
    pose proof (slot_param _ _ _ _ _ _ D' Is Ns P) as E. exists sl, (SyParameter (tyref_of p (visit_type t))). subst sl. cbn [sl_type sl_array].
    split; [unfold go_slot, slots; rewrite T1, S0; exact (slot_found _ _ _ D' Is)|]. split; [reflexivity|]. split; [reflexivity|].
    split; [intros E v R; unfold slot_value; cbn; unfold read_param in R; now rewrite R|]. split; [|split; [now left|discriminate]].
    eexists. split; [apply Here; unfold members_of; rewrite T1; reflexivity|].
    apply member_get; [now apply NoDup_map in D|]. exact (param_symbol p _ _ i _ _ P).
  - destruct (coded_struct f p s C I) as (sd & Vs & T1 & T2 & Ok). unfold slots in K. rewrite T1, T2 in K. unfold struct_ok in Ok.
    repeat (apply andb_prop in Ok; destruct Ok as (Ok & ?)). match goal with X : distinctb _ = true |- _ => apply distinct_ok in X; rename X into D end.
    fold (names_of (s_params sd) (s_fields sd)) in D. pose proof D as D0. rewrite map_app in D. apply NoDup_left in D. fold (slots_of (s_params sd) (s_fields sd)) in K. apply slot_known in K. destruct K as (sl & Is & Ns).
    assert (P : exists y, visit_field fd = Some y /\ nth_error (s_fields sd) i = Some y).
    { unfold visit_struct in Vs. destruct (visit_all visit_field (cs_fields s)) eqn:Va; [|discriminate]. injection Vs as <-. cbn. exact (visit_nth _ _ _ _ _ Va H). }
    destruct P as (y & Vy & P). destruct (visited_field fd y Vy) as (Y1 & Y2 & Y3 & Y4 & Y5 & _). rewrite <- Y1 in *.
    pose proof (slot_field _ _ _ _ _ D Is Ns P) as E. exists sl, (SyField (tyref_of p (ti_ref (f_type y))) (is_array y)). subst sl. cbn [sl_type sl_array]. rewrite Y2, inst_ref, Y3 in *.
    split; [unfold go_slot, slots; rewrite T1, T2; exact (slot_found _ _ _ D Is)|]. split; [reflexivity|]. split; [reflexivity|].
    split; [intros E v R; unfold slot_value; cbn; unfold read_field in R; destruct (nth_error (e_slots E) i); congruence|]. split; [|split; [right; eexists; reflexivity|intros ->; reflexivity]].
    eexists. split; [apply Here; unfold members_of; rewrite T1, T2; reflexivity|].
    apply member_among; [exact D0|]. pose proof (field_symbol p (s_params sd) (s_fields sd) i y P) as Q. rewrite Y2, inst_ref, Y3 in Q. exact Q.
Qed.
