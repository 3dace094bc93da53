(** Facts about the resolution of the type references of a model. *)

Require Import ZArith String List Bool Lia.
From Verif Require Import Packages PackagesSpec PackagesFacts Resolve ResolveSpec.
Import ListNotations.
Open Scope Z_scope.

Lemma ignored_spec : forall l n, ignored l n = true <-> In n l.
Proof.
  intros l n. unfold ignored. rewrite existsb_exists. split.
  - intros (x & Hx & He). apply String.eqb_eq in He. now subst.
  - intro H. exists n. split; [assumption|apply String.eqb_refl].
Qed.

Lemma import_found : forall w l n m, NoDup (map p_name w) -> (forall q, In q w -> p_name q <> ""%string) ->
  (forall i, In i l -> exists q, In q w /\ p_name q = i_package i) -> m <> ""%string ->
  import_of w l n = Some m <->
  exists l1 i l2 q, l = l1 ++ i :: l2 /\ offers w i n q /\ m = i_package i /\ forall i' q', In i' l1 -> ~ offers w i' n q'.
Proof.
  intros w l n m Hn Hw. induction l as [|i l IH]; intros Hi Hm.
  - split; [intro H; cbn in H; congruence|]. intros ([|] & ? & ? & ? & He & _); discriminate He.
  - destruct (Hi i (or_introl eq_refl)) as (x & Hx & Hxn).
    destruct (position_first (i_package i) w Hn x Hx Hxn) as (k & Hk & Hnth).
    cbn [import_of]. rewrite Hk, Hnth.
    assert (Hoff : ((i_type i =? "*") || (i_type i =? n))%string && HasType x n = true <-> exists q, offers w i n q).
    { rewrite andb_true_iff, orb_true_iff, !String.eqb_eq, has_type. split.
      - intros [Ha Hb]. exists x. now repeat split.
      - intros (q & Hq & Hqn & Ht & Hd). split; [assumption|].
        destruct (position_first (i_package i) w Hn q Hq Hqn) as (k' & Hk' & Hnth'). assert (q = x) by congruence. now subst q. }
    destruct (_ && HasType x n) eqn:E.
    + split.
      * intro H. injection H as <-. destruct (proj1 Hoff eq_refl) as (q & Hq). exists [], i, l, q. repeat split; try apply Hq. intros i' q' [].
      * intros (l1 & i' & l2 & q & He & Hq & -> & Hno). destruct l1 as [|y l1].
        -- cbn in He. injection He as <- <-. reflexivity.
        -- cbn in He. injection He as <- ->. destruct (proj1 Hoff eq_refl) as (z & Hz). exfalso. exact (Hno i z (or_introl eq_refl) Hz).
    + assert (Hno : forall q, ~ offers w i n q) by (intros q Hq; assert (false = true) by (apply Hoff; now exists q); discriminate).
      rewrite IH; [|intros i' H'; apply Hi; now right|assumption]. split.
      * intros (l1 & i' & l2 & q & -> & Hq & -> & Hl). exists (i :: l1), i', l2, q. split; [reflexivity|]. split; [assumption|]. split; [reflexivity|].
        intros j q' [<-|Hj]; [apply Hno|now apply Hl].
      * intros (l1 & i' & l2 & q & He & Hq & -> & Hl). destruct l1 as [|y l1].
        -- cbn in He. injection He as <- <-. exfalso. exact (Hno q Hq).
        -- cbn in He. injection He as <- ->. exists l1, i', l2, q. split; [reflexivity|]. split; [assumption|]. split; [reflexivity|].
           intros j q' Hj. apply Hl. now right.
Qed.

Lemma import_total : forall w l n, (forall i, In i l -> exists q, In q w /\ p_name q = i_package i) -> NoDup (map p_name w) -> exists m, import_of w l n = Some m.
Proof.
  intros w l n Hi Hn. induction l as [|i l IH]; [now exists ""%string|]. destruct (Hi i (or_introl eq_refl)) as (x & Hx & Hxn).
  destruct (position_first (i_package i) w Hn x Hx Hxn) as (k & Hk & Hnth). cbn [import_of]. rewrite Hk, Hnth.
  destruct (_ && HasType x n); [now eexists|]. apply IH. intros j Hj. apply Hi. now right.
Qed.

Lemma placed_iff : forall w p t t', well_formed w p -> tr_builtin t = false -> resolveTypeReference w p t = Some t' <-> placed w p t t'.
Proof.
  intros w p t t' (Hn & Hw & Hp & Hi) Hb. unfold resolveTypeReference, placed. rewrite Hb.
  destruct (String.eqb_spec (tr_package t) "") as [He|Hne]; cbn [negb].
  - assert (Hm : forall m, m <> ""%string -> (if HasType p (tr_name t) then Some (p_name p) else import_of w (p_imports p) (tr_name t)) = Some m <-> names w p (tr_name t) m).
    { intros m Hm. unfold names. destruct (HasType p (tr_name t)) eqn:Ht.
      - split.
        + intro H. injection H as <-. left. split; [now apply has_type|reflexivity].
        + intros [[_ ->]|[Hu _]]; [reflexivity|]. apply has_type in Ht as (s & Hs). unfold declares, undeclared in *. congruence.
      - rewrite (import_found w _ _ _ Hn Hw Hi Hm). split.
        + intro H. right. split; [|exact H]. unfold undeclared. unfold HasType in Ht. destruct (get (tr_name t) (p_types p)); [discriminate|reflexivity].
        + intros [[Hd _]|[_ H]]; [apply has_type in Hd; congruence|exact H]. }
    assert (Hnames : forall m, names w p (tr_name t) m -> m <> ""%string).
    { intros m [[_ ->]|(_ & l1 & i & l2 & q & _ & (Hq & Hqn & _) & -> & _)]; [now apply Hw|]. rewrite <- Hqn. now apply Hw. }
    destruct (if HasType p (tr_name t) then Some (p_name p) else import_of w (p_imports p) (tr_name t)) as [m|] eqn:E.
    + destruct (String.eqb_spec m "") as [->|Hne].
      * split; [discriminate|]. intros [[H _]|(_ & m & H & _)]; [contradiction|]. pose proof (Hnames m H) as Hmm. apply (Hm m Hmm) in H. congruence.
      * split.
        -- intro H. injection H as <-. right. split; [assumption|]. exists m. split; [now apply (Hm m Hne)|reflexivity].
        -- intros [[H _]|(_ & m' & H & ->)]; [contradiction|]. pose proof (Hnames m' H) as Hmm. apply (Hm m' Hmm) in H. congruence.
    + split; [discriminate|]. intros [[H _]|(_ & m & H & _)]; [contradiction|]. pose proof (Hnames m H) as Hmm. apply (Hm m Hmm) in H. congruence.
  - split.
    + intro H. left. split; [assumption|]. destruct (position (tr_package t) w 0) as [k|] eqn:Ek; [|discriminate].
      apply position_spec in Ek as (_ & x & Hx & Hxn). rewrite Nat.sub_0_r in Hx. rewrite Hx in H.
      destruct (HasType x (tr_name t)) eqn:Ht; [|discriminate]. injection H as <-. split; [reflexivity|]. apply has_type in Ht as (s & Hs).
      exists x, s. split; [eapply nth_error_In; eauto|now split].
    + intros [(_ & -> & q & s & Hq & Hqn & Hs)|[H _]]; [|contradiction].
      destruct (position_first _ w Hn q Hq Hqn) as (k & -> & ->). now rewrite (proj2 (has_type q (tr_name t)) (ex_intro _ s Hs)).
Qed.

(** ** References with template arguments *)

Fixpoint ref_size (r : ref) : nat := match r with Ref _ args => S (list_sum (map ref_size args)) end.

Definition resolve_arg (w : world) (p : package) (ignore : list string) (a : ref) : option ref :=
  if ignored ignore (tr_name (head a)) then Some a else resolve w p ignore a.
Lemma resolve_eq : forall w p ignore t args, resolve w p ignore (Ref t args) =
  if tr_builtin t then Some (Ref t args)
  else match resolveTypeReference w p t with
       | None => None
       | Some t' => match every (resolve_arg w p ignore) args with None => None | Some args' => Some (Ref t' args') end
       end.
Proof.
  intros. cbn [resolve]. destruct (tr_builtin t); [reflexivity|]. destruct (resolveTypeReference w p t) as [t'|]; [|reflexivity].
  match goal with |- match ?f args with _ => _ end = _ => assert (H : forall l, f l = every (resolve_arg w p ignore) l) end.
  { induction l as [|a l IH]; [reflexivity|]. cbn [every]. unfold resolve_arg at 1.
    destruct (if ignored ignore (tr_name (head a)) then Some a else resolve w p ignore a) as [a'|]; [|reflexivity]. now rewrite IH. }
  now rewrite H.
Qed.

Lemma meant_iff_n : forall w p templates, well_formed w p -> forall n,
  (forall r r', (ref_size r <= n)%nat -> resolve w p templates r = Some r' <-> meant w p templates r r').
Proof.
  intros w p templates Hwf. induction n as [|n IH]; intros [t args] r' Hs; [cbn in Hs; lia|].
  rewrite resolve_eq. destruct (tr_builtin t) eqn:Hb.
  - split; [intro H; injection H as <-; now constructor|]. intro H. inversion H; subst; [reflexivity|congruence].
  - assert (Ha : forall l l', (list_sum (map ref_size l) <= n)%nat -> every (resolve_arg w p templates) l = Some l' <-> meant_args w p templates l l').
    { induction l as [|a l IHl]; intros l' Hl.
      - cbn. split; [intro H; injection H as <-; constructor|]. intro H. now inversion H.
      - change (ref_size a + list_sum (map ref_size l) <= n)%nat in Hl. cbn [every]. assert (Hla : (list_sum (map ref_size l) <= n)%nat) by lia.
        unfold resolve_arg at 1. destruct (ignored templates (tr_name (head a))) eqn:Ei.
        + apply ignored_spec in Ei. split.
          * destruct (every (resolve_arg w p templates) l) as [l''|] eqn:El; [|discriminate]. intro H. injection H as <-.
            apply OfTemplate; [assumption|]. now apply IHl.
          * intro H. inversion H; subst; [|contradiction]. match goal with H : meant_args _ _ _ l _ |- _ => apply (IHl _ Hla) in H; now rewrite H end.
        + assert (Hni : ~ In (tr_name (head a)) templates) by (rewrite <- ignored_spec; congruence). split.
          * destruct (resolve w p templates a) as [a'|] eqn:Ea; [|discriminate].
            destruct (every (resolve_arg w p templates) l) as [l''|] eqn:El; [|discriminate]. intro H. injection H as <-.
            apply Argument; [assumption| |now apply IHl]. apply IH; [lia|assumption].
          * intro H. inversion H; subst; [contradiction|].
            match goal with H : meant _ _ _ a _ |- _ => apply IH in H; [rewrite H|lia] end.
            match goal with H : meant_args _ _ _ l _ |- _ => apply (IHl _ Hla) in H; now rewrite H end. }
    assert (Hargs : (list_sum (map ref_size args) <= n)%nat) by (change (S (list_sum (map ref_size args)) <= S n)%nat in Hs; lia). split.
    + destruct (resolveTypeReference w p t) as [t'|] eqn:Et; [|discriminate].
      destruct (every (resolve_arg w p templates) args) as [args'|] eqn:Ea; [|discriminate]. intro H. injection H as <-.
      apply Declared; [assumption|now apply placed_iff|now apply Ha].
    + intro H. inversion H; subst; [congruence|].
      match goal with H : placed _ _ _ _ |- _ => apply placed_iff in H; [rewrite H|assumption|assumption] end.
      match goal with H : meant_args _ _ _ _ _ |- _ => apply (Ha _ _ Hargs) in H; now rewrite H end.
Qed.
Lemma meant_iff : forall w p templates, well_formed w p -> forall r r', resolve w p templates r = Some r' <-> meant w p templates r r'.
Proof. intros w p templates Hwf r r'. now apply (meant_iff_n w p templates Hwf (ref_size r)). Qed.

Lemma becomes_iff : forall w p templates r r', well_formed w p -> resolve_member w p templates r = Some r' <-> becomes w p (templates, r) (templates, r').
Proof.
  intros w p templates r r' Hwf. unfold resolve_member, becomes. cbn [fst snd].
  destruct ((tr_package (head r) =? "")%string && ignored templates (tr_name (head r))) eqn:E.
  - apply andb_true_iff in E as [E1 E2]. apply String.eqb_eq in E1. apply ignored_spec in E2. split.
    + intro H. injection H as <-. split; [reflexivity|]. now left.
    + intros [_ [(_ & _ & ->)|[H _]]]; [reflexivity|]. exfalso. apply H. now split.
  - assert (Hno : ~ (tr_package (head r) = ""%string /\ In (tr_name (head r)) templates)).
    { intros [H1 H2]. apply ignored_spec in H2. rewrite H2, H1 in E. discriminate. }
    rewrite (meant_iff w p templates Hwf). split.
    + intro H. split; [reflexivity|]. now right.
    + intros [_ [(H1 & H2 & _)|[_ H]]]; [exfalso; now apply Hno|assumption].
Qed.

Lemma becomes_plain : forall w p r r', well_formed w p -> resolve w p [] r = Some r' <-> becomes w p ([], r) ([], r').
Proof.
  intros w p r r' Hwf. rewrite <- becomes_iff by assumption. unfold resolve_member. cbn. now rewrite andb_false_r.
Qed.

(** ** Lists *)

Lemma every_forall : forall A B (f : A -> option B) l l', every f l = Some l' <-> Forall2 (fun a b => f a = Some b) l l'.
Proof.
  induction l as [|a l IH]; intros l'; cbn.
  - split; [intro H; injection H as <-; constructor|]. intro H. now inversion H.
  - split.
    + destruct (f a) as [b|] eqn:Ea; [|discriminate]. destruct (every f l) as [r|] eqn:El; [|discriminate]. intro H. injection H as <-.
      constructor; [assumption|]. now apply IH.
    + intro H. inversion H as [|? b ? r Hb Hr]; subst. rewrite Hb. apply IH in Hr. now rewrite Hr.
Qed.

Lemma Forall2_pairs : forall w p templates l l', well_formed w p ->
  Forall2 (fun a b => resolve_member w p templates a = Some b) l l' <-> Forall2 (becomes w p) (map (pair templates) l) (map (pair templates) l').
Proof.
  intros w p templates l l' Hwf. revert l'. induction l as [|a l IH]; intros [|b l']; cbn; split; intro H; try constructor; try (now inversion H).
  - inversion H; subst. now apply becomes_iff.
  - inversion H; subst. now apply IH.
  - inversion H; subst. now apply becomes_iff.
  - inversion H; subst. now apply IH.
Qed.
Lemma plain_pairs : forall w p l l', well_formed w p ->
  Forall2 (fun a b => resolve w p [] a = Some b) l l' <-> Forall2 (becomes w p) (map (pair []) l) (map (pair []) l').
Proof.
  intros w p l l' Hwf. rewrite <- Forall2_pairs by assumption. unfold resolve_member. cbn.
  revert l'. induction l as [|a l IH]; intros [|b l']; split; intro H; try constructor; try (now inversion H);
    inversion H as [|? ? ? ? Ha Hl]; subst.
  - now rewrite andb_false_r.
  - now apply IH.
  - now rewrite andb_false_r in Ha.
  - now apply IH.
Qed.

Lemma Forall2_flat : forall A B (P : A -> A -> Prop) (Q : B -> B -> Prop) (f : A -> list B) l l',
  (forall a b, P a b -> Forall2 Q (f a) (f b)) -> Forall2 P l l' -> Forall2 Q (flat_map f l) (flat_map f l').
Proof. intros A B P Q f l l' Hf H. induction H as [|a b l l' Ha Hl IH]; [constructor|]. cbn. apply Forall2_app; [now apply Hf|assumption]. Qed.
Lemma flat_map_same : forall A B (P : A -> A -> Prop) (f : A -> list B) l l',
  (forall a b, P a b -> f a = f b) -> Forall2 P l l' -> flat_map f l = flat_map f l'.
Proof. intros A B P f l l' Hf H. induction H as [|a b l l' Ha Hl IH]; [reflexivity|]. cbn. now rewrite (Hf _ _ Ha), IH. Qed.

(** ** Types *)

Lemma struct_iff : forall w p k k', resolve_struct w p k = Some k' <->
  k_templates k' = k_templates k /\ k_default k' = k_default k /\
  Forall2 (fun a b => resolve_member w p (k_templates k) a = Some b) (k_params k) (k_params k') /\
  Forall2 (fun a b => resolve_member w p (k_templates k) a = Some b) (k_fields k) (k_fields k') /\
  Forall2 (fun a b => resolve_member w p (k_templates k) a = Some b) (k_functions k) (k_functions k').
Proof.
  intros w p [ts ps fs d gs] [ts' ps' fs' d' gs']. unfold resolve_struct. cbn. rewrite <- !every_forall.
  destruct (every _ ps) as [a|]; destruct (every _ fs) as [b|]; destruct (every _ gs) as [c|]; split; try discriminate;
    intros H; try (injection H as <- <- <- <- <-; now repeat split); destruct H as (-> & -> & Ha & Hb & Hc); try discriminate.
  injection Ha as <-. injection Hb as <-. injection Hc as <-. reflexivity.
Qed.
Lemma choice_iff : forall w p k k', resolve_choice w p k = Some k' <->
  k_templates k' = k_templates k /\ k_default k' = k_default k /\ k_functions k' = k_functions k /\
  Forall2 (fun a b => resolve_member w p (k_templates k) a = Some b) (k_params k) (k_params k') /\
  Forall2 (fun a b => resolve_member w p (k_templates k) a = Some b) (k_fields k) (k_fields k').
Proof.
  intros w p [ts ps fs d gs] [ts' ps' fs' d' gs']. unfold resolve_choice. cbn. rewrite <- !every_forall.
  destruct (every _ ps) as [a|]; destruct (every _ fs) as [b|]; split; try discriminate;
    intros H; try (injection H as <- <- <- <- <-; now repeat split); destruct H as (-> & -> & -> & Ha & Hb); try discriminate.
  injection Ha as <-. injection Hb as <-. reflexivity.
Qed.

Lemma declarations_iff : forall w p d p' d', resolve_declarations w (p, d) = Some (p', d') <->
  p' = p /\ r_enums d' = r_enums d /\
  Forall2 (fun a b => resolve w p [] a = Some b) (r_consts d) (r_consts d') /\
  Forall2 (fun a b => resolve_struct w p a = Some b) (r_structs d) (r_structs d') /\
  Forall2 (fun a b => resolve_choice w p a = Some b) (r_choices d) (r_choices d') /\
  Forall2 (fun a b => resolve_choice w p a = Some b) (r_unions d) (r_unions d') /\
  Forall2 (fun a b => resolve w p [] a = Some b) (r_subtypes d) (r_subtypes d') /\
  Forall2 (fun a b => resolve w p [] a = Some b) (r_bitmasks d) (r_bitmasks d') /\
  Forall2 (fun a b => resolve w p [] a = Some b) (r_instantiated d) (r_instantiated d').
Proof.
  intros w p [a b c e f g h i] p' [a' b' c' e' f' g' h' i']. unfold resolve_declarations, resolve_union. cbn. rewrite <- !every_forall. split.
  - destruct (every _ a); [|discriminate]. destruct (every _ b); [|discriminate]. destruct (every _ c); [|discriminate].
    destruct (every _ e); [|discriminate]. destruct (every _ f); [|discriminate]. destruct (every _ g); [|discriminate].
    destruct (every _ h); [|discriminate]. intro H. injection H as <- <- <- <- <- <- <- <- <-. now repeat split.
  - intros (-> & -> & -> & -> & -> & -> & -> & -> & ->). reflexivity.
Qed.

(** ** The pass *)

Lemma resolved_places : forall w p d d', well_formed w p -> resolve_declarations w (p, d) = Some (p, d') -> forall x,
  (~ forgotten x -> Forall2 (becomes w p) (references x d) (references x d')) /\
  (forgotten x -> references x d' = references x d).
Proof.
  intros w p d d' Hwf H x. apply declarations_iff in H as (_ & Hen & Hco & Hst & Hch & Hun & Hsu & Hbi & Hin).
  destruct x as [|[]|[]|[]|[]| | | |]; cbn [forgotten references compounds]; (split; [intro Hf; try (exfalso; now apply Hf)|intro Hf; try contradiction]);
    try (now apply plain_pairs); try (now rewrite Hen);
    try (eapply Forall2_flat; [|eassumption]; cbn beta; intros k k' Hk;
         (apply struct_iff in Hk as (Ht & _ & Hk1 & Hk2 & Hk3) || apply choice_iff in Hk as (Ht & _ & _ & Hk1 & Hk2));
         rewrite Ht; now apply Forall2_pairs);
    try (symmetry; eapply flat_map_same; [|eassumption]; cbn beta; intros k k' Hk;
         (apply struct_iff in Hk as (Ht & Hd & _) || apply choice_iff in Hk as (Ht & Hd & Hg & _)); rewrite ?Ht, ?Hd, ?Hg; reflexivity).
Qed.

Lemma pass_places : forall w ms ms', ResolveTypes w ms = Some ms' -> (forall m, In m ms -> well_formed w (fst m)) ->
  Forall2 (fun m m' => fst m' = fst m /\ forall x,
    (~ forgotten x -> Forall2 (becomes w (fst m)) (references x (snd m)) (references x (snd m'))) /\
    (forgotten x -> references x (snd m') = references x (snd m))) ms ms'.
Proof.
  intros w ms ms' H. unfold ResolveTypes in H. apply every_forall in H. induction H as [|[p d] [p' d'] ms ms' Hm Hms IH]; intro Hwf; [constructor|].
  constructor.
  - cbn. assert (p' = p) by (now apply declarations_iff in Hm as (-> & _)). subst p'. split; [reflexivity|].
    apply resolved_places; [apply (Hwf (p, d)); now left|assumption].
  - apply IH. intros m Hin. apply Hwf. now right.
Qed.

(** ** Success *)

Lemma every_exists : forall A B (f : A -> option B) l, (exists l', every f l = Some l') <-> forall a, In a l -> exists b, f a = Some b.
Proof.
  induction l as [|a l IH]; cbn.
  - split; [intros _ a []|]. intros _. now exists [].
  - split.
    + intros (l' & H) x [<-|Hx].
      * destruct (f a) as [b|]; [now exists b|discriminate].
      * destruct (f a); [|discriminate]. destruct (every f l) as [r|]; [|discriminate]. apply IH; [now exists r|assumption].
    + intro H. destruct (H a (or_introl eq_refl)) as (b & ->). destruct (proj2 IH) as (r & ->); [intros x Hx; apply H; now right|]. now exists (b :: r).
Qed.

Lemma member_exists : forall w p templates r, well_formed w p -> (exists r', resolve_member w p templates r = Some r') <-> exists b, becomes w p (templates, r) b.
Proof.
  intros w p templates r Hwf. split.
  - intros (r' & H). exists (templates, r'). now apply becomes_iff.
  - intros ([ts r'] & H). assert (ts = templates) by apply H. subst. exists r'. now apply becomes_iff.
Qed.
Lemma plain_exists : forall w p r, well_formed w p -> (exists r', resolve w p [] r = Some r') <-> exists b, becomes w p ([], r) b.
Proof.
  intros w p r Hwf. rewrite <- member_exists by assumption. unfold resolve_member. cbn. now rewrite andb_false_r.
Qed.

Lemma in_inside : forall k (f : compound -> list ref) (cs : list compound) r, In k cs -> In r (f k) -> In (k_templates k, r) (flat_map (fun c => map (pair (k_templates c)) (f c)) cs).
Proof. intros k f cs r Hk Hr. apply in_flat_map. exists k. split; [assumption|]. now apply in_map. Qed.

Lemma declarations_total : forall w p d, well_formed w p -> (exists m', resolve_declarations w (p, d) = Some m') <-> resolvable w p d.
Proof.
  intros w p d Hwf. split.
  - intros ([p' d'] & H). assert (p' = p) by (now apply declarations_iff in H as (-> & _)). subst p'. intros x a Hx Ha.
    destruct (resolved_places _ _ _ _ Hwf H x) as [Hf _]. specialize (Hf Hx). clear -Hf Ha. induction Hf as [|u v l l' Hu Hl IH]; [destruct Ha|].
    destruct Ha as [<-|Ha]; [now exists v|now apply IH].
  - intro H.
    assert (Hplain : forall x (l : list ref), ~ forgotten x -> references x d = map (pair []) l -> exists l', every (resolve w p []) l = Some l').
    { intros x l Hx Hl. apply every_exists. intros a Ha. apply plain_exists; [assumption|]. apply (H x); [assumption|]. rewrite Hl. now apply in_map. }
    destruct (Hplain ConstType _ (fun f => f) eq_refl) as (a & Ha). destruct (Hplain SubtypeType _ (fun f => f) eq_refl) as (b & Hb).
    destruct (Hplain BitmaskType _ (fun f => f) eq_refl) as (c & Hc). destruct (Hplain InstantiatedType _ (fun f => f) eq_refl) as (e & He).
    assert (Hin : forall x (f : compound -> list ref) cs, ~ forgotten x -> references x d = flat_map (fun c => map (pair (k_templates c)) (f c)) cs ->
              forall k, In k cs -> exists l', every (resolve_member w p (k_templates k)) (f k) = Some l').
    { intros x f cs Hx Hr k Hk. apply every_exists. intros r Hrk. apply member_exists; [assumption|]. apply (H x); [assumption|]. rewrite Hr. now apply in_inside. }
    assert (Hs : exists l', every (resolve_struct w p) (r_structs d) = Some l').
    { apply every_exists. intros k Hk. unfold resolve_struct.
      destruct (Hin (ParameterType Struct) _ _ (fun f => f) eq_refl k Hk) as (? & ->).
      destruct (Hin (FieldType Struct) _ _ (fun f => f) eq_refl k Hk) as (? & ->).
      destruct (Hin (FunctionType Struct) _ _ (fun f => f) eq_refl k Hk) as (? & ->). now eexists. }
    assert (Hch : exists l', every (resolve_choice w p) (r_choices d) = Some l').
    { apply every_exists. intros k Hk. unfold resolve_choice.
      destruct (Hin (ParameterType Choice) _ _ (fun f => f) eq_refl k Hk) as (? & ->).
      destruct (Hin (FieldType Choice) _ _ (fun f => f) eq_refl k Hk) as (? & ->). now eexists. }
    assert (Hun : exists l', every (resolve_union w p) (r_unions d) = Some l').
    { apply every_exists. intros k Hk. unfold resolve_union, resolve_choice.
      destruct (Hin (ParameterType Union) _ _ (fun f => f) eq_refl k Hk) as (? & ->).
      destruct (Hin (FieldType Union) _ _ (fun f => f) eq_refl k Hk) as (? & ->). now eexists. }
    destruct Hs as (s & Hs), Hch as (ch & Hch), Hun as (un & Hun). unfold resolve_declarations. rewrite Ha, Hb, Hc, He, Hs, Hch, Hun. now eexists.
Qed.

Lemma pass_total : forall w ms, (forall m, In m ms -> well_formed w (fst m)) ->
  (exists ms', ResolveTypes w ms = Some ms') <-> forall m, In m ms -> resolvable w (fst m) (snd m).
Proof.
  intros w ms Hwf. unfold ResolveTypes. rewrite every_exists. split; intros H [p d] Hm; apply (declarations_total w p d (Hwf _ Hm)); exact (H (p, d) Hm).
Qed.

(** ** References that were found *)

Lemma meant_head : forall w p templates r r', meant w p templates r r' -> tr_builtin (head r) = false -> placed w p (head r) (head r').
Proof. intros w p templates r r' H Hb. inversion H; subst; cbn in *; [congruence|assumption]. Qed.

Lemma placed_known : forall w p t t', placed w p t t' -> In p w -> tr_name t' = tr_name t /\ exists q s, In q w /\ p_name q = tr_package t' /\ declares q (tr_name t) s.
Proof.
  intros w p t t' [(_ & -> & q & s & Hq)|(_ & m & Hm & ->)] Hp; [split; [reflexivity|now exists q, s]|]. split; [reflexivity|]. cbn.
  destruct Hm as [[(s & Hs) ->]|(_ & l1 & i & l2 & q & _ & (Hq & Hqn & _ & s & Hs) & -> & _)]; [now exists p, s|now exists q, s].
Qed.

Lemma unresolved_text : forall p t, tr_package t = ""%string -> GoTypeOfReference p t = None.
Proof. intros p t H. unfold GoTypeOfReference. now rewrite H. Qed.

Lemma unresolved_original : forall fuel w p t, tr_builtin t = false -> tr_package t = ""%string -> GetOriginalType (S fuel) w p t = Unknown.
Proof.
  intros fuel w p t Hb H. unfold GetOriginalType. generalize 100%nat. intro left.
  destruct left; cbn [original_loop GetImportedScope]; rewrite Hb, H; reflexivity.
Qed.

Lemma unnamed_fails : forall w p templates t args s, p_name p = ""%string -> tr_builtin t = false -> tr_package t = ""%string ->
  declares p (tr_name t) s -> resolve w p templates (Ref t args) = None.
Proof.
  intros w p templates t args s Hp Hb Ht Hs. rewrite resolve_eq, Hb. unfold resolveTypeReference. rewrite Hb, Ht. cbn.
  rewrite (proj2 (has_type p (tr_name t)) (ex_intro _ s Hs)), Hp. reflexivity.
Qed.

Lemma becomes_known : forall w p a b, becomes w p a b -> In p w -> tr_builtin (head (snd a)) = false ->
  ~ (tr_package (head (snd a)) = ""%string /\ In (tr_name (head (snd a))) (fst a)) ->
  tr_name (head (snd b)) = tr_name (head (snd a)) /\
  exists q s, In q w /\ p_name q = tr_package (head (snd b)) /\ declares q (tr_name (head (snd b))) s.
Proof.
  intros w p a b (_ & [(H1 & H2 & _)|[_ Hm]]) Hp Hb Hn; [exfalso; now apply Hn|].
  destruct (placed_known _ _ _ _ (meant_head _ _ _ _ _ Hm Hb) Hp) as (He & q & s & Hq & Hqn & Hs). split; [assumption|].
  exists q, s. now rewrite He.
Qed.
