(** Facts about template instantiation. *)

Require Import ZArith String Ascii List Bool Lia.
From Verif Require Import Files Templates TemplatesSpec.
Import ListNotations.
Open Scope Z_scope.

Lemma eq_text_spec a b : eq_text a b = true <-> a = b.
Proof. unfold eq_text. destruct (list_eq_dec ascii_dec a b); intuition discriminate. Qed.
Lemma eq_text_refl a : eq_text a a = true.
Proof. now apply eq_text_spec. Qed.

Lemma type_of_param_absent n ps : forall ts r, ~ In n ps -> type_of_param n ps ts r = r.
Proof.
  induction ps as [|p ps IH]; intros ts r H; [reflexivity|]. destruct ts as [|t ts]; [reflexivity|]. cbn.
  destruct (eq_text p n) eqn:E; [apply eq_text_spec in E; subst; elim H; now left|]. apply IH. intro. apply H. now right.
Qed.
Lemma type_of_param_argument n ps : forall ts, NoDup ps -> type_of_param n ps ts None = argument n ps ts.
Proof.
  induction ps as [|p ps IH]; intros ts H; [reflexivity|]. destruct ts as [|t ts]; [reflexivity|]. cbn. inversion H; subst.
  unfold eq_text. destruct (list_eq_dec ascii_dec p n); [subst; now apply type_of_param_absent|now apply IH].
Qed.
Lemma argument_in n ps : forall ts x, argument n ps ts = Some x -> In n ps /\ In x ts.
Proof.
  induction ps as [|p ps IH]; intros ts x H; [discriminate|]. destruct ts as [|t ts]; [discriminate|]. cbn in H.
  destruct (list_eq_dec ascii_dec p n); [injection H as <-; subst; split; now left|]. destruct (IH _ _ H). split; now right.
Qed.
Lemma argument_some n ps : forall ts, In n ps -> length ps = length ts -> exists x, argument n ps ts = Some x.
Proof.
  induction ps as [|p ps IH]; intros ts H Hl; [destruct H|]. destruct ts as [|t ts]; [discriminate|]. cbn.
  destruct (list_eq_dec ascii_dec p n); [eauto|]. destruct H as [H|H]; [congruence|]. apply IH; [exact H|]. cbn in Hl. lia.
Qed.

Lemma find_cons n m s sc : find_struct m sc = None -> find_struct n sc <> None -> find_struct n ((m, s) :: sc) = find_struct n sc.
Proof. intros Hm Hn. cbn. destruct (eq_text m n) eqn:E; [apply eq_text_spec in E; subst; contradiction|reflexivity]. Qed.

(** Types without template arguments need no instantiation. *)
Lemma each_leaf f pkg sc l : Forall (fun a => ty_args a = []) l ->
  each (fun sc a => instantiateType (S f) pkg sc a (ty_args a)) sc l = Done l sc.
Proof. induction 1 as [|a l Ha _ IH]; [reflexivity|]. cbn [each].
  assert (Hf : instantiateType (S f) pkg sc a (ty_args a) = Done a sc) by now rewrite Ha. now rewrite Hf, IH. Qed.
Lemma each_deep pkg sc l : l <> [] -> each (fun sc a => instantiateType 0 pkg sc a (ty_args a)) sc l = Deep.
Proof. destruct l; [easy|reflexivity]. Qed.

(** ** The instances are right *)

Definition grows (sc sc' : structs) : Prop := forall n s, find_struct n sc = Some s -> find_struct n sc' = Some s.
Lemma grows_trans a b c : grows a b -> grows b c -> grows a c.
Proof. intros H H' n s E. auto. Qed.

Definition step_right (U : ty -> Prop) (pkg : text) (sc0 : structs) (f : nat) : Prop :=
  forall sc t args t' sc', right U pkg sc0 sc -> Forall U args -> args <> [] ->
    instantiateType f pkg sc t args = Done t' sc' ->
    exists s, use U sc0 t args s /\ right U pkg sc0 sc' /\ grows sc sc' /\ t' = reference pkg t args /\
      find_struct (generateInstantiatedName t args) sc' = Some (instance pkg s args).

Lemma substituted_in U sc0 n s l f t a : flat U sc0 -> find_struct n sc0 = Some s -> length (s_params s) = length l -> Forall U l ->
  In (f, t) (s_fields s) -> In a (ty_args t) -> U (substituted (s_params s) l a).
Proof.
  intros [_ Hf] Hs Hl HU Hin Ha. destruct (Hf _ _ Hs) as [_ H]. destruct (H _ _ _ Hin Ha) as [Hp Hor]. unfold substituted.
  destruct Hor as [Hor|Hor].
  - rewrite (Hp Hor). destruct (argument_some _ _ _ Hor Hl) as [x Ex]. rewrite Ex. apply argument_in in Ex.
    apply (proj1 (Forall_forall _ _) HU). tauto.
  - destruct (ty_package a) eqn:Ep; [|exact Hor]. destruct (argument _ _ _) as [x|] eqn:Ex; [|exact Hor].
    apply argument_in in Ex. apply (proj1 (Forall_forall _ _) HU). tauto.
Qed.

Lemma fields_right U pkg sc0 f n s l : flat U sc0 -> step_right U pkg sc0 f ->
  find_struct n sc0 = Some s -> length (s_params s) = length l -> Forall U l ->
  forall fields sc fs sc', right U pkg sc0 sc -> incl fields (s_fields s) ->
    each (instantiateField (instantiateType f pkg) (s_params s) l) sc fields = Done fs sc' ->
    fs = s_fields (instance pkg (mkS (s_params s) fields) l) /\ right U pkg sc0 sc' /\ grows sc sc' /\
    forall x t', In (x, t') fields -> ty_args t' <> [] ->
      exists s1, use U sc0 t' (map (substituted (s_params s) l) (ty_args t')) s1 /\
        find_struct (generateInstantiatedName t' (map (substituted (s_params s) l) (ty_args t'))) sc' =
          Some (instance pkg s1 (map (substituted (s_params s) l) (ty_args t'))).
Proof.
  intros Hflat Hstep Hs Hl HU. assert (Hnd : NoDup (s_params s)) by apply (proj2 Hflat _ _ Hs).
  induction fields as [|[x t] fields IH]; intros sc fs sc' Hr Hi H.
  { injection H as <- <-. repeat split; try easy; try apply Hr. }
  cbn [each] in H. unfold instantiateField at 1 in H. cbn [fst snd] in H.
  assert (Hin : In (x, t) (s_fields s)) by (apply Hi; now left).
  assert (Hi' : incl fields (s_fields s)) by (intros y Hy; apply Hi; now right).
  destruct (ty_args t) as [|a0 args0] eqn:Ea.
  - assert (Hsub : (match type_of_param (ty_name t) (s_params s) l None, ty_package t with
        | Some y, [] => Done (x, y) sc | _, _ => Done (x, t) sc end) = Done (x, substituted (s_params s) l t) sc).
    { rewrite (type_of_param_argument _ _ _ Hnd). unfold substituted. destruct (argument _ _ _), (ty_package t); reflexivity. }
    rewrite Hsub in H. destruct (each _ sc fields) as [fs1 sc1| |] eqn:E; try discriminate.
    destruct (IH _ _ _ Hr Hi' E) as (-> & Hr1 & Hg1 & Hc). injection H as <- <-.
    refine (conj _ (conj Hr1 (conj Hg1 _))).
    + cbn [instance s_fields map fst snd s_params]. now rewrite Ea.
    + intros y t' [Hy|Hy] Hne; [injection Hy as <- <-; contradiction|]. now apply (Hc _ _ Hy).
  - set (args := map _ (a0 :: args0)) in H.
    assert (Hargs : args = map (substituted (s_params s) l) (ty_args t)).
    { rewrite Ea. apply map_ext_in. intros a Ha. rewrite <- Ea in Ha. rewrite (type_of_param_argument _ _ _ Hnd). unfold substituted.
      destruct (argument _ _ _) as [y|] eqn:Ey; [|now destruct (ty_package a)].
      destruct (proj2 Hflat _ _ Hs) as [_ Hf]. apply argument_in in Ey. now rewrite (proj1 (Hf _ _ _ Hin Ha) (proj1 Ey)). }
    clearbody args.
    destruct (instantiateType f pkg sc t args) as [t1 sc1| |] eqn:E1; try discriminate.
    assert (HUa : Forall U args).
    { rewrite Hargs. apply Forall_forall. intros y Hy. apply in_map_iff in Hy. destruct Hy as (a & <- & Ha). eapply substituted_in; eauto. }
    assert (Hna : args <> []) by (rewrite Hargs, Ea; discriminate).
    destruct (Hstep _ _ _ _ _ Hr HUa Hna E1) as (s1 & Huse & Hr1 & Hg1 & -> & Hf1).
    destruct (each _ sc1 fields) as [fs2 sc2| |] eqn:E2; try discriminate.
    destruct (IH _ _ _ Hr1 Hi' E2) as (-> & Hr2 & Hg2 & Hc). injection H as <- <-.
    refine (conj _ (conj Hr2 (conj (grows_trans _ _ _ Hg1 Hg2) _))).
    + cbn [instance s_fields map fst snd s_params]. rewrite Ea. now rewrite Hargs, Ea.
    + intros y t' [Hy|Hy] Hne; [|now apply (Hc _ _ Hy)]. injection Hy as <- <-. exists s1. rewrite <- Hargs. split; [exact Huse|auto].
Qed.

Lemma instance_eta pkg s l : instance pkg (mkS (s_params s) (s_fields s)) l = instance pkg s l.
Proof. now destruct s. Qed.

Lemma all_right U pkg sc0 : flat U sc0 -> distinct U sc0 -> forall f, step_right U pkg sc0 f.
Proof.
  intros Hflat [Hd Hn]. induction f as [|f IH]; intros sc t args t' sc' Hr HU Hne H; [discriminate|].
  cbn [instantiateType] in H. destruct args as [|a0 args0] eqn:Ea; [easy|]. rewrite <- Ea in *. clear a0 args0 Ea.
  destruct (find_struct (ty_name t) sc) as [s|] eqn:Es; [|discriminate].
  unfold instantiateStruct in H. destruct (Nat.eqb_spec (length (s_params s)) (length args)) as [El|El]; [|discriminate]. cbn [negb] in H.
  assert (Es0 : find_struct (ty_name t) sc0 = Some s).
  { destruct (proj2 Hr _ _ Es) as [H0|(t2 & l2 & s2 & Hu & _ & -> & _)]; [exact H0|]. cbn in El. destruct args; [easy|discriminate]. }
  assert (Huse : use U sc0 t args s) by (repeat split; auto).
  assert (Hleaf : Forall (fun a => ty_args a = []) args).
  { eapply Forall_impl; [|exact HU]. intros a. apply (proj1 Hflat). }
  destruct f as [|f]; [now rewrite (each_deep pkg sc args Hne) in H|].
  rewrite (each_leaf f pkg sc args Hleaf) in H.
  set (nm := generateInstantiatedName t args) in *.
  destruct (find_struct nm sc) as [s1|] eqn:E1.
  - injection H as <- <-. exists s. refine (conj Huse (conj Hr (conj (fun _ _ H => H) (conj eq_refl _)))). rewrite E1. f_equal.
    destruct (proj2 Hr _ _ E1) as [H0|(t2 & l2 & s2 & Hu2 & En & -> & _)]; [exfalso; pose proof (Hn _ _ _ Huse) as HX; fold nm in HX; congruence|].
    destruct (Hd _ _ _ _ _ _ Huse Hu2 En) as [Et <-]. destruct Hu2 as [Ef2 _]. rewrite <- Et, Es0 in Ef2. now injection Ef2 as <-.
  - destruct (each _ sc (s_fields s)) as [fs sc2| |] eqn:E2; try discriminate. injection H as <- <-.
    destruct (fields_right U pkg sc0 (S f) _ s args Hflat IH Es0 El HU _ _ _ _ Hr (incl_refl _) E2) as (-> & Hr2 & Hg2 & Hc).
    rewrite instance_eta in *. change (mkS [] (s_fields (instance pkg s args))) with (instance pkg s args) in *.
    destruct (find_struct nm sc2) as [s3|] eqn:E3.
    + (* it has been created by the fields: then it is the same *)
      assert (s3 = instance pkg s args).
      { destruct (proj2 Hr2 _ _ E3) as [H0|(t2 & l2 & s2 & Hu2 & En & -> & _)]; [exfalso; pose proof (Hn _ _ _ Huse) as HX; fold nm in HX; congruence|].
        destruct (Hd _ _ _ _ _ _ Huse Hu2 En) as [Et <-]. destruct Hu2 as [Ef2 _]. rewrite <- Et, Es0 in Ef2. now injection Ef2 as <-. }
      subst s3.
      assert (Hsame : forall m, find_struct m ((nm, instance pkg s args) :: sc2) = find_struct m sc2).
      { intro m. cbn [find_struct]. destruct (eq_text nm m) eqn:Em; [apply eq_text_spec in Em; rewrite <- Em; now rewrite E3|reflexivity]. }
      exists s. refine (conj Huse (conj _ (conj _ (conj eq_refl _)))).
      * split; [intros n s' Hn'; rewrite Hsame; now apply (proj1 Hr2)|]. intros n s' Hn'. rewrite Hsame in Hn'.
        destruct (proj2 Hr2 _ _ Hn') as [H0|(t2 & l2 & s2 & Hu2 & En & Es' & Hc2)]; [now left|]. right. exists t2, l2, s2.
        refine (conj Hu2 (conj En (conj Es' _))). intros x t' Hx Hx'. rewrite Hsame. exact (Hc2 _ _ Hx Hx').
      * intros n s' Hn'. rewrite Hsame. now apply Hg2.
      * rewrite Hsame. exact E3.
    + assert (Hmore : forall m s', find_struct m sc2 = Some s' -> find_struct m ((nm, instance pkg s args) :: sc2) = Some s').
      { intros m s' Hm. rewrite find_cons; [exact Hm|exact E3|congruence]. }
      assert (Hself : find_struct nm ((nm, instance pkg s args) :: sc2) = Some (instance pkg s args)) by (cbn [find_struct]; now rewrite eq_text_refl).
      exists s. refine (conj Huse (conj _ (conj _ (conj eq_refl Hself)))).
      * split; [intros n s' Hn'; apply Hmore; now apply (proj1 Hr2)|]. intros n s' Hn'. cbn [find_struct] in Hn'.
        destruct (eq_text nm n) eqn:Em.
        -- apply eq_text_spec in Em. subst n. injection Hn' as <-. right. exists t, args, s. refine (conj Huse (conj eq_refl (conj eq_refl _))).
           intros x t' Hx Hx'. destruct (Hc _ _ Hx Hx') as (s1 & Hu1 & Hf1). exists s1. split; [exact Hu1|]. now apply Hmore.
        -- destruct (proj2 Hr2 _ _ Hn') as [H0|(t2 & l2 & s2 & Hu2 & En & Es' & Hc2)]; [now left|]. right. exists t2, l2, s2.
           refine (conj Hu2 (conj En (conj Es' _))). intros x t' Hx Hx'. destruct (Hc2 _ _ Hx Hx') as (s1 & Hu1 & Hf1). exists s1. split; [exact Hu1|].
           now apply Hmore.
      * intros n s' Hn'. apply Hmore. now apply Hg2.
Qed.

Lemma right_start U pkg sc0 : right U pkg sc0 sc0.
Proof. split; auto. Qed.

(** ** Names *)

Lemma words_inj : forall a b, Forall word a -> Forall word b -> concat a = concat b -> a = b.
Proof.
  assert (Hcut : forall r r' x y, Forall (fun c => ~ capital c) r -> Forall (fun c => ~ capital c) r' ->
    (x = [] \/ exists c x', x = c :: x' /\ capital c) -> (y = [] \/ exists c y', y = c :: y' /\ capital c) ->
    r ++ x = r' ++ y -> r = r' /\ x = y).
  { induction r as [|c r IH]; intros r' x y Hr Hr' Hx Hy H.
    - destruct r' as [|c' r']; [now split|]. cbn in H. subst x. destruct Hx as [Hx|(c & x' & Hx & Hc)]; [discriminate|].
      injection Hx as <- _. inversion Hr'; contradiction.
    - destruct r' as [|c' r'].
      + cbn in H. subst y. destruct Hy as [Hy|(d & y' & Hy & Hc)]; [discriminate|]. injection Hy as <- _. inversion Hr; contradiction.
      + injection H as <- H. inversion Hr; subst. inversion Hr'; subst. destruct (IH _ _ _ ltac:(assumption) ltac:(eassumption) Hx Hy H) as [-> ->]. now split. }
  assert (Hhead : forall l, Forall word l -> concat l = [] \/ exists c x, concat l = c :: x /\ capital c).
  { intros l [|w l' (c & r & -> & Hc & _) _]; [now left|right]. exists c, (r ++ concat l'). now split. }
  induction a as [|w a IH]; intros b Ha Hb H.
  - destruct b as [|w b]; [reflexivity|]. inversion Hb as [|? ? (c & r & -> & _) _]; subst. discriminate.
  - inversion Ha as [|? ? (c & r & -> & Hc & Hr) Ha']; subst.
    destruct b as [|w' b]; [discriminate|]. inversion Hb as [|? ? (c' & r' & -> & Hc' & Hr') Hb']; subst.
    cbn in H. injection H as <- H. destruct (Hcut _ _ _ _ Hr Hr' (Hhead _ Ha') (Hhead _ Hb') H) as [<- H']. f_equal. now apply IH.
Qed.

Lemma words_distinct (U : ty -> Prop) sc :
  (forall t, U t -> word (Title (ty_name t))) ->
  (forall t u, U t -> U u -> Title (ty_name t) = Title (ty_name u) -> t = u) ->
  (forall n s, find_struct n sc = Some s -> word n) ->
  distinct U sc.
Proof.
  intros Hw Hinj Hsc.
  assert (Htitle : forall n, word n -> Title n = n).
  { intros n (c & r & -> & Hc & _). cbn. f_equal. unfold upper_char, capital in *.
    destruct (Nat.leb_spec 97 (nat_of_ascii c)); [lia|reflexivity]. }
  assert (Hwords : forall t l s, use U sc t l s -> Forall word (Title (ty_name t) :: map (fun a => Title (ty_name a)) l) /\ Title (ty_name t) = ty_name t).
  { intros t l s (Hf & _ & _ & Hl). pose proof (Hsc _ _ Hf) as Ht. rewrite (Htitle _ Ht). split; [|reflexivity]. constructor; [exact Ht|].
    apply Forall_forall. intros y Hy. apply in_map_iff in Hy. destruct Hy as (a & <- & Ha). apply Hw. now apply (proj1 (Forall_forall _ _) Hl). }
  split.
  - intros t1 l1 s1 t2 l2 s2 H1 H2 E. destruct (Hwords _ _ _ H1) as [W1 T1]. destruct (Hwords _ _ _ H2) as [W2 T2].
    unfold generateInstantiatedName in E. apply (words_inj _ _ W1 W2) in E.
    assert (Em : map (fun a => Title (ty_name a)) l1 = map (fun a => Title (ty_name a)) l2) by congruence.
    assert (Et : Title (ty_name t1) = Title (ty_name t2)) by congruence. rewrite T1, T2 in Et. split; [exact Et|].
    destruct H1 as (_ & _ & _ & U1). destruct H2 as (_ & _ & _ & U2). clear -Em U1 U2 Hinj. revert l2 Em U2.
    induction U1 as [|a l1 Ha U1 IH]; intros [|b l2] Em U2; try discriminate; [reflexivity|]. cbn in Em.
    assert (E1 : Title (ty_name a) = Title (ty_name b)) by congruence.
    assert (E2 : map (fun a => Title (ty_name a)) l1 = map (fun a => Title (ty_name a)) l2) by congruence.
    inversion U2; subst. f_equal; [now apply Hinj|now apply IH].
  - intros t l s H. destruct (find_struct _ sc) as [s'|] eqn:E; [|reflexivity]. exfalso. destruct (Hwords _ _ _ H) as [W _].
    pose proof (Hsc _ _ E) as We. unfold generateInstantiatedName in We.
    set (ws := Title (ty_name t) :: _) in *.
    assert (Ew : ws = [concat ws]). { apply words_inj; [exact W|now constructor|]. cbn. now rewrite app_nil_r. }
    destruct H as (_ & _ & Hne & _). apply (f_equal (@length _)) in Ew. cbn in Ew. rewrite map_length in Ew. destruct l; [easy|discriminate].
Qed.

(** ** Recursion *)

Lemma simple_fields inst ps l sc before : Forall (fun x : text * ty => ty_args (snd x) = []) before ->
  exists fs, forall rest, each (instantiateField inst ps l) sc (before ++ rest) =
    match each (instantiateField inst ps l) sc rest with Done ys sc2 => Done (fs ++ ys) sc2 | Error => Error | Deep => Deep end.
Proof.
  induction 1 as [|[x t] before Ht _ IH]; [exists []; intro rest; cbn; now destruct (each _ _ _)|].
  destruct IH as [fs IH]. cbn in Ht.
  assert (Hx : exists y, instantiateField inst ps l sc (x, t) = Done y sc).
  { unfold instantiateField. cbn [fst snd]. rewrite Ht. destruct (type_of_param _ _ _ _), (ty_package t); eauto. }
  destruct Hx as [y Hy]. exists (y :: fs). intro rest. cbn [each app]. rewrite Hy, IH. now destruct (each _ sc rest).
Qed.

Lemma recursive_deep pkg sc t n :
  recursive sc t n -> (forall args, args <> [] -> Forall ground args -> find_struct (generateInstantiatedName t args) sc = None) ->
  forall f args, n <> 0%nat -> length args = n -> Forall ground args -> instantiateType f pkg sc t args = Deep.
Proof.
  intros (s & before & x & t' & after & Hs & Hl & Hfs & Hb & Hn & Hl' & Hleaf) Hnew f args Hn0.
  assert (Hnew' : forall args, args <> [] -> Forall ground args -> find_struct (generateInstantiatedName t' args) sc = None).
  { intros l Hne Hg. unfold generateInstantiatedName. rewrite Hn. now apply Hnew. }
  assert (H : forall f u args, ty_name u = ty_name t -> length args = n -> Forall ground args -> instantiateType f pkg sc u args = Deep).
  2: { intros. now apply H. }
  clear f args. induction f as [|f IH]; intros u args Hu Hla Hla'; [reflexivity|].
  cbn [instantiateType]. destruct args as [|a0 args0] eqn:Ea; [cbn in Hla; congruence|]. rewrite <- Ea in *. assert (Hne : args <> []) by (rewrite Ea; discriminate). clear a0 args0 Ea.
  rewrite Hu, Hs. unfold instantiateStruct. rewrite Hl, Hla, Nat.eqb_refl. cbn [negb].
  destruct f as [|f]; [now rewrite each_deep|]. rewrite each_leaf by (eapply Forall_impl; [|exact Hla']; intros ? [? _]; assumption).
  assert (E : find_struct (generateInstantiatedName u args) sc = None).
  { unfold generateInstantiatedName. rewrite Hu. now apply Hnew. }
  rewrite E, Hfs. destruct (simple_fields (instantiateType (S f) pkg) (s_params s) args sc before Hb) as [fs Hf]. rewrite Hf. cbn [each].
  unfold instantiateField at 1. cbn [fst snd]. destruct (ty_args t') as [|b0 bs] eqn:Eb; [cbn in Hl'; congruence|]. rewrite <- Eb in *.
  rewrite IH; [reflexivity|exact Hn|now rewrite map_length|].
  apply Forall_forall. intros y Hy. apply in_map_iff in Hy. destruct Hy as (a & <- & Hy).
  destruct (type_of_param _ _ _ _) as [z|] eqn:Ez; [|now apply (proj1 (Forall_forall _ _) Hleaf)].
  assert (Hz : forall ps ts r, type_of_param (ty_name a) ps ts r = Some z -> r = Some z \/ In z ts).
  { clear. induction ps as [|p ps IH]; intros ts r H; [now left|]. destruct ts as [|t ts]; [now left|]. cbn in H. apply IH in H.
    destruct H as [H|H]; [|right; now right]. destruct (eq_text p (ty_name a)); [injection H as ->; right; now left|now left]. }
  apply Hz in Ez. destruct Ez as [Ez|Ez]; [discriminate|]. now apply (proj1 (Forall_forall _ _) Hla').
Qed.

Definition leaf (a : ty) : Prop := ty_args a = [].
Definition bounded (rank : text -> nat) (sc : structs) : Prop :=
  forall n s x u, find_struct n sc = Some s -> In (x, u) (s_fields s) -> Forall leaf (ty_args u) /\ (ty_args u <> [] -> (rank (ty_name u) < rank n)%nat).

Lemma param_leaf n z ps : forall ts r, Forall leaf ts -> type_of_param n ps ts r = Some z -> r = Some z \/ leaf z.
Proof.
  induction ps as [|p ps IH]; intros ts r Hl H; [now left|]. destruct ts as [|t ts]; [now left|]. cbn in H. inversion Hl; subst.
  apply IH in H; [|assumption]. destruct H as [H|H]; [|now right]. destruct (eq_text p n); [right; congruence|now left].
Qed.

Definition ends (pkg : text) (rank : text -> nat) (f : nat) : Prop :=
  forall sc t args, bounded rank sc -> Forall leaf args -> args <> [] -> (rank (ty_name t) + 1 < f)%nat ->
    match instantiateType f pkg sc t args with
    | Deep => False
    | Error => True
    | Done t' sc' => bounded rank sc' /\ leaf t'
    end.

Lemma fields_end pkg rank f ps ts n : ends pkg rank f -> Forall leaf ts -> (n + 1 <= f)%nat ->
  forall fields sc, bounded rank sc ->
    (forall x u, In (x, u) fields -> Forall leaf (ty_args u) /\ (ty_args u <> [] -> (rank (ty_name u) < n)%nat)) ->
    match each (instantiateField (instantiateType f pkg) ps ts) sc fields with
    | Deep => False
    | Error => True
    | Done fs sc' => bounded rank sc' /\ forall x u, In (x, u) fs -> leaf u
    end.
Proof.
  intros Hends Hts Hf. induction fields as [|[x u] fields IH]; intros sc Hb Hfs; [split; [exact Hb|intros ? ? []]|].
  cbn [each]. unfold instantiateField at 1. cbn [fst snd]. destruct (Hfs x u (or_introl eq_refl)) as [Hl Hr].
  assert (Hfs' : forall x u, In (x, u) fields -> Forall leaf (ty_args u) /\ (ty_args u <> [] -> (rank (ty_name u) < n)%nat)).
  { intros. apply Hfs with x0. now right. }
  assert (Hleaf : forall sc y, bounded rank sc -> leaf y -> match (match each (instantiateField (instantiateType f pkg) ps ts) sc fields with
      | Done ys sc2 => Done ((x, y) :: ys) sc2 | Error => Error | Deep => Deep end) with
      | Done fs sc' => bounded rank sc' /\ (forall x0 u0, In (x0, u0) fs -> leaf u0) | Error => True | Deep => False end).
  { intros sc1 y Hb1 Hy. specialize (IH sc1 Hb1 Hfs'). destruct (each _ sc1 fields) as [fs sc2| |]; try exact IH. destruct IH as [H1 H2].
    split; [exact H1|]. intros x0 u0 [H|H]; [congruence|]. now apply (H2 _ _ H). }
  destruct (ty_args u) as [|a0 as0] eqn:Ea.
  - destruct (type_of_param (ty_name u) ps ts None) as [z|] eqn:Ez.
    + apply param_leaf in Ez; [|exact Hts]. destruct Ez as [Ez|Ez]; [discriminate|]. destruct (ty_package u); apply Hleaf; auto.
    + apply Hleaf; auto.
  - rewrite <- Ea in *. set (args := map _ (ty_args u)).
    assert (Hargs : Forall leaf args).
    { apply Forall_forall. intros y Hy. apply in_map_iff in Hy. destruct Hy as (a & <- & Ha).
      destruct (type_of_param _ _ _ _) as [z|] eqn:Ez; [|now apply (proj1 (Forall_forall _ _) Hl)].
      apply param_leaf in Ez; [|exact Hts]. destruct Ez as [Ez|Ez]; [discriminate|exact Ez]. }
    assert (Hne : args <> []) by (unfold args; rewrite Ea; discriminate).
    assert (Hu : (rank (ty_name u) < n)%nat) by (apply Hr; rewrite Ea; discriminate).
    specialize (Hends sc u args Hb Hargs Hne ltac:(lia)). destruct (instantiateType f pkg sc u args) as [t1 sc1| |]; try exact Hends.
    destruct Hends as [H1 H2]. now apply Hleaf.
Qed.

Lemma all_end pkg rank : forall f, ends pkg rank f.
Proof.
  induction f as [|f IH]; intros sc t args Hb Hl Hne Hr; [lia|]. cbn [instantiateType].
  destruct args as [|a0 as0] eqn:Ea; [easy|]. rewrite <- Ea in *. clear a0 as0 Ea.
  destruct (find_struct (ty_name t) sc) as [s|] eqn:Es; [|exact I]. unfold instantiateStruct.
  destruct (negb _); [exact I|]. destruct f as [|f]; [lia|]. rewrite each_leaf by exact Hl.
  destruct (find_struct (generateInstantiatedName t args) sc) as [s1|] eqn:E1; [now split|].
  pose proof (fields_end pkg rank (S f) (s_params s) args (rank (ty_name t)) IH Hl ltac:(lia) (s_fields s) sc Hb (fun x u H => Hb _ _ _ _ Es H)) as H.
  destruct (each _ sc (s_fields s)) as [fs sc2| |]; try exact H. destruct H as [H1 H2]. split; [|reflexivity].
  intros n s' x u Hf Hin. cbn [find_struct] in Hf. destruct (eq_text _ n).
  - injection Hf as <-. cbn in Hin. pose proof (H2 _ _ Hin) as H. unfold leaf in H. rewrite H. split; [constructor|easy].
  - now apply (H1 _ _ _ _ Hf Hin).
Qed.

Lemma ranked_ends pkg rank sc t args f : ranked rank sc ->
  (forall n s x u, find_struct n sc = Some s -> In (x, u) (s_fields s) -> Forall (fun a => ty_args a = []) (ty_args u)) ->
  Forall (fun a => ty_args a = []) args -> args <> [] -> (rank (ty_name t) + 1 < f)%nat -> instantiateType f pkg sc t args <> Deep.
Proof.
  intros Hr Hl Ha Hne Hf H. pose proof (all_end pkg rank f sc t args) as He. rewrite H in He. apply He; auto.
  intros n s x u Hs Hin. split; [now apply (Hl _ _ _ _ Hs Hin)|now apply (Hr _ _ _ _ Hs Hin)].
Qed.

(** ** Arguments of parameterised types *)

Lemma assign_last {E} p : forall (fields : list (text * (text * list E))) last,
  (forall a x es b, fields = a ++ (x, (p, es)) :: b -> (forall y, In y b -> fst (snd y) <> p) -> assign_arguments p fields last = es) /\
  ((forall y, In y fields -> fst (snd y) <> p) -> assign_arguments p fields last = last).
Proof.
  induction fields as [|[x [t es]] fields IH]; intro last.
  - split; [intros [|? ?] ? ? ? H; discriminate|reflexivity].
  - cbn. split.
    + intros a y es' b H Hb. destruct a as [|? a]; injection H.
      * intros -> -> -> ->. rewrite eq_text_refl. now apply (proj2 (IH es')).
      * intros H1 <-. eapply (proj1 (IH _)); eauto.
    + intro H. destruct (eq_text t p) eqn:Et; [apply eq_text_spec in Et; elim (H (x, (t, es))); [now left|exact Et]|].
      apply (proj2 (IH last)). intros y Hy. apply H. now right.
Qed.

Lemma last_arguments {E} p (fields : list (text * (text * list E))) initial a x es b :
  fields = a ++ (x, (p, es)) :: b -> (forall y, In y b -> fst (snd y) <> p) ->
  forall f, In f fields -> instance_arguments p fields initial f = if eq_text (fst (snd f)) p then es else snd (snd f).
Proof. intros H Hb f _. unfold instance_arguments. destruct (eq_text _ p); [|reflexivity]. eapply (proj1 (assign_last p fields initial)); eauto. Qed.

(** ** Names that exist *)

Lemma reuse pkg sc fuel t args s s' : find_struct (ty_name t) sc = Some s -> length (s_params s) = length args ->
  args <> [] -> Forall (fun a => ty_args a = []) args -> find_struct (generateInstantiatedName t args) sc = Some s' ->
  instantiateType (S (S fuel)) pkg sc t args = Done (reference pkg t args) sc.
Proof.
  intros Hs Hl Hne Hleaf Hn. pose proof (each_leaf fuel pkg sc args Hleaf) as He. remember (S fuel) as f.
  cbn [instantiateType]. destruct args as [|a0 as0] eqn:Ea; [easy|]. rewrite <- Ea in *.
  rewrite Hs. unfold instantiateStruct. rewrite Hl, Nat.eqb_refl. cbn [negb]. now rewrite He, Hn.
Qed.

Lemma same_names t args args' : map ty_name args = map ty_name args' -> generateInstantiatedName t args = generateInstantiatedName t args'.
Proof.
  intros H. unfold generateInstantiatedName. f_equal. f_equal.
  rewrite <- (map_map ty_name Title args), <- (map_map ty_name Title args'). now rewrite H.
Qed.

Lemma Title_app x y : x <> [] -> Title x = x -> Title (x ++ y) = x ++ y.
Proof. destruct x as [|c x]; [easy|]. cbn. intros _ H. assert (Hc : upper_char c = c) by congruence. now rewrite Hc. Qed.

Lemma instances_right U pkg sc fuel t args t' sc' : flat U sc -> distinct U sc -> Forall U args -> args <> [] ->
  instantiateType fuel pkg sc t args = Done t' sc' ->
  exists s, use U sc t args s /\ right U pkg sc sc' /\ t' = reference pkg t args /\
    find_struct (ty_name t') sc' = Some (instance pkg s args).
Proof.
  intros Hf Hd HU Hne H.
  destruct (all_right U pkg sc Hf Hd fuel sc t args t' sc' (right_start U pkg sc) HU Hne H) as (s & H1 & H2 & _ & H4 & H5).
  exists s. rewrite H4. cbn [reference ty_name]. exact (conj H1 (conj H2 (conj eq_refl H5))).
Qed.

Lemma same_parts t a b c d x y z : ty_name a = x -> ty_name b = y ++ z -> ty_name c = x ++ y -> ty_name d = z ->
  Title x = x -> Title y = y -> Title z = z -> x <> [] -> y <> [] ->
  generateInstantiatedName t [a; b] = generateInstantiatedName t [c; d].
Proof.
  intros Ha Hb Hc Hd Hx Hy Hz Nx Ny. unfold generateInstantiatedName. cbn [map concat]. rewrite Ha, Hb, Hc, Hd, Hx, Hz.
  rewrite (Title_app y z Ny Hy), (Title_app x y Nx Hx). now rewrite !app_nil_r, <- !app_assoc.
Qed.

Lemma nested_ignored inst ps sc x t ts ts' : ty_args t <> [] -> (forall a, In a (ty_args t) -> ~ In (ty_name a) ps) ->
  instantiateField inst ps ts sc (x, t) = instantiateField inst ps ts' sc (x, t).
Proof.
  intros Hne H. unfold instantiateField. cbn [fst snd]. destruct (ty_args t) as [|a0 as0] eqn:Ea; [easy|]. rewrite <- Ea in *.
  assert (Hm : forall ts, map (fun a => match type_of_param (ty_name a) ps ts None with Some y => y | None => a end) (ty_args t) = ty_args t).
  { intro l. rewrite <- map_id. apply map_ext_in. intros a Ha. now rewrite (type_of_param_absent _ _ _ _ (H a Ha)). }
  now rewrite !Hm.
Qed.
