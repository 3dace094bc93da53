(** Facts about shared expressions. *)

Require Import ZArith String List Bool Arith.
From Verif Require Import AstExpr ExprPrint Packages PackagesSpec Members MembersSpec MembersFacts Instances InstancesSpec.
Import ListNotations.

Definition done (c : cell) : Prop := match c with Complete _ _ => True | Todo _ => False end.
Definition complete (t : template) : Prop :=
  Forall done (t_exprs t) /\ match t_choice t with Some (s, cases) => done s /\ Forall (Forall done) cases | None => True end.

Lemma each_all : forall A (P : A -> Prop) f l l', (forall x y, f x = inr y -> P y) -> each f l = inr l' -> Forall P l'.
Proof.
  intros A P f. induction l as [|x l IH]; intros l' H E; cbn in E; [injection E as <-; constructor|].
  destruct (f x) as [|y] eqn:Ef; [discriminate|]. destruct (each f l) as [|ys] eqn:El; [discriminate|]. injection E as <-. constructor; [now apply (H x)|now apply IH].
Qed.
Lemma each_same : forall A f (l : list A), Forall (fun x => f x = inr x) l -> each f l = inr l.
Proof. intros A f l H. induction H as [|x l Hx _ IH]; [reflexivity|]. cbn. now rewrite Hx, IH. Qed.
Lemma each_forall2 : forall A f (l l' : list A), each f l = inr l' <-> Forall2 (fun x y => f x = inr y) l l'.
Proof.
  intros A f. induction l as [|x l IH]; intro l'; cbn; split; intro H.
  - injection H as <-. constructor.
  - inversion H. reflexivity.
  - destruct (f x) as [|y] eqn:Ef; [discriminate|]. destruct (each f l) as [|ys] eqn:El; [discriminate|]. injection H as <-. constructor; [assumption|now apply IH].
  - inversion H as [|? y ? ys Hx Hy]; subst. rewrite Hx. apply IH in Hy. now rewrite Hy.
Qed.

Lemma evaluate_done : forall E cur p c c', Evaluate E cur p c = inr c' -> done c'.
Proof.
  intros E cur p [e|a s] c' H; cbn in H; [|injection H as <-; exact I]. destruct (evaluate_member E cur p e); [|discriminate]. injection H as <-. exact I.
Qed.
Lemma done_evaluate : forall E cur p c, done c -> Evaluate E cur p c = inr c.
Proof. intros E cur p [e|a s] H; [destruct H|reflexivity]. Qed.
Lemma done_specify : forall s c, done c -> specify_cell s c = inr c.
Proof. intros s [e|a x] H; [destruct H|reflexivity]. Qed.

Lemma instance_complete : forall E cur p t t', EvaluateInstance E cur p t = inr t' -> complete t'.
Proof.
  intros E cur p t t' H. unfold EvaluateInstance in H. destruct (t_choice t) as [[sel cases]|].
  - destruct (Evaluate E cur p sel) as [|sel'] eqn:Es; [discriminate|]. destruct (each _ cases) as [|cases']; [discriminate|].
    destruct (each _ (t_exprs t)) as [|es] eqn:Ee; [discriminate|]. destruct (each _ cases') as [|cases''] eqn:Ec; [discriminate|]. injection H as <-.
    split; cbn [t_exprs t_choice].
    + eapply each_all; [|exact Ee]. intros x y. apply evaluate_done.
    + split; [now apply (evaluate_done E cur p sel)|]. eapply each_all; [|exact Ec]. intros x y Hx. eapply each_all; [|exact Hx]. intros x' y'. apply evaluate_done.
  - destruct (each _ (t_exprs t)) as [|es] eqn:Ee; [discriminate|]. injection H as <-. split; [|exact I].
    cbn [t_exprs]. eapply each_all; [|exact Ee]. intros x y. apply evaluate_done.
Qed.
Lemma complete_instance : forall E cur p t, complete t -> EvaluateInstance E cur p t = inr t.
Proof.
  intros E cur p [ch es] [He Hc]. unfold EvaluateInstance. cbn [t_choice t_exprs] in *.
  assert (X : each (Evaluate E cur p) es = inr es).
  { apply each_same. eapply Forall_impl; [|exact He]. intros c. apply done_evaluate. }
  destruct ch as [[sel cases]|].
  - destruct Hc as [Hs Hc]. rewrite (done_evaluate E cur p sel Hs).
    assert (Y : forall f : cell -> status + cell, (forall c, done c -> f c = inr c) -> each (each f) cases = inr cases).
    { intros f Hf. apply each_same. eapply Forall_impl; [|exact Hc]. intros l Hl. apply each_same. eapply Forall_impl; [|exact Hl]. exact Hf. }
    rewrite (Y _ (done_specify sel)), X, (Y _ (done_evaluate E cur p)). reflexivity.
  - now rewrite X.
Qed.

Lemma set_same : forall st k t, set st k t k = t.
Proof. intros st k t. unfold set. now rewrite Nat.eqb_refl. Qed.
Lemma set_other : forall st k j t, j <> k -> set st k t j = st j.
Proof. intros st k j t H. unfold set. apply Nat.eqb_neq in H. now rewrite H. Qed.

Lemma kept : forall E l cur st st' k, EvaluateInstances E cur l st = inr st' -> complete (st k) -> st' k = st k.
Proof.
  intro E. induction l as [|i l IH]; intros cur st st' k H Hc; cbn [EvaluateInstances] in H; [now injection H as <-|].
  destruct (EvaluateInstance E _ _ _) as [|t] eqn:Ei; [discriminate|].
  destruct (Nat.eq_dec k (i_template i)) as [->|Hk].
  - rewrite (complete_instance _ _ _ _ Hc) in Ei. injection Ei as <-. rewrite (IH _ _ _ (i_template i) H); rewrite set_same; [reflexivity|assumption].
  - rewrite (IH _ _ _ k H); rewrite (set_other _ _ _ _ Hk); [reflexivity|assumption].
Qed.

(** The first instance decides. *)
Lemma first_decides : forall E l cur st st' i, EvaluateInstances E cur l st = inr st' -> In i l ->
  exists i0 cur0, first_instance l i i0 /\ EvaluateInstance E (enter (p_name (i_package i0)) (i_name i0) cur0) (i_package i0) (st (i_template i)) = inr (st' (i_template i)).
Proof.
  intro E. induction l as [|i1 l IH]; intros cur st st' i H Hi; [destruct Hi|]. cbn [EvaluateInstances] in H.
  destruct (EvaluateInstance E _ _ _) as [|t] eqn:Ei; [discriminate|].
  destruct (Nat.eq_dec (i_template i1) (i_template i)) as [Hk|Hk].
  - exists i1, cur. split; [split; [assumption|]; exists [], l; split; [reflexivity|intros x []]|].
    rewrite <- Hk. rewrite Ei. f_equal. rewrite (kept _ _ _ _ _ (i_template i1) H); rewrite set_same; [reflexivity|]. now apply (instance_complete _ _ _ _ _ Ei).
  - destruct Hi as [->|Hi]; [congruence|]. destruct (IH _ _ _ i H Hi) as (i0 & cur0 & (Ht & pre & post & -> & Hpre) & He).
    exists i0, cur0. split; [split; [assumption|]; exists (i1 :: pre), post; split; [reflexivity|]; intros x [<-|Hx]; [assumption|now apply Hpre]|].
    rewrite set_other in He by congruence. exact He.
Qed.

(** ** Fresh choices *)

Lemma labels_choice : forall E cur p sel os labels cells cells', (forall a s, sel = Complete a s -> s = os) -> done sel ->
  each (specify_cell sel) (map Todo labels) = inr cells -> each (Evaluate E cur p) cells = inr cells' ->
  exists zs, evaluate_labels E cur p os labels = inr zs /\ map label_of cells' = map Some zs.
Proof.
  intros E cur p sel os labels cells cells' Hos Hd. destruct sel as [|a s]; [destruct Hd|]. rewrite <- (Hos a s eq_refl). clear Hos Hd os.
  revert cells cells'. induction labels as [|e labels IH]; intros cells cells' H1 H2; cbn [map each] in H1.
  - injection H1 as <-. cbn in H2. injection H2 as <-. exists []. split; reflexivity.
  - cbn [specify_cell] in H1. destruct (specify s e) as [|e'] eqn:Es; [discriminate|]. destruct (each _ (map Todo labels)) as [|cs] eqn:Ec; [discriminate|]. injection H1 as <-.
    cbn [each Evaluate] in H2. destruct (evaluate_member E cur p e') as [b x|] eqn:Ee; [|discriminate]. destruct (each _ cs) as [|cs'] eqn:Ec'; [discriminate|]. injection H2 as <-.
    destruct (IH cs cs' eq_refl Ec') as (zs & Hz & Hm). exists (r_int (res b) :: zs). cbn [evaluate_labels]. rewrite Es, Ee, Hz. split; [reflexivity|]. cbn [map label_of]. now rewrite Hm.
Qed.
Lemma cases_choice : forall E cur p sel os cases cells cells', (forall a s, sel = Complete a s -> s = os) -> done sel ->
  each (each (specify_cell sel)) (map (map Todo) cases) = inr cells -> each (each (Evaluate E cur p)) cells = inr cells' ->
  exists zss, evaluate_cases E cur p os cases = inr zss /\ map (map label_of) cells' = map (map Some) zss.
Proof.
  intros E cur p sel os cases cells cells' Hos Hd. revert cells cells'. induction cases as [|l cases IH]; intros cells cells' H1 H2; cbn [map each] in H1.
  - injection H1 as <-. cbn in H2. injection H2 as <-. exists []. split; reflexivity.
  - destruct (each (specify_cell sel) (map Todo l)) as [|c] eqn:El; [discriminate|]. destruct (each _ (map (map Todo) cases)) as [|cs] eqn:Ec; [discriminate|]. injection H1 as <-.
    cbn [each] in H2. destruct (each (Evaluate E cur p) c) as [|c'] eqn:Ee; [discriminate|]. destruct (each _ cs) as [|cs'] eqn:Ec'; [discriminate|]. injection H2 as <-.
    destruct (labels_choice _ _ _ _ _ _ _ _ Hos Hd El Ee) as (zs & Hz & Hm). destruct (IH cs cs' eq_refl Ec') as (zss & Hzs & Hms).
    exists (zs :: zss). cbn [evaluate_cases]. rewrite Hz, Hzs. split; [reflexivity|]. cbn [map]. now rewrite Hm, Hms.
Qed.
Lemma exprs_all : forall E cur p es cells, each (Evaluate E cur p) (map Todo es) = inr cells -> evaluate_all E cur p es = SOk.
Proof.
  intros E cur p. induction es as [|e es IH]; intros cells H; [reflexivity|]. cbn [map each Evaluate] in H. cbn [evaluate_all].
  destruct (evaluate_member E cur p e); [|discriminate]. destruct (each _ _) as [|cs] eqn:Ec; [discriminate|]. now apply (IH cs).
Qed.

Lemma fresh_is_choice : forall E cur p name c t sw, EvaluateInstance E (enter (p_name p) name cur) p (fresh_choice c) = inr t -> switch_of t = Some sw ->
  exists zss, EvaluateChoice E cur p name c = inr (sw, zss) /\ labels_of t = Some (map (map Some) zss).
Proof.
  intros E cur p name c t sw H Hs. unfold EvaluateInstance, fresh_choice in H. cbn [t_choice t_exprs Evaluate] in H. unfold EvaluateChoice.
  destruct (evaluate_member E _ p (ch_selector c)) as [a os|]; [|discriminate].
  destruct (each _ (map (map Todo) (ch_labels c))) as [|cases'] eqn:E1; [discriminate|]. destruct (each _ (map Todo (ch_exprs c))) as [|es] eqn:E2; [discriminate|].
  destruct (each _ cases') as [|cases''] eqn:E3; [discriminate|]. injection H as <-.
  destruct (cases_choice _ _ _ (Complete a os) os _ _ _ ltac:(congruence) I E1 E3) as (zss & Hz & Hm).
  rewrite (exprs_all _ _ _ _ _ E2), Hz. cbn in Hs. destruct os as [s|]; [|discriminate]. injection Hs as <-. exists zss. split; [reflexivity|]. cbn. now rewrite Hm.
Qed.

(** ** The labels of all instances *)

Lemma labels_of_first : forall E cur l st st' i c sel, EvaluateInstances E cur l st = inr st' -> In i l -> st (i_template i) = fresh_choice c -> ch_selector c = MName sel ->
  exists i0 cur0, first_instance l i i0 /\ cur0 (p_name (i_package i0)) = Some (i_name i0) /\
    forall t, selects E i0 sel t -> exists zss, switch_of (st' (i_template i)) = Some (title sel) /\ labels_of (st' (i_template i)) = Some (map (map Some) zss) /\
      Forall2 (Forall2 (label_value E cur0 (i_package i0) t)) (ch_labels c) zss.
Proof.
  intros E cur l st st' i c sel H Hi Hst Hsel. destruct (first_decides _ _ _ _ _ _ H Hi) as (i0 & cur0 & Hf & He). rewrite Hst in He.
  exists i0, (enter (p_name (i_package i0)) (i_name i0) cur0). split; [assumption|]. split; [apply enter_own|].
  intros t (Hp & Hm & Hg & (k & m & Hk) & Hn).
  assert (Hsw : switch_of (st' (i_template i)) = Some (title sel)).
  { unfold EvaluateInstance, fresh_choice in He. cbn [t_choice t_exprs Evaluate] in He. rewrite Hsel in He.
    destruct (evaluate_member E _ (i_package i0) (MName sel)) as [a os|] eqn:Es; [|discriminate].
    destruct (selector_value E _ (i_package i0) (i_name i0) sel _ t k m Hp (enter_own _ _ _) Hm Hg ltac:(now left) Hk a _ Es) as (-> & _).
    destruct (each _ (map (map Todo) (ch_labels c))) as [|cases']; [discriminate|]. destruct (each _ (map Todo (ch_exprs c))) as [|es]; [discriminate|].
    destruct (each _ cases') as [|cases'']; [discriminate|]. injection He as <-. reflexivity. }
  destruct (fresh_is_choice _ _ _ _ _ _ _ He Hsw) as (zss & Hc & Hl). exists zss. split; [assumption|]. split; [assumption|].
  exact (proj2 (choice_labels E cur0 (i_package i0) (i_name i0) c sel t k m _ zss Hp Hsel Hm Hg Hk Hn Hc)).
Qed.

Lemma Forall2_in_l : forall A B (P : A -> B -> Prop) l l', Forall2 P l l' -> Forall2 (fun x y => In x l /\ P x y) l l'.
Proof.
  intros A B P l l' H. assert (X : forall k, incl l k -> Forall2 (fun x y => In x k /\ P x y) l l').
  { induction H as [|x y l l' Hx H IH]; intros k Hk; constructor; [split; [apply Hk; now left|assumption]|]. apply IH. intros z Hz. apply Hk. now right. }
  now apply X.
Qed.

Lemma first_in : forall l i i0, first_instance l i i0 -> In i0 l.
Proof. intros l i i0 (_ & pre & post & -> & _). apply in_or_app. right. now left. Qed.

(** If the labels mean the same for all instances, every instance has its own. *)
Lemma labels_agree : forall E cur l st st' i c sel ty, EvaluateInstances E cur l st = inr st' -> In i l -> st (i_template i) = fresh_choice c -> ch_selector c = MName sel ->
  (forall j, In j l -> i_template j = i_template i -> selects E j sel (ty j)) ->
  (forall j n z labels, In j l -> i_template j = i_template i -> In labels (ch_labels c) -> In (MName n) labels -> item_value E (i_package j) (ty j) n z -> item_value E (i_package i) (ty i) n z) ->
  exists zss, labels_of (st' (i_template i)) = Some (map (map Some) zss) /\
    Forall2 (Forall2 (fun label z => forall n, label = MName n -> item_value E (i_package i) (ty i) n z)) (ch_labels c) zss.
Proof.
  intros E cur l st st' i c sel ty H Hi Hst Hsel Hall Hsame.
  destruct (labels_of_first _ _ _ _ _ _ _ _ H Hi Hst Hsel) as (i0 & cur0 & Hf & _ & Hl). pose proof (first_in _ _ _ Hf) as Hi0. destruct Hf as (Ht & _).
  destruct (Hl (ty i0) (Hall i0 Hi0 Ht)) as (zss & _ & Hz & HF). exists zss. split; [assumption|].
  apply Forall2_in_l in HF. eapply Forall2_impl; [|exact HF]. intros labels zs [Hin HL]. apply Forall2_in_l in HL. eapply Forall2_impl; [|exact HL].
  intros label z [Hin' Hv] n ->. apply (Hsame i0 n z labels Hi0 Ht Hin Hin'). exact Hv.
Qed.

(** ** Other expressions *)

Lemma exprs_printed : forall E cur p es cells, each (Evaluate E cur p) (map Todo es) = inr cells ->
  Forall2 (fun e oa => exists a s, evaluate_member E cur p e = MOk a s /\ oa = Some a) es (map (fun c => match c with Complete a _ => Some a | Todo _ => None end) cells).
Proof.
  intros E cur p. induction es as [|e es IH]; intros cells H; cbn [map each Evaluate] in H; [injection H as <-; constructor|].
  destruct (evaluate_member E cur p e) as [a s|] eqn:Ee; [|discriminate]. destruct (each _ _) as [|cs] eqn:Ec; [discriminate|]. injection H as <-.
  constructor; [exists a, s; split; [assumption|reflexivity]|now apply IH].
Qed.

Lemma printed_of_first : forall E cur l st st' i es, EvaluateInstances E cur l st = inr st' -> In i l -> t_exprs (st (i_template i)) = map Todo es ->
  exists i0 cur0, first_instance l i i0 /\ cur0 (p_name (i_package i0)) = Some (i_name i0) /\
    Forall2 (fun e oa => exists a s, evaluate_member E cur0 (i_package i0) e = MOk a s /\ oa = Some a) es (printed (st' (i_template i))).
Proof.
  intros E cur l st st' i es H Hi Hst. destruct (first_decides _ _ _ _ _ _ H Hi) as (i0 & cur0 & Hf & He).
  exists i0, (enter (p_name (i_package i0)) (i_name i0) cur0). split; [assumption|]. split; [apply enter_own|].
  unfold EvaluateInstance in He. rewrite Hst in He. destruct (t_choice (st (i_template i))) as [[sel cases]|].
  - destruct (Evaluate E _ _ sel) as [|sel']; [discriminate|]. destruct (each _ cases) as [|cases']; [discriminate|].
    destruct (each _ (map Todo es)) as [|cs] eqn:Ec; [discriminate|]. destruct (each _ cases') as [|cases'']; [discriminate|]. injection He as <-. exact (exprs_printed _ _ _ _ _ Ec).
  - destruct (each _ (map Todo es)) as [|cs] eqn:Ec; [discriminate|]. injection He as <-. exact (exprs_printed _ _ _ _ _ Ec).
Qed.

(** Only the first instance of a template can fail. *)
Lemma first_fails : forall E l cur st x, EvaluateInstances E cur l st = inl x ->
  exists i cur0, In i l /\ first_instance l i i /\ EvaluateInstance E (enter (p_name (i_package i)) (i_name i) cur0) (i_package i) (st (i_template i)) = inl x.
Proof.
  intro E. induction l as [|i1 l IH]; intros cur st x H; cbn [EvaluateInstances] in H; [discriminate|].
  destruct (EvaluateInstance E _ _ _) as [y|t] eqn:Ei.
  - injection H as ->. exists i1, cur. split; [now left|]. split; [|assumption]. split; [reflexivity|]. exists [], l. split; [reflexivity|intros z []].
  - destruct (IH _ _ _ H) as (i & cur0 & Hi & (_ & pre & post & Hl & Hpre) & He). exists i, cur0. split; [now right|].
    destruct (Nat.eq_dec (i_template i1) (i_template i)) as [Hk|Hk].
    + exfalso. rewrite <- Hk, set_same in He. rewrite (complete_instance _ _ _ _ (instance_complete _ _ _ _ _ Ei)) in He. discriminate.
    + split; [|rewrite set_other in He by congruence; exact He]. split; [reflexivity|]. exists (i1 :: pre), post. split; [now rewrite Hl|]. intros z [<-|Hz]; [assumption|now apply Hpre].
Qed.
