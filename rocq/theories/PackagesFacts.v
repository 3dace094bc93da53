(** Proofs about packages, imports and name lookup. *)

Require Import ZArith String List Bool Lia Permutation.
From Verif Require Import Packages PackagesSpec.
Import ListNotations.
Open Scope Z_scope.

(** ** Graphs *)

Lemma imported_in : forall w p q, edge w p q -> In q w.
Proof.
  unfold edge, imported. intros w p q H. apply in_flat_map in H as (j & _ & H).
  destruct (nth_error w j) as [x|] eqn:E; [|destruct H].
  destruct H as [<-|[]]. eapply nth_error_In; eauto.
Qed.

Lemma reach_trans : forall w p q r, reach w p q -> reach w q r -> reach w p r.
Proof. intros w p q r H H2. induction H2; [assumption|]. eapply reach_step; eauto. Qed.

Lemma reach_in : forall w p q, In p w -> reach w p q -> In q w.
Proof. intros w p q Hp H. induction H; [assumption|]. eapply imported_in; eauto. Qed.

Lemma edge_reach : forall w p q, edge w p q -> reach w p q.
Proof. intros. eapply reach_step; [apply reach_self|assumption]. Qed.

Lemma reach_cases : forall w p r, reach w p r -> p = r \/ exists q, edge w p q /\ reach w q r.
Proof.
  intros w p r H. induction H as [|q r H IH He]; [now left|right].
  destruct IH as [<-|(x & Hx & Hr)].
  - exists r. split; [assumption|apply reach_self].
  - exists x. split; [assumption|]. eapply reach_step; eauto.
Qed.

Lemma acyclic_edge : forall w p q, acyclic w p -> edge w p q -> acyclic w q.
Proof. intros w p q H He r Hr. apply H. eapply reach_trans; [apply edge_reach; eassumption|assumption]. Qed.

Lemma cyclic_next : forall w p, cyclic w p -> exists q, edge w p q /\ cyclic w q.
Proof.
  intros w p (q & Hr & Hc). destruct (reach_cases _ _ _ Hr) as [->|(x & Hx & Hr')].
  - destruct Hc as (r & Hr1 & He). destruct (reach_cases _ _ _ Hr1) as [->|(x & Hx & Hr')].
    + exists r. split; [assumption|]. exists r. split; [apply reach_self|]. exists r. split; [apply reach_self|assumption].
    + exists x. split; [assumption|]. exists x. split; [apply reach_self|].
      exists q. split; [|assumption]. eapply reach_step; eauto.
  - exists x. split; [assumption|]. exists q. now split.
Qed.

(** A path, as the list of its packages. *)
Fixpoint path (w : world) (p : package) (l : list package) : Prop :=
  match l with [] => True | q :: l' => edge w p q /\ path w q l' end.

Lemma path_reach : forall w l p q, path w p l -> In q l -> reach1 w p q.
Proof.
  induction l as [|x l IH]; intros p q H Hq; [destruct Hq|]. destruct H as [He H]. destruct Hq as [<-|Hq].
  - exists p. split; [apply reach_self|assumption].
  - destruct (IH _ _ H Hq) as (y & Hy & Hyq). exists y. split; [|assumption].
    eapply reach_trans; [apply edge_reach; eassumption|assumption].
Qed.

Lemma path_nodup : forall w l p, acyclic w p -> path w p l -> NoDup (p :: l).
Proof.
  induction l as [|x l IH]; intros p Ha H; [repeat constructor; intros []|]. constructor.
  - intro Hin. exact (Ha p (reach_self _ _) (path_reach _ _ _ _ H Hin)).
  - destruct H as [He H]. apply IH; [eapply acyclic_edge; eauto|assumption].
Qed.

Lemma path_in : forall w l p, path w p l -> incl l w.
Proof.
  induction l as [|x l IH]; intros p H; [intros y []|]. destruct H as [He H]. intros y [<-|Hy].
  - eapply imported_in; eauto.
  - eapply IH; eauto.
Qed.

Lemma path_short : forall w p l, In p w -> acyclic w p -> path w p l -> (length l < length w)%nat.
Proof.
  intros w p l Hp Ha H. pose proof (path_nodup _ _ _ Ha H) as Hn.
  assert (Hi : incl (p :: l) w) by (intros x [<-|Hx]; [assumption|eapply path_in; eauto]).
  pose proof (NoDup_incl_length Hn Hi) as Hl. cbn [length] in Hl. lia.
Qed.

(** ** Loops *)

Lemma first_of_runs : forall A B (f : A -> answer B) l, first_of f l = Runs -> exists x, In x l /\ f x = Runs.
Proof.
  induction l as [|x l IH]; intro H; [discriminate|]. cbn in H. destruct (f x) eqn:E; [discriminate| |].
  - destruct (IH H) as (y & Hy & Hf). exists y. split; [now right|assumption].
  - exists x. split; [now left|assumption].
Qed.

Lemma first_of_unknown : forall A B (f : A -> answer B) l, (forall x, In x l -> f x = Unknown) -> first_of f l = Unknown.
Proof.
  induction l as [|x l IH]; intro H; [reflexivity|]. cbn. rewrite (H x (or_introl eq_refl)). apply IH. intros y Hy. apply H. now right.
Qed.

Lemma first_of_found : forall A B (f : A -> answer B) l a, first_of f l = Found a -> exists x, In x l /\ f x = Found a.
Proof.
  induction l as [|x l IH]; intros a H; [discriminate|]. cbn in H. destruct (f x) eqn:E.
  - exists x. split; [now left|]. congruence.
  - destruct (IH _ H) as (y & Hy & Hf). exists y. split; [now right|assumption].
  - discriminate.
Qed.

Lemma first_of_none : forall A B (f : A -> answer B) l, first_of f l = Unknown -> forall x, In x l -> f x = Unknown.
Proof.
  induction l as [|x l IH]; intros H y Hy; [destruct Hy|]. cbn in H. destruct (f x) eqn:E; [discriminate| |discriminate].
  destruct Hy as [<-|Hy]; [assumption|now apply IH].
Qed.

Lemma first_of_split : forall A B (f : A -> answer B) l1 x l2, (forall y, In y l1 -> f y = Unknown) -> f x <> Unknown ->
  first_of f (l1 ++ x :: l2) = f x.
Proof.
  induction l1 as [|y l1 IH]; intros x l2 H Hx; cbn.
  - destruct (f x); congruence.
  - rewrite (H y (or_introl eq_refl)). apply IH; [|assumption]. intros z Hz. apply H. now right.
Qed.

Lemma first_of_running : forall A B (f : A -> answer B) l, (forall x a, In x l -> f x <> Found a) -> (exists x, In x l /\ f x = Runs) ->
  first_of f l = Runs.
Proof.
  induction l as [|x l IH]; intros H (y & Hy & Hf); [destruct Hy|]. cbn. destruct (f x) eqn:E.
  - exfalso. eapply H; [now left|eassumption].
  - apply IH; [intros z a Hz; apply H; now right|]. destruct Hy as [->|Hy]; [congruence|now exists y].
  - reflexivity.
Qed.

Lemma in_package_found : forall p o r, in_package p o = Found r -> exists s, o = Some s /\ r = (p_name p, s).
Proof. intros p [s|] r H; [|discriminate]. injection H as <-. now exists s. Qed.
Lemma in_package_unknown : forall p o, in_package p o = Unknown -> o = None.
Proof. intros p [s|] H; [discriminate|reflexivity]. Qed.
Lemma in_package_runs : forall p o, in_package p o <> Runs.
Proof. intros p [s|]; discriminate. Qed.

(** ** Termination *)

Lemma other_runs : forall f w p n, GetOtherType f w p n = Runs -> exists l, path w p l /\ length l = f.
Proof.
  induction f as [|f IH]; intros w p n H; [now exists []|]. cbn [GetOtherType] in H.
  destruct (in_package p (get n (p_others p))) eqn:E; [discriminate| |now apply in_package_runs in E].
  apply first_of_runs in H as (q & Hq & H). apply IH in H as (l & Hl & Hn).
  exists (q :: l). split; [now split|]. cbn [length]. now rewrite Hn.
Qed.

Lemma scope_runs : forall f w p n, GetImportedScope f w p n = Runs -> exists l, path w p l /\ length l = f.
Proof.
  induction f as [|f IH]; intros w p n H; [now exists []|]. cbn [GetImportedScope] in H.
  destruct (n =? "")%string; [discriminate|]. destruct (n =? p_name p)%string; [discriminate|].
  destruct (find _ _); [discriminate|].
  apply first_of_runs in H as (q & Hq & H). apply IH in H as (l & Hl & Hn).
  exists (q :: l). split; [now split|]. cbn [length]. now rewrite Hn.
Qed.

Lemma other_stops : forall w p n f, In p w -> acyclic w p -> (length w <= f)%nat -> GetOtherType f w p n <> Runs.
Proof.
  intros w p n f Hp Ha Hf H. apply other_runs in H as (l & Hl & Hn). pose proof (path_short _ _ _ Hp Ha Hl). lia.
Qed.
Lemma scope_stops : forall w p n f, In p w -> acyclic w p -> (length w <= f)%nat -> GetImportedScope f w p n <> Runs.
Proof.
  intros w p n f Hp Ha Hf H. apply scope_runs in H as (l & Hl & Hn). pose proof (path_short _ _ _ Hp Ha Hl). lia.
Qed.

(** ** Types and members *)

Lemma get_type_runs : forall w p n, GetType w p n <> Runs.
Proof.
  intros w p n H. unfold GetType in H. destruct (in_package p _) eqn:E; [discriminate| |now apply in_package_runs in E].
  apply first_of_runs in H as (q & _ & H). now apply in_package_runs in H.
Qed.
Lemma get_compound_runs : forall w p n, GetCurrentCompoundType w p n <> Runs.
Proof.
  intros w p n H. unfold GetCurrentCompoundType, in_compound in H.
  destruct (match p_current p with Some fs => in_package p (get n fs) | None => Unknown end) eqn:E; [discriminate| |].
  - apply first_of_runs in H as (q & _ & H). destruct (p_current q); [now apply in_package_runs in H|discriminate].
  - destruct (p_current p); [now apply in_package_runs in E|discriminate].
Qed.

Lemma lookup_own_type : forall f w p n s, declares p n s -> GetSymbol f w p n = Found (p_name p, s).
Proof. intros f w p n s H. unfold GetSymbol, GetType. unfold declares in H. now rewrite H. Qed.

Lemma lookup_imported_type : forall f w p n l1 q l2 s, undeclared p n -> imported w p = l1 ++ q :: l2 ->
  (forall x, In x l1 -> undeclared x n) -> declares q n s -> GetSymbol f w p n = Found (p_name q, s).
Proof.
  intros f w p n l1 q l2 s Hu Hi H1 Hq. unfold GetSymbol, GetType. unfold undeclared, declares in *. rewrite Hu, Hi. cbn [in_package].
  rewrite first_of_split.
  - now rewrite Hq.
  - intros y Hy. now rewrite (H1 y Hy).
  - rewrite Hq. discriminate.
Qed.

Lemma no_type : forall w p n, undeclared p n -> (forall q, edge w p q -> undeclared q n) -> GetType w p n = Unknown.
Proof.
  intros w p n Hp Hq. unfold GetType, undeclared in *. rewrite Hp. cbn [in_package].
  apply first_of_unknown. intros q Hin. now rewrite (Hq q Hin).
Qed.
Lemma no_compound : forall w p n, no_member p n -> (forall q, edge w p q -> no_member q n) -> GetCurrentCompoundType w p n = Unknown.
Proof.
  intros w p n Hp Hq. assert (H : forall q, no_member q n -> in_compound q n = Unknown).
  { intros q H. unfold in_compound. destruct (p_current q) as [fs|] eqn:E; [|reflexivity]. now rewrite (H fs E). }
  unfold GetCurrentCompoundType. rewrite (H p Hp). apply first_of_unknown. intros q Hin. apply H, Hq, Hin.
Qed.

Lemma lookup_member : forall f w p n s, undeclared p n -> (forall q, edge w p q -> undeclared q n) -> has_member p n s ->
  GetSymbol f w p n = Found (p_name p, s).
Proof.
  intros f w p n s Hp Hq (fs & Hc & Hs). unfold GetSymbol. rewrite no_type by assumption.
  unfold GetCurrentCompoundType, in_compound. rewrite Hc, Hs. reflexivity.
Qed.

(** ** Items *)

Lemma symbol_other : forall f w p n, no_name w p n -> GetSymbol f w p n = GetOtherType f w p n.
Proof.
  intros f w p n (H1 & H2 & H3 & H4). unfold GetSymbol. now rewrite no_type, no_compound.
Qed.

Lemma other_sound : forall f w p n m s, GetOtherType f w p n = Found (m, s) ->
  exists q, reach w p q /\ p_name q = m /\ has_item q n s.
Proof.
  induction f as [|f IH]; intros w p n m s H; [discriminate|]. cbn [GetOtherType] in H.
  destruct (in_package p (get n (p_others p))) eqn:E.
  - injection H as ->. apply in_package_found in E as (s' & Hs & Hr). injection Hr as -> ->.
    exists p. split; [apply reach_self|]. now split.
  - apply first_of_found in H as (q & Hq & H). apply IH in H as (r & Hr & H). exists r. split; [|assumption].
    eapply reach_trans; [apply edge_reach, Hq|assumption].
  - discriminate.
Qed.

Lemma other_none : forall f w p n, GetOtherType f w p n = Unknown -> forall q s, reach w p q -> ~ has_item q n s.
Proof.
  induction f as [|f IH]; intros w p n H q s Hr Hs; [discriminate|]. cbn [GetOtherType] in H.
  destruct (in_package p (get n (p_others p))) eqn:E; [discriminate| |discriminate].
  apply in_package_unknown in E. destruct (reach_cases _ _ _ Hr) as [<-|(x & Hx & Hr')].
  - unfold has_item in Hs. congruence.
  - pose proof (first_of_none _ _ _ _ H x Hx) as Hu. cbv beta in Hu. eapply IH; eauto.
Qed.

Lemma other_complete : forall f w p n, In p w -> acyclic w p -> (length w <= f)%nat ->
  (exists q s, reach w p q /\ has_item q n s) ->
  exists q s, reach w p q /\ has_item q n s /\ GetOtherType f w p n = Found (p_name q, s).
Proof.
  intros f w p n Hp Ha Hf (q & s & Hr & Hs). destruct (GetOtherType f w p n) as [[m t]| |] eqn:E.
  - apply other_sound in E as (r & H1 & <- & H2). now exists r, t.
  - exfalso. eapply other_none; eauto.
  - exfalso. eapply other_stops; eauto.
Qed.

Lemma other_own : forall f w p n s, has_item p n s -> GetOtherType (S f) w p n = Found (p_name p, s).
Proof. intros f w p n s H. cbn [GetOtherType]. unfold has_item in H. now rewrite H. Qed.

Lemma other_nothing : forall f w p n, In p w -> acyclic w p -> (length w <= f)%nat ->
  (forall q s, reach w p q -> ~ has_item q n s) -> GetOtherType f w p n = Unknown.
Proof.
  intros f w p n Hp Ha Hf H. destruct (GetOtherType f w p n) as [[m t]| |] eqn:E; [|reflexivity|].
  - apply other_sound in E as (r & H1 & _ & H2). exfalso. eapply H; eauto.
  - exfalso. eapply other_stops; eauto.
Qed.

Lemma other_endless : forall f w p n, cyclic w p -> (forall q s, reach w p q -> ~ has_item q n s) -> GetOtherType f w p n = Runs.
Proof.
  induction f as [|f IH]; intros w p n Hc H; [reflexivity|]. cbn [GetOtherType].
  destruct (get n (p_others p)) as [s|] eqn:E; [exfalso; eapply H; [apply reach_self|exact E]|]. cbn [in_package].
  apply first_of_running.
  - intros q [m t] Hq Hf. apply other_sound in Hf as (r & Hr & _ & Hs). eapply H; [|exact Hs].
    eapply reach_trans; [apply edge_reach, Hq|assumption].
  - destruct (cyclic_next _ _ Hc) as (q & Hq & Hcq). exists q. split; [exact Hq|]. apply IH; [assumption|].
    intros r s Hr. apply H. eapply reach_trans; [apply edge_reach, Hq|assumption].
Qed.

(** ** Scopes *)

Lemma scope_sound : forall f w p n q, GetImportedScope f w p n = Found q -> reach w p q /\ p_name q = n /\ n <> ""%string.
Proof.
  induction f as [|f IH]; intros w p n q H; [discriminate|]. cbn [GetImportedScope] in H.
  destruct (String.eqb_spec n "") as [|Hn]; [discriminate|].
  destruct (String.eqb_spec n (p_name p)) as [->|]; [injection H as <-; split; [apply reach_self|now split]|].
  destruct (find _ _) as [x|] eqn:E.
  - injection H as <-. apply find_some in E as [E1 E2]. apply String.eqb_eq in E2. split; [now apply edge_reach|now split].
  - apply first_of_found in H as (x & Hx & H). apply IH in H as (Hr & H). split; [|assumption].
    eapply reach_trans; [apply edge_reach, Hx|assumption].
Qed.

Lemma scope_none : forall f w p n, GetImportedScope f w p n = Unknown -> n <> ""%string -> forall q, reach w p q -> p_name q <> n.
Proof.
  induction f as [|f IH]; intros w p n H Hn q Hr He; [discriminate|]. cbn [GetImportedScope] in H.
  destruct (String.eqb_spec n "") as [|_]; [contradiction|].
  destruct (String.eqb_spec n (p_name p)) as [|Hp]; [discriminate|].
  destruct (find _ _) as [x|] eqn:E; [discriminate|].
  destruct (reach_cases _ _ _ Hr) as [<-|(x & Hx & Hr')]; [congruence|].
  pose proof (first_of_none _ _ _ _ H x Hx) as Hu. cbv beta in Hu. eapply IH; eauto.
Qed.

Lemma scope_found : forall f w p n q, distinct w -> In p w -> acyclic w p -> (length w <= f)%nat ->
  reach w p q -> p_name q = n -> GetImportedScope f w p n = Found q.
Proof.
  intros f w p n q [Hd He] Hp Ha Hf Hr Hn. assert (Hq : In q w) by (eapply reach_in; eauto).
  assert (Hne : n <> ""%string). { intro Hc. apply He. rewrite <- Hc, <- Hn. now apply in_map. }
  destruct (GetImportedScope f w p n) as [x| |] eqn:E.
  - apply scope_sound in E as (Hx & Hxn & _). f_equal.
    assert (Hxw : In x w) by exact (reach_in _ _ _ Hp Hx).
    clear - Hd Hq Hxw Hn Hxn. rewrite <- Hn in Hxn. clear Hn. induction w as [|y w IH]; [destruct Hq|].
    inversion Hd as [|? ? Hny Hd']; subst. destruct Hq as [->|Hq], Hxw as [->|Hx]; auto.
    + exfalso. apply Hny. rewrite <- Hxn. now apply in_map.
    + exfalso. apply Hny. rewrite Hxn. now apply in_map.
  - exfalso. eapply scope_none; eauto.
  - exfalso. exact (scope_stops _ _ _ _ Hp Ha Hf E).
Qed.

Lemma scope_endless : forall f w p n, cyclic w p -> n <> ""%string -> (forall q, reach w p q -> p_name q <> n) -> GetImportedScope f w p n = Runs.
Proof.
  induction f as [|f IH]; intros w p n Hc Hn H; [reflexivity|]. cbn [GetImportedScope].
  destruct (String.eqb_spec n "") as [|_]; [contradiction|].
  destruct (String.eqb_spec n (p_name p)) as [->|_]; [exfalso; eapply H; [apply reach_self|reflexivity]|].
  destruct (find _ _) as [x|] eqn:E.
  { apply find_some in E as [E1 E2]. apply String.eqb_eq in E2. exfalso. eapply H; [apply edge_reach, E1|exact E2]. }
  apply first_of_running.
  - intros q x Hq Hf. apply scope_sound in Hf as (Hr & Hx & _). eapply H; [|exact Hx].
    eapply reach_trans; [apply edge_reach, Hq|assumption].
  - destruct (cyclic_next _ _ Hc) as (q & Hq & Hcq). exists q. split; [exact Hq|]. apply IH; [assumption..|].
    intros r Hr. apply H. eapply reach_trans; [apply edge_reach, Hq|assumption].
Qed.

(** ** Subtypes *)

Lemma refers_lookup : forall f w p t s, distinct w -> In p w -> acyclic w p -> (length w <= f)%nat -> refers_to w p t s ->
  exists q, GetImportedScope f w p (tr_package t) = Found q /\ GetSymbol f w q (tr_name t) = Found (tr_package t, s).
Proof.
  intros f w p t s Hd Hp Ha Hf (q & Hr & Hn & Hs). exists q. split; [now apply scope_found|].
  rewrite (lookup_own_type f w q _ _ Hs). now rewrite Hn.
Qed.

Lemma original_chain : forall f w p, distinct w -> In p w -> acyclic w p -> (length w <= f)%nat ->
  forall t k e m, chain w p t k e -> final w p e m -> forall left cast,
  original_loop left f w p cast t = if (k <=? left)%nat then Found (mkO e (cast || negb (k =? 0)%nat) m) else Unknown.
Proof.
  intros f w p Hd Hp Ha Hf t k e m Hc. induction Hc as [e|t t' k e Hb Hr Hc IH]; intros Hfin left cast.
  - rewrite orb_false_r. destruct left; cbn [original_loop Nat.leb].
    + destruct Hfin as [[Hb ->]|(Hb & -> & s & Hr & Hs)]; rewrite Hb; [reflexivity|].
      destruct (refers_lookup _ _ _ _ _ Hd Hp Ha Hf Hr) as (q & -> & ->). destruct s; tauto.
    + destruct Hfin as [[Hb ->]|(Hb & -> & s & Hr & Hs)]; rewrite Hb; [reflexivity|].
      destruct (refers_lookup _ _ _ _ _ Hd Hp Ha Hf Hr) as (q & -> & ->). destruct s; tauto.
  - destruct (refers_lookup _ _ _ _ _ Hd Hp Ha Hf Hr) as (q & Hq & Hs).
    destruct left as [|left]; cbn [original_loop]; rewrite Hb, Hq, Hs; [reflexivity|].
    rewrite (IH Hfin left true). cbn [Nat.leb Nat.eqb negb]. now rewrite orb_true_r.
Qed.

Lemma original_endless : forall f w p, distinct w -> In p w -> acyclic w p -> (length w <= f)%nat ->
  forall left cast t, (forall k, exists e, chain w p t k e) -> original_loop left f w p cast t = Unknown.
Proof.
  intros f w p Hd Hp Ha Hf. induction left as [|left IH]; intros cast t H.
  - destruct (H 1%nat) as (e & Hc). inversion Hc as [|? t' k ? Hb Hr Hc']; subst.
    destruct (refers_lookup _ _ _ _ _ Hd Hp Ha Hf Hr) as (q & Hq & Hs). cbn [original_loop]. now rewrite Hb, Hq, Hs.
  - destruct (H 1%nat) as (e & Hc). inversion Hc as [|? t' k ? Hb Hr Hc']; subst.
    destruct (refers_lookup _ _ _ _ _ Hd Hp Ha Hf Hr) as (q & Hq & Hs). cbn [original_loop]. rewrite Hb, Hq, Hs.
    apply IH. intro k. destruct (H (S k)) as (e' & Hc2). inversion Hc2 as [|? t2 ? ? _ Hr2 Hc2']; subst.
    destruct (refers_lookup _ _ _ _ _ Hd Hp Ha Hf Hr2) as (q2 & Hq2 & Hs2). assert (q2 = q) by congruence. subst q2.
    rewrite Hs in Hs2. injection Hs2 as <-. now exists e'.
Qed.

(** ** Imports of a generated file *)

Lemma array_chain : forall f w p, distinct w -> In p w -> acyclic w p -> (length w <= f)%nat ->
  forall t k e traits packable, chain w p t k e -> array_kind w p e traits packable -> forall d, (k < d)%nat ->
  PackageGoArrayTraits d f w p t = Found traits /\ PackageIsDeltaPackable d f w p t = Found packable.
Proof.
  intros f w p Hd Hp Ha Hf t k e traits packable Hc. induction Hc as [e|t t' k e Hb Hr Hc IH]; intros Hk d Hkd; destruct d as [|d]; try lia; cbn [PackageGoArrayTraits PackageIsDeltaPackable].
  - destruct Hk as [(Hb & Ht & ->)|(Hb & -> & s & Hr & Hs)]; rewrite Hb.
    + rewrite Ht. now split.
    + destruct (refers_lookup _ _ _ _ _ Hd Hp Ha Hf Hr) as (q & Hq & Hsym). rewrite Hq, Hsym. destruct s; try contradiction; subst; now split.
  - rewrite Hb. destruct (refers_lookup _ _ _ _ _ Hd Hp Ha Hf Hr) as (q & Hq & Hsym). rewrite Hq, Hsym. apply IH; [assumption|lia].
Qed.

Lemma array_endless : forall f w p, distinct w -> In p w -> acyclic w p -> (length w <= f)%nat ->
  forall d t, (forall k, exists e, chain w p t k e) ->
  PackageGoArrayTraits d f w p t = Runs /\ PackageIsDeltaPackable d f w p t = Runs.
Proof.
  intros f w p Hd Hp Ha Hf. induction d as [|d IH]; intros t H; [now split|]. cbn [PackageGoArrayTraits PackageIsDeltaPackable].
  destruct (H 1%nat) as (e & Hc). inversion Hc as [|? t' k ? Hb Hr Hc']; subst.
  destruct (refers_lookup _ _ _ _ _ Hd Hp Ha Hf Hr) as (q & Hq & Hs). rewrite Hb, Hq, Hs. apply IH.
  intro k. destruct (H (S k)) as (e' & Hk). inversion Hk as [|? t2 k2 ? Hb2 Hr2 Hc2]; subst. exists e'.
  replace t' with t2; [assumption|].
  destruct (refers_lookup _ _ _ _ _ Hd Hp Ha Hf Hr2) as (q2 & Hq2 & Hs2). congruence.
Qed.

Lemma existsb_name : forall m l, existsb (fun x => (x =? m)%string) l = true <-> In m l.
Proof.
  intros m l. rewrite existsb_exists. split.
  - intros (x & Hx & He). apply String.eqb_eq in He. now subst.
  - intro H. exists m. split; [assumption|apply String.eqb_refl].
Qed.

Lemma NoDup_app_intro_one : forall (l : list string) x, NoDup l -> ~ In x l -> NoDup (l ++ [x]).
Proof.
  induction l as [|y l IH]; intros x H Hx; cbn.
  - constructor; [intros []|constructor].
  - inversion H as [|? ? Hy Hl]; subst. constructor.
    + intro Hc. apply in_app_or in Hc as [|[->|[]]]; [contradiction|]. apply Hx. now left.
    + apply IH; [assumption|]. intro. apply Hx. now right.
Qed.

(** [out] lists the names of the packages met so far. *)
Lemma add_imports_spec : forall l seen out todo seen' out' todo',
  add_imports l seen out todo = (seen', out', todo') ->
  (forall n, In n seen <-> In n out) -> NoDup out ->
  (forall n, In n seen' <-> In n out') /\ NoDup out' /\
  (forall n, In n out' <-> In n out \/ In n (map p_name l)) /\
  (forall q, In q todo -> In q todo') /\ (forall q, In q todo' -> In q todo \/ In q l) /\
  (forall n, In n out' -> In n out \/ exists q, In q todo' /\ In q l /\ p_name q = n) /\
  (length todo' + length out = length todo + length out')%nat.
Proof.
  induction l as [|q l IH]; intros seen out todo seen' out' todo' H Hs Hn; cbn [add_imports] in H.
  - injection H as <- <- <-. refine (conj Hs (conj Hn (conj _ (conj _ (conj _ (conj _ eq_refl)))))); cbn; tauto.
  - destruct (existsb _ seen) eqn:E.
    + apply existsb_name in E. destruct (IH _ _ _ _ _ _ H Hs Hn) as (H1 & H2 & H3 & H4 & H5 & H6 & H7).
      refine (conj H1 (conj H2 (conj _ (conj H4 (conj _ (conj _ H7)))))).
      * intro n. rewrite (H3 n). cbn. split; [tauto|]. intros [Hin|[<-|Hin]]; [tauto| |tauto]. left. now apply Hs.
      * intros x Hx. destruct (H5 x Hx); [tauto|right; now right].
      * intros n Hin. destruct (H6 n Hin) as [?|(x & ? & ? & ?)]; [tauto|]. right. exists x. repeat split; auto. now right.
    + assert (Hnot : ~ In (p_name q) out).
      { intro Hc. apply Hs in Hc. apply existsb_name in Hc. congruence. }
      destruct (IH _ _ _ _ _ _ H) as (H1 & H2 & H3 & H4 & H5 & H6 & H7).
      * intro n. cbn. rewrite in_app_iff. cbn. rewrite Hs. tauto.
      * apply NoDup_app_intro_one; assumption.
      * refine (conj H1 (conj H2 (conj _ (conj _ (conj _ (conj _ _)))))).
        -- intro n. rewrite (H3 n), in_app_iff. cbn. tauto.
        -- intros x Hx. apply H4, in_or_app. now left.
        -- intros x Hx. destruct (H5 x Hx) as [Hx'|]; [|right; now right].
           apply in_app_or in Hx' as [|[->|[]]]; [now left|right; now left].
        -- intros n Hin. destruct (H6 n Hin) as [Ho|(x & ? & ? & ?)].
           ++ apply in_app_or in Ho as [|[<-|[]]]; [now left|]. right. exists q. split; [|split; [now left|reflexivity]].
              apply H4, in_or_app. right. now left.
           ++ right. exists x. repeat split; auto. now right.
        -- rewrite !app_length in H7. cbn [length] in H7. lia.
Qed.

Lemma same_name : forall w p q, NoDup (map p_name w) -> In p w -> In q w -> p_name p = p_name q -> p = q.
Proof.
  intros w p q Hd Hp Hq H. induction w as [|x w IH]; [destruct Hp|]. inversion Hd as [|? ? Hn Hd']; subst.
  destruct Hp as [->|Hp], Hq as [->|Hq]; auto.
  - exfalso. apply Hn. rewrite H. now apply in_map.
  - exfalso. apply Hn. rewrite <- H. now apply in_map.
Qed.

Lemma reach1_in : forall w p q, reach1 w p q -> In q w.
Proof. intros w p q (r & _ & He). eapply imported_in; eauto. Qed.
Lemma reach1_reach : forall w p q, reach1 w p q -> reach w p q.
Proof. intros w p q (r & Hr & He). eapply reach_step; eauto. Qed.

Definition listed (w : world) (out : list string) (x : package) : Prop := forall y, edge w x y -> In (p_name y) out.

Lemma all_imports_spec : forall w p0, NoDup (map p_name w) -> forall fuel p seen out todo,
  (forall n, In n seen <-> In n out) -> NoDup out ->
  (forall n, In n out -> exists q, reach1 w p0 q /\ p_name q = n) ->
  reach w p0 p -> (forall q, In q todo -> reach1 w p0 q /\ In (p_name q) out) ->
  (p = p0 \/ listed w out p0) ->
  (forall x, reach1 w p0 x -> In (p_name x) out -> In x todo \/ x = p \/ listed w out x) ->
  (length w + length todo < fuel + length out)%nat ->
  exists l, all_imports fuel w p seen out todo = Some l /\ NoDup l /\
    forall n, In n l <-> exists q, reach1 w p0 q /\ p_name q = n.
Proof.
  intros w p0 Hd. induction fuel as [|fuel IH]; intros p seen out todo Hs Hn Ho Hp Ht H0 Hx Hf.
  - exfalso. assert (Hl : (length out <= length w)%nat); [|lia].
    rewrite <- (map_length p_name). apply NoDup_incl_length; [assumption|]. intros n Hin.
    destruct (Ho n Hin) as (q & Hq & <-). apply in_map. eapply reach1_in; eauto.
  - cbn [all_imports]. destruct (add_imports (imported w p) seen out todo) as [[seen' out'] todo'] eqn:E.
    destruct (add_imports_spec _ _ _ _ _ _ _ E Hs Hn) as (H1 & H2 & H3 & H4 & H5 & H6 & H7).
    assert (Hedge : forall q, edge w p q -> reach1 w p0 q) by (intros q Hq; exists p; now split).
    assert (Ho' : forall n, In n out' -> exists q, reach1 w p0 q /\ p_name q = n).
    { intros n Hin. apply H3 in Hin as [Hin|Hin]; [now apply Ho|]. apply in_map_iff in Hin as (q & <- & Hq). exists q. split; [now apply Hedge|reflexivity]. }
    assert (Hlp : listed w out' p) by (intros y Hy; apply H3; right; now apply in_map).
    assert (Hmon : forall x, listed w out x -> listed w out' x) by (intros x H y Hy; apply H3; left; now apply H).
    assert (H0' : listed w out' p0) by (destruct H0 as [<-|]; auto).
    assert (Ht' : forall q, In q todo' -> reach1 w p0 q /\ In (p_name q) out').
    { intros q Hq. destruct (H5 q Hq) as [Hq'|Hq'].
      - destruct (Ht q Hq'). split; [assumption|]. apply H3. now left.
      - split; [now apply Hedge|]. now apply Hlp. }
    assert (Hx' : forall x, reach1 w p0 x -> In (p_name x) out' -> In x todo' \/ listed w out' x).
    { intros x Hr Hin. destruct (H6 _ Hin) as [Hold|(q & Hq & Hql & Hqn)].
      - destruct (Hx x Hr Hold) as [|[->|]]; auto.
      - left. replace x with q; [assumption|]. apply (same_name w); [assumption|eapply imported_in; exact Hql|eapply reach1_in; eauto|assumption]. }
    destruct (rev todo') as [|q rest] eqn:Er.
    + assert (Hnil : todo' = []) by (rewrite <- (rev_involutive todo'), Er; reflexivity). subst todo'.
      exists out'. split; [reflexivity|]. split; [assumption|]. intro n. split; [now apply Ho'|].
      intros (q & (r & Hr & He) & <-).
      assert (Hall : forall r, reach w p0 r -> listed w out' r).
      { intros x Hxr. induction Hxr as [|a b Ha IHa Hab]; [assumption|].
        destruct (Hx' b) as [[]|]; [exists a; now split|now apply IHa|assumption]. }
      now apply (Hall r).
    + assert (Htq : todo' = rev rest ++ [q]) by (rewrite <- (rev_involutive todo'), Er; reflexivity).
      apply IH; try assumption.
      * apply reach1_reach, Ht'. rewrite Htq. apply in_or_app. right. now left.
      * intros x Hxin. apply Ht'. rewrite Htq. apply in_or_app. now left.
      * now right.
      * intros x Hr Hin. destruct (Hx' x Hr Hin) as [Hin'|]; [|tauto].
        rewrite Htq in Hin'. apply in_app_or in Hin' as [|[<-|[]]]; auto.
      * rewrite Htq, app_length in H7. cbn [length] in H7. lia.
Qed.

Lemma all_imports_correct : forall w p fuel, NoDup (map p_name w) -> (length w < fuel)%nat ->
  exists l, GoGetAllImports fuel w p = Some l /\ NoDup l /\
    forall n, In n l <-> exists q, reach1 w p q /\ p_name q = n.
Proof.
  intros w p fuel Hd Hf. unfold GoGetAllImports. apply all_imports_spec; try assumption; cbn.
  - tauto.
  - constructor.
  - intros n [].
  - apply reach_self.
  - intros q [].
  - now left.
  - intros x _ [].
  - lia.
Qed.

(** ** Loading files *)

Lemma put_package_names : forall p l, map p_name (put_package p l) =
  if existsb (fun n => (n =? p_name p)%string) (map p_name l) then map p_name l else map p_name l ++ [p_name p].
Proof.
  induction l as [|q l IH]; [reflexivity|]. cbn [put_package map existsb]. destruct (String.eqb_spec (p_name q) (p_name p)) as [He|He]; cbn [orb map].
  - now rewrite <- He.
  - rewrite IH. now destruct (existsb _ _).
Qed.

Lemma put_package_nodup : forall p l, NoDup (map p_name l) -> NoDup (map p_name (put_package p l)).
Proof.
  intros p l H. rewrite put_package_names. destruct (existsb _ _) eqn:E; [assumption|].
  apply NoDup_app_intro_one; [assumption|]. intro Hc. apply existsb_name in Hc. congruence.
Qed.

Lemma get_package : forall p l, NoDup (map p_name l) -> forall q, In q (put_package p l) <-> q = p \/ (In q l /\ p_name q <> p_name p).
Proof.
  induction l as [|x l IH]; intros Hn q; cbn [put_package].
  - cbn. split; [intros [<-|[]]; now left|intros [->|[[] _]]; now left].
  - inversion Hn as [|? ? Hx Hl]; subst. destruct (String.eqb_spec (p_name x) (p_name p)) as [He|He]; cbn [In].
    + split.
      * intros [<-|Hq]; [now left|]. right. split; [now right|]. intro Hc. apply Hx. rewrite He, <- Hc. now apply in_map.
      * intros [->|[[<-|Hq] Hne]]; [now left|contradiction|now right].
    + rewrite (IH Hl). split.
      * intros [<-|[->|[Hq Hne]]]; [right; split; [now left|assumption]|now left|right; split; [now right|assumption]].
      * intros [->|[[<-|Hq] Hne]]; [right; now left|now left|right; right; now split].
Qed.

Lemma parse_files_snoc : forall files p, parse_files (files ++ [p]) = put_package p (parse_files files).
Proof. intros. unfold parse_files. now rewrite fold_left_app. Qed.

Lemma parse_files_nodup : forall files, NoDup (map p_name (parse_files files)).
Proof.
  intro files. induction files as [|p files IH] using rev_ind; [constructor|].
  rewrite parse_files_snoc. now apply put_package_nodup.
Qed.

(** The package that remains is the one of the last file with its name. *)
Lemma parse_files_last : forall files q, In q (parse_files files) <->
  exists l1 l2, files = l1 ++ q :: l2 /\ forall x, In x l2 -> p_name x <> p_name q.
Proof.
  intro files. induction files as [|p files IH] using rev_ind; intro q.
  - cbn. split; [intros []|]. intros ([|? ?] & l2 & H & _); discriminate.
  - rewrite parse_files_snoc, get_package by apply parse_files_nodup. rewrite IH. split.
    + intros [->|((l1 & l2 & -> & H) & Hne)].
      * exists files, []. split; [reflexivity|intros x []].
      * exists l1, (l2 ++ [p]). split; [now rewrite <- app_assoc|]. intros x Hx.
        apply in_app_or in Hx as [Hx|[<-|[]]]; [now apply H|]. congruence.
    + intros (l1 & l2 & He & H). destruct l2 as [|x l2] using rev_ind.
      * apply app_inj_tail in He as [-> ->]. now left.
      * clear IHl2. rewrite app_comm_cons, app_assoc in He. apply app_inj_tail in He as [-> ->]. right. split.
        -- exists l1, l2. split; [reflexivity|]. intros y Hy. apply H, in_or_app. now left.
        -- intro Hc. apply (H x); [apply in_or_app; right; now left|congruence].
Qed.

Lemma all_some_spec : forall A B (f : A -> option B) l r, all_some f l = Some r ->
  length r = length l /\ forall i x, nth_error l i = Some x -> exists y, f x = Some y /\ nth_error r i = Some y.
Proof.
  induction l as [|x l IH]; intros r H; cbn in H.
  - injection H as <-. split; [reflexivity|]. intros [|i] y Hy; discriminate.
  - destruct (f x) as [y|] eqn:E; [|discriminate]. destruct (all_some f l) as [r'|]; [|discriminate]. injection H as <-.
    destruct (IH _ eq_refl) as [Hl Hi]. split; [cbn; now rewrite Hl|]. intros [|i] z Hz.
    + injection Hz as <-. now exists y.
    + now apply Hi.
Qed.

Lemma position_spec : forall n l i k, position n l i = Some k -> (i <= k)%nat /\ exists p, nth_error l (k - i) = Some p /\ p_name p = n.
Proof.
  induction l as [|p l IH]; intros i k H; [discriminate|]. cbn [position] in H. destruct (String.eqb_spec (p_name p) n) as [He|He].
  - injection H as <-. split; [lia|]. exists p. now rewrite Nat.sub_diag.
  - apply IH in H as (Hk & q & Hq & Hn). split; [lia|]. exists q. split; [|assumption].
    replace (k - i)%nat with (S (k - S i)) by lia. exact Hq.
Qed.

Lemma position_names : forall n l l', map p_name l = map p_name l' -> forall i, position n l i = position n l' i.
Proof.
  induction l as [|p l IH]; intros [|q l'] H i; try discriminate; [reflexivity|]. cbn in *. injection H as H1 H2. rewrite H1.
  destruct (p_name q =? n)%string; [reflexivity|]. now apply IH.
Qed.

Lemma load_names : forall files w, load files = Some w -> map p_name w = map p_name (parse_files files).
Proof.
  unfold load, ResolveImports. intros files w H. remember (parse_files files) as all eqn:Ea. clear Ea files.
  assert (Hg : forall l r, all_some (resolve_package all) l = Some r -> map p_name r = map p_name l); [|eauto].
  induction l as [|p l IH]; intros r Hr; cbn in Hr; [now injection Hr as <-|].
  destruct (resolve_package all p) as [q|] eqn:E; [|discriminate]. destruct (all_some _ l) as [r'|]; [|discriminate].
  injection Hr as <-. cbn. rewrite (IH r' eq_refl). unfold resolve_package in E. destruct (resolve_imports all (p_imports p)); [|discriminate].
  injection E as <-. reflexivity.
Qed.

Lemma load_nodup : forall files w, load files = Some w -> NoDup (map p_name w).
Proof. intros files w H. rewrite (load_names _ _ H). apply parse_files_nodup. Qed.

Lemma load_package : forall files w p, load files = Some w -> In p w ->
  exists p0 l, In p0 (parse_files files) /\ resolve_imports (parse_files files) (p_imports p0) = Some l /\
    p = mkP (p_name p0) (p_imports p0) (p_types p0) (p_current p0) (p_others p0) (p_imported p0 ++ l).
Proof.
  unfold load, ResolveImports. intros files w p H Hp. apply In_nth_error in Hp as (i & Hi).
  destruct (all_some_spec _ _ _ _ _ H) as [Hl Hall].
  destruct (nth_error (parse_files files) i) as [p0|] eqn:E.
  - destruct (Hall i p0 E) as (y & Hy & Hn). rewrite Hi in Hn. injection Hn as ->.
    unfold resolve_package in Hy. destruct (resolve_imports _ _) as [l|] eqn:Er; [|discriminate]. injection Hy as <-.
    exists p0, l. split; [eapply nth_error_In; eauto|]. now split.
  - apply nth_error_None in E. assert (i < length w)%nat by (apply nth_error_Some; congruence). lia.
Qed.

Lemma resolve_imports_star : forall all l r i k, resolve_imports all l = Some r -> In i l -> i_type i = "*"%string ->
  position (i_package i) all 0 = Some k -> In k r.
Proof.
  induction l as [|x l IH]; intros r i k H Hi Hs Hk; [destruct Hi|]. cbn in H.
  destruct (position (i_package x) all 0) as [kx|] eqn:E; [|discriminate]. destruct (resolve_imports all l) as [r'|] eqn:Er; [|discriminate].
  injection H as <-. destruct Hi as [->|Hi].
  - rewrite Hs. cbn. left. congruence.
  - destruct (i_type x =? "*")%string; [right|]; eapply IH; eauto.
Qed.

Lemma resolve_imports_known : forall all l r i, resolve_imports all l = Some r -> In i l -> position (i_package i) all 0 <> None.
Proof.
  induction l as [|x l IH]; intros r i H Hi; [destruct Hi|]. cbn in H.
  destruct (position (i_package x) all 0) as [kx|] eqn:E; [|discriminate]. destruct (resolve_imports all l) as [r'|] eqn:Er; [|discriminate].
  destruct Hi as [->|Hi]; [congruence|eauto].
Qed.

Lemma resolve_imports_only : forall all l r k, resolve_imports all l = Some r -> In k r ->
  exists i, In i l /\ i_type i = "*"%string /\ position (i_package i) all 0 = Some k.
Proof.
  induction l as [|x l IH]; intros r k H Hk; cbn in H; [injection H as <-; destruct Hk|].
  destruct (position (i_package x) all 0) as [kx|] eqn:E; [|discriminate]. destruct (resolve_imports all l) as [r'|] eqn:Er; [|discriminate].
  injection H as <-. destruct (String.eqb_spec (i_type x) "*") as [Hs|Hs].
  - destruct Hk as [->|Hk]; [exists x; repeat split; [now left|assumption..]|].
    destruct (IH _ _ eq_refl Hk) as (i & ? & ? & ?). exists i. repeat split; [now right|assumption..].
  - destruct (IH _ _ eq_refl Hk) as (i & ? & ? & ?). exists i. repeat split; [now right|assumption..].
Qed.

(** The edges are the "*" imports. *)
Lemma load_edge : forall files w p q, load files = Some w -> In p w ->
  (forall x, In x files -> p_imported x = []) ->
  edge w p q <-> (In q w /\ exists i, In i (p_imports p) /\ i_type i = "*"%string /\ i_package i = p_name q).
Proof.
  intros files w p q Hl Hp Hfresh. destruct (load_package _ _ _ Hl Hp) as (p0 & l & Hp0 & Hr & ->). cbn [p_imports p_name].
  assert (H0 : p_imported p0 = []).
  { apply Hfresh. apply parse_files_last in Hp0 as (l1 & l2 & -> & _). apply in_or_app. right. now left. }
  pose proof (load_names _ _ Hl) as Hnames. pose proof (load_nodup _ _ Hl) as Hnd.
  assert (Hpos : forall n k, position n (parse_files files) 0 = Some k -> exists x, nth_error w k = Some x /\ p_name x = n).
  { intros n k Hk. rewrite <- (position_names n w _ Hnames) in Hk. apply position_spec in Hk as (_ & x & Hx & Hn).
    rewrite Nat.sub_0_r in Hx. now exists x. }
  unfold edge, imported. cbn [p_imported]. rewrite H0. cbn [app]. rewrite in_flat_map. split.
  - intros (k & Hk & Hq). destruct (resolve_imports_only _ _ _ _ Hr Hk) as (i & Hi & Hs & Hik).
    destruct (Hpos _ _ Hik) as (x & Hx & Hxn). rewrite Hx in Hq. destruct Hq as [<-|[]].
    split; [eapply nth_error_In; eauto|]. exists i. repeat split; auto.
  - intros (Hq & i & Hi & Hs & Hn). destruct (position (i_package i) (parse_files files) 0) as [k|] eqn:Ek.
    + exists k. split; [eapply resolve_imports_star; eauto|]. destruct (Hpos _ _ Ek) as (x & Hx & Hxn). rewrite Hx. left.
      clear - Hnd Hq Hx Hxn Hn. apply nth_error_In in Hx. rewrite Hn in Hxn. clear Hn.
      induction w as [|y w IH]; [destruct Hq|]. inversion Hnd as [|? ? Hy Hnd']; subst.
      destruct Hq as [->|Hq], Hx as [->|Hx]; auto; exfalso; apply Hy; [rewrite <- Hxn|rewrite Hxn]; now apply in_map.
    + exfalso. eapply resolve_imports_known; eauto.
Qed.

(** ** Resolved references *)

Lemma has_type : forall p n, HasType p n = true <-> exists s, declares p n s.
Proof.
  unfold HasType, declares. intros p n. destruct (get n (p_types p)) as [s|]; split; intro H; try discriminate.
  - now exists s.
  - reflexivity.
  - now destruct H as (s & H).
Qed.

Lemma position_first : forall n w, NoDup (map p_name w) -> forall q, In q w -> p_name q = n -> exists k, position n w 0 = Some k /\ nth_error w k = Some q.
Proof.
  intros n w Hn q Hq He. assert (Hg : forall l i, NoDup (map p_name l) -> In q l -> exists k, position n l i = Some k /\ (i <= k)%nat /\ nth_error l (k - i) = Some q).
  { clear w Hn Hq. induction l as [|x l IH]; intros i Hn Hq; [destruct Hq|]. cbn [position]. inversion Hn as [|? ? Hx Hl]; subst.
    destruct (String.eqb_spec (p_name x) (p_name q)) as [Hxq|Hxq].
    - exists i. split; [reflexivity|]. split; [lia|]. rewrite Nat.sub_diag. cbn. destruct Hq as [->|Hq]; [reflexivity|].
      exfalso. apply Hx. rewrite Hxq. now apply in_map.
    - destruct Hq as [->|Hq]; [contradiction|]. destruct (IH (S i) Hl Hq) as (k & Hk & Hik & Hnth). exists k. split; [assumption|]. split; [lia|].
      replace (k - i)%nat with (S (k - S i)) by lia. exact Hnth. }
  destruct (Hg w 0%nat Hn Hq) as (k & Hk & _ & Hnth). exists k. rewrite Nat.sub_0_r in Hnth. now split.
Qed.

Lemma import_of_spec : forall w l n m, import_of w l n = Some m -> m <> ""%string ->
  exists i q s, In i l /\ (i_type i = "*"%string \/ i_type i = n) /\ i_package i = m /\ In q w /\ p_name q = m /\ declares q n s.
Proof.
  induction l as [|i l IH]; intros n m H Hm; cbn in H; [congruence|].
  destruct (position (i_package i) w 0) as [k|] eqn:Ek; [|discriminate].
  apply position_spec in Ek as (_ & x & Hx & Hxn). rewrite Nat.sub_0_r in Hx. rewrite Hx in H.
  destruct (_ && HasType x n) eqn:E.
  - injection H as <-. apply andb_true_iff in E as [E1 E2]. apply has_type in E2 as (s & Hs). exists i, x, s.
    split; [now left|]. split; [|split; [reflexivity|split; [eapply nth_error_In; eauto|now split]]].
    apply orb_true_iff in E1 as [E1|E1]; apply String.eqb_eq in E1; auto.
  - destruct (IH _ _ H Hm) as (j & q & s & Hj & Hr). exists j, q, s. split; [now right|assumption].
Qed.

(** An accepted reference: the package it names has the type, and it is the
    package itself or one of the imports. *)
Lemma resolve_spec : forall w p t t', resolveTypeReference w p t = Some t' -> In p w -> tr_builtin t = false ->
  tr_builtin t' = false /\ tr_name t' = tr_name t /\ tr_bits t' = tr_bits t /\
  (exists q s, In q w /\ p_name q = tr_package t' /\ declares q (tr_name t) s) /\
  (tr_package t <> ""%string -> t' = t) /\
  (tr_package t = ""%string -> (exists s, declares p (tr_name t) s) -> tr_package t' = p_name p) /\
  (tr_package t = ""%string -> undeclared p (tr_name t) ->
     exists i, In i (p_imports p) /\ i_package i = tr_package t' /\ (i_type i = "*"%string \/ i_type i = tr_name t)).
Proof.
  intros w p t t' H Hp Hb. unfold resolveTypeReference in H. rewrite Hb in H.
  destruct (String.eqb_spec (tr_package t) "") as [He|Hne]; cbn [negb] in H.
  - destruct (HasType p (tr_name t)) eqn:Ht.
    + destruct (String.eqb_spec (p_name p) "") as [|Hpn]; [discriminate|]. injection H as <-. cbn. apply has_type in Ht as (s & Hs). repeat split; try tauto.
      * now exists p, s.
      * intros _ Hu. unfold declares, undeclared in *. congruence.
    + destruct (import_of w (p_imports p) (tr_name t)) as [m|] eqn:Ei; [|discriminate].
      destruct (String.eqb_spec m "") as [|Hm]; [discriminate|]. injection H as <-. cbn.
      destruct (import_of_spec _ _ _ _ Ei Hm) as (i & q & s & Hi & Hty & Him & Hq & Hqn & Hs).
      repeat split; try tauto.
      * now exists q, s.
      * intros _ Hd. apply has_type in Hd. congruence.
      * intros _ _. exists i. now split.
  - destruct (position (tr_package t) w 0) as [k|] eqn:Ek; [|discriminate].
    apply position_spec in Ek as (_ & x & Hx & Hxn). rewrite Nat.sub_0_r in Hx. rewrite Hx in H.
    destruct (HasType x (tr_name t)) eqn:Ht; [|discriminate]. injection H as <-. apply has_type in Ht as (s & Hs).
    repeat split; try tauto. exists x, s. split; [eapply nth_error_In; eauto|now split].
Qed.

(** When it is found again: in the package itself or an import of everything. *)
Lemma resolve_reachable : forall w p t s q, In q w -> p_name q = tr_package t -> declares q (tr_name t) s ->
  q = p \/ edge w p q -> refers_to w p t s.
Proof.
  intros w p t s q Hq Hn Hs [->|He].
  - exists p. split; [apply reach_self|now split].
  - exists q. split; [now apply edge_reach|now split].
Qed.

(** Without an import of everything no other package is found. *)
Lemma no_star_no_scope : forall files w p f n, load files = Some w -> In p w -> (forall x, In x files -> p_imported x = []) ->
  (forall i, In i (p_imports p) -> i_type i <> "*"%string) -> n <> p_name p -> GetImportedScope (S f) w p n = Unknown.
Proof.
  intros files w p f n Hl Hp Hfresh Hs Hn. assert (Hi : imported w p = []).
  { destruct (imported w p) as [|q l] eqn:E; [reflexivity|]. assert (He : edge w p q) by (unfold edge; rewrite E; now left).
    apply (load_edge _ _ _ _ Hl Hp Hfresh) in He as (_ & i & Hin & Hst & _). exfalso. exact (Hs i Hin Hst). }
  cbn [GetImportedScope]. rewrite Hi. cbn. destruct (n =? "")%string; [reflexivity|].
  destruct (String.eqb_spec n (p_name p)); [contradiction|reflexivity].
Qed.

(** ** Symbol tables *)

Lemma get_in : forall A n (l : list (string * A)) v, get n l = Some v -> In (n, v) l.
Proof.
  induction l as [|[k x] l IH]; intros v H; [discriminate|]. cbn in H. destruct (String.eqb_spec k n) as [->|Hk].
  - injection H as ->. now left.
  - right. now apply IH.
Qed.

Lemma get_none : forall A n (l : list (string * A)), get n l = None <-> ~ In n (map fst l).
Proof.
  induction l as [|[k x] l IH]; cbn; [tauto|]. destruct (String.eqb_spec k n) as [->|Hk].
  - split; [discriminate|]. intro H. exfalso. apply H. now left.
  - rewrite IH. tauto.
Qed.

Lemma in_get : forall A n (l : list (string * A)) v, NoDup (map fst l) -> In (n, v) l -> get n l = Some v.
Proof.
  induction l as [|[k x] l IH]; intros v Hn H; [destruct H|]. cbn. inversion Hn as [|? ? Hk Hl]; subst. destruct H as [H|H].
  - injection H as -> ->. now rewrite String.eqb_refl.
  - destruct (String.eqb_spec k n) as [->|]; [|now apply IH]. exfalso. apply Hk. apply (in_map fst) in H. exact H.
Qed.

Lemma get_permuted : forall A n (l l' : list (string * A)), NoDup (map fst l) -> Permutation l l' -> get n l = get n l'.
Proof.
  intros A n l l' Hn Hp. assert (Hn' : NoDup (map fst l')) by (eapply Permutation_NoDup; [apply Permutation_map, Hp|assumption]).
  destruct (get n l) as [v|] eqn:E.
  - symmetry. apply in_get; [assumption|]. apply (Permutation_in _ Hp). now apply get_in.
  - symmetry. apply get_none. intro H. apply get_none in E. apply E.
    apply (Permutation_in n (Permutation_sym (Permutation_map fst Hp))) in H. exact H.
Qed.

Lemma get_app : forall A n (l l' : list (string * A)), get n (l ++ l') = match get n l with Some v => Some v | None => get n l' end.
Proof. induction l as [|[k x] l IH]; intro l'; cbn; [reflexivity|]. destruct (k =? n)%string; [reflexivity|apply IH]. Qed.

Lemma put_all_rev : forall A B (f : A -> B) l m, put_all f l m = rev (map (fun e => (fst e, f (snd e))) l) ++ m.
Proof.
  unfold put_all. induction l as [|e l IH]; intro m; cbn; [reflexivity|]. rewrite IH. now rewrite <- app_assoc.
Qed.

Lemma get_map : forall A B (f : A -> B) n l, get n (map (fun e => (fst e, f (snd e))) l) = option_map f (get n l).
Proof. induction l as [|[k x] l IH]; cbn; [reflexivity|]. destruct (k =? n)%string; [reflexivity|apply IH]. Qed.

Lemma get_rev_map : forall A B (f : A -> B) l n, NoDup (map fst l) ->
  get n (rev (map (fun e => (fst e, f (snd e))) l)) = option_map f (get n l).
Proof.
  intros A B f l n H. rewrite <- get_map. symmetry. apply get_permuted; [|apply Permutation_rev].
  rewrite map_map. exact H.
Qed.

Lemma get_put_all : forall A B (f : A -> B) l m n, NoDup (map fst l) ->
  get n (put_all f l m) = match get n l with Some v => Some (f v) | None => get n m end.
Proof.
  intros A B f l m n H. rewrite put_all_rev, get_app, get_rev_map by assumption.
  now destruct (get n l).
Qed.

Lemma other_scope_rev : forall l m, fold_left (fun m e => put_all SyEnumItem (snd (snd e)) m) l m =
  rev (map (fun e => (fst e, SyEnumItem (snd e))) (flat_map (fun e : string * (nat * list (string * nat)) => snd (snd e)) l)) ++ m.
Proof.
  induction l as [|e l IH]; intro m; cbn; [reflexivity|]. rewrite IH, put_all_rev, map_app, rev_app_distr. now rewrite app_assoc.
Qed.

Lemma get_other_scope : forall d n, NoDup (map fst (all_items d)) -> get n (other_scope d) = option_map SyEnumItem (get n (all_items d)).
Proof.
  intros d n H. unfold other_scope. rewrite other_scope_rev, app_nil_r. fold (all_items d).
  now apply (get_rev_map _ _ SyEnumItem).
Qed.

Lemma type_scope_order : forall d n, keyed d -> get n (type_scope d) =
  match get n (d_choices d) with Some i => Some (SyChoice i) | None =>
  match get n (d_bitmasks d) with Some i => Some (SyBitmask i) | None =>
  match get n (d_unions d) with Some i => Some (SyUnion i) | None =>
  match get n (d_enums d) with Some e => Some (SyEnum (fst e)) | None =>
  match get n (d_structs d) with Some i => Some (SyStruct i) | None =>
  match get n (d_consts d) with Some t => Some (SyConst t) | None =>
  match get n (d_instantiated d) with Some t => Some (SyInstantiate t) | None =>
  match get n (d_subtypes d) with Some t => Some (SySubtype t) | None => None end end end end end end end end.
Proof. intros d n (H1 & H2 & H3 & H4 & H5 & H6 & H7 & H8). unfold type_scope. now rewrite !get_put_all. Qed.

Lemma reordered_same : forall name imports a b, keyed a -> reordered a b -> forall n,
  get n (p_types (CollectSymbols name imports a)) = get n (p_types (CollectSymbols name imports b)) /\
  (NoDup (map fst (all_items a)) ->
   get n (p_others (CollectSymbols name imports a)) = get n (p_others (CollectSymbols name imports b))).
Proof.
  intros name imports a b (H1 & H2 & H3 & H4 & H5 & H6 & H7 & H8) (P1 & P2 & P3 & P4 & P5 & P6 & P7 & P8) n. cbn [CollectSymbols p_types p_others].
  assert (Hk : keyed b) by (unfold keyed; repeat split; eapply Permutation_NoDup; try (apply Permutation_map; eassumption); assumption).
  split.
  - rewrite !type_scope_order by (repeat split; try assumption; apply Hk).
    rewrite (get_permuted _ n _ _ H1 P1), (get_permuted _ n _ _ H2 P2), (get_permuted _ n _ _ H3 P3), (get_permuted _ n _ _ H4 P4),
      (get_permuted _ n _ _ H5 P5), (get_permuted _ n _ _ H6 P6), (get_permuted _ n _ _ H7 P7), (get_permuted _ n _ _ H8 P8). reflexivity.
  - intro Hi. assert (Pi : Permutation (all_items a) (all_items b)) by (unfold all_items; now apply Permutation_flat_map).
    rewrite !get_other_scope; try assumption.
    + now rewrite (get_permuted _ n _ _ Hi Pi).
    + eapply Permutation_NoDup; [apply Permutation_map, Pi|assumption].
Qed.

(** ** The properties *)

Lemma load_imports : forall files w p, load files = Some w -> In p w ->
  exists l, GoGetAllImports (S (length w)) w p = Some l /\ NoDup l /\
    forall n, In n l <-> exists q, reach1 w p q /\ p_name q = n.
Proof. intros files w p Hl Hp. apply all_imports_correct; [eapply load_nodup; eauto|lia]. Qed.

Lemma item_found : forall w p n f, In p w -> acyclic w p -> no_name w p n -> (length w <= f)%nat ->
  match GetSymbol f w p n with
  | Found (m, s) => exists q, reach w p q /\ p_name q = m /\ has_item q n s
  | Unknown => forall q s, reach w p q -> ~ has_item q n s
  | Runs => False
  end.
Proof.
  intros w p n f Hp Ha Hn Hf. rewrite symbol_other by assumption. destruct (GetOtherType f w p n) as [[m s]| |] eqn:E.
  - eapply other_sound; eauto.
  - eapply other_none; eauto.
  - eapply other_stops; eauto.
Qed.

Lemma item_own : forall w p n s f, no_name w p n -> has_item p n s -> GetSymbol (S f) w p n = Found (p_name p, s).
Proof. intros. rewrite symbol_other by assumption. now apply other_own. Qed.

Lemma item_endless : forall w p n f, cyclic w p -> no_name w p n -> (forall q s, reach w p q -> ~ has_item q n s) ->
  GetSymbol f w p n = Runs.
Proof. intros. rewrite symbol_other by assumption. now apply other_endless. Qed.

Lemma scope_answer : forall w p n f, distinct w -> In p w -> acyclic w p -> (length w <= f)%nat ->
  match GetImportedScope f w p n with
  | Found q => reach w p q /\ p_name q = n
  | Unknown => forall q, reach w p q -> p_name q <> n
  | Runs => False
  end.
Proof.
  intros w p n f Hd Hp Ha Hf. destruct (GetImportedScope f w p n) as [q| |] eqn:E.
  - apply scope_sound in E. tauto.
  - intros q Hr Hn. destruct (String.eqb_spec n "") as [He|He].
    + destruct Hd as [_ Hne]. apply Hne. rewrite <- He, <- Hn. apply in_map. eapply reach_in; eauto.
    + eapply scope_none; eauto.
  - eapply scope_stops; eauto.
Qed.

Lemma original_right : forall f w p t k e m, distinct w -> In p w -> acyclic w p -> (length w <= f)%nat ->
  chain w p t k e -> final w p e m ->
  GetOriginalType f w p t = if (k <=? 100)%nat then Found (mkO e (negb (k =? 0)%nat) m) else Unknown.
Proof. intros f w p t k e m Hd Hp Ha Hf Hc Hfin. unfold GetOriginalType. now rewrite (original_chain _ _ _ Hd Hp Ha Hf _ _ _ _ Hc Hfin). Qed.

Lemma resolved_found : forall files w p t t' f, load files = Some w -> fresh files -> In p w -> acyclic w p ->
  ~ In ""%string (map p_name w) -> (length w <= f)%nat ->
  resolveTypeReference w p t = Some t' -> tr_builtin t = false -> tr_package t = ""%string ->
  (forall i, In i (p_imports p) -> i_type i = "*"%string) ->
  exists q s, p_name q = tr_package t' /\ declares q (tr_name t) s /\
    GetImportedScope f w p (tr_package t') = Found q /\ GetSymbol f w q (tr_name t') = Found (tr_package t', s).
Proof.
  intros files w p t t' f Hl Hfr Hp Ha Hne Hf Hr Hb Hpk Hall.
  assert (Hd : distinct w) by (split; [eapply load_nodup; eauto|assumption]).
  destruct (resolve_spec _ _ _ _ Hr Hp Hb) as (Hb' & Hn & _ & (q & s & Hq & Hqn & Hs) & _ & Hown & Himp).
  assert (Href : refers_to w p t' s).
  { apply (resolve_reachable w p t' s q); try assumption; [now rewrite Hn|].
    destruct (get (tr_name t) (p_types p)) as [s0|] eqn:Eg.
    - left. apply (same_name w); [apply Hd|assumption..|]. rewrite Hqn. apply Hown; [assumption|now exists s0].
    - right. apply (load_edge _ _ _ _ Hl Hp Hfr). split; [assumption|]. destruct (Himp Hpk Eg) as (i & Hi & Hin & _).
      exists i. split; [assumption|]. split; [now apply Hall|congruence]. }
  destruct (refers_lookup f w p t' s Hd Hp Ha Hf Href) as (q' & H1 & H2).
  exists q', s. destruct (scope_sound _ _ _ _ _ H1) as (Hr' & Hn' & _). split; [assumption|]. split; [|now split].
  replace q' with q; [assumption|]. apply (same_name w); [apply Hd|assumption|exact (reach_in _ _ _ Hp Hr')|congruence].
Qed.

Lemma single_import : forall files w p t t' f, load files = Some w -> fresh files -> In p w ->
  resolveTypeReference w p t = Some t' -> tr_builtin t = false -> tr_package t' <> p_name p ->
  (forall i, In i (p_imports p) -> i_type i <> "*"%string) ->
  GetImportedScope (S f) w p (tr_package t') = Unknown /\ GetOriginalType (S f) w p t' = Unknown /\
  PackageGoArrayTraits (S f) (S f) w p t' = Unknown /\ PackageIsDeltaPackable (S f) (S f) w p t' = Unknown.
Proof.
  intros files w p t t' f Hl Hfr Hp Hr Hb Hne Hall.
  destruct (resolve_spec _ _ _ _ Hr Hp Hb) as (Hb' & _).
  assert (Hs : GetImportedScope (S f) w p (tr_package t') = Unknown) by (apply (no_star_no_scope files); assumption).
  split; [assumption|]. split.
  - assert (Hg : forall left cast, original_loop left (S f) w p cast t' = Unknown).
    { intros left cast. destruct left; cbn [original_loop]; now rewrite Hb', Hs. }
    apply Hg.
  - remember (S f) as g eqn:Eg. rewrite Eg at 1 3. cbn [PackageGoArrayTraits PackageIsDeltaPackable]. rewrite Hb', Hs. now split.
Qed.
