(** Proofs about expressions in structs, choices and unions. *)

Require Import ZArith String List Bool Lia.
From Verif Require Import Bits BitsFacts AstExpr AstThms AstTypesSpec GoSyntax ExprPrint ExprPrintSpec GoTypes GoTypesSpec GoTypesFacts Packages PackagesSpec PackagesFacts Members MembersSpec.
Import ListNotations.
Open Scope Z_scope.

(** ** The packages with their current compound types *)

Lemma at_name : forall E cur p, p_name (package_at E cur p) = p_name p.
Proof. reflexivity. Qed.

Lemma at_imported : forall E cur p, imported (world_at E cur) (package_at E cur p) = map (package_at E cur) (imported (me_world E) p).
Proof.
  intros E cur p. unfold imported, world_at. cbn [package_at p_imported]. induction (p_imported p) as [|j l IH]; [reflexivity|].
  cbn [flat_map]. rewrite IH, map_app. f_equal. rewrite nth_error_map. now destruct (nth_error (me_world E) j).
Qed.

Lemma at_edge : forall E cur p q, edge (me_world E) p q -> edge (world_at E cur) (package_at E cur p) (package_at E cur q).
Proof. intros E cur p q H. unfold edge. rewrite at_imported. now apply in_map. Qed.
Lemma at_edge_back : forall E cur p x, edge (world_at E cur) (package_at E cur p) x -> exists q, x = package_at E cur q /\ edge (me_world E) p q.
Proof. intros E cur p x H. unfold edge in H. rewrite at_imported in H. apply in_map_iff in H as (q & <- & H). now exists q. Qed.

Lemma at_reach : forall E cur p q, reach (me_world E) p q -> reach (world_at E cur) (package_at E cur p) (package_at E cur q).
Proof. intros E cur p q H. induction H as [|q r H IH He]; [apply reach_self|]. eapply reach_step; [exact IH|now apply at_edge]. Qed.
Lemma at_reach_back : forall E cur p x, reach (world_at E cur) (package_at E cur p) x -> exists q, x = package_at E cur q /\ reach (me_world E) p q.
Proof.
  intros E cur p x H. induction H as [|q r H IH He]; [exists p; split; [reflexivity|apply reach_self]|].
  destruct IH as (q' & -> & Hq). apply at_edge_back in He as (r' & -> & He). exists r'. split; [reflexivity|]. eapply reach_step; eauto.
Qed.

Lemma at_names : forall E cur, map p_name (world_at E cur) = map p_name (me_world E).
Proof. intros. unfold world_at. rewrite map_map. now apply map_ext. Qed.

Lemma at_distinct : forall E cur, distinct (me_world E) -> distinct (world_at E cur).
Proof. intros E cur. unfold distinct. now rewrite at_names. Qed.
Lemma at_in : forall E cur p, In p (me_world E) -> In (package_at E cur p) (world_at E cur).
Proof. intros. now apply in_map. Qed.

Lemma at_acyclic : forall E cur p, distinct (me_world E) -> In p (me_world E) -> acyclic (me_world E) p -> acyclic (world_at E cur) (package_at E cur p).
Proof.
  intros E cur p (Hd & _) Hp Ha x Hx (y & Hy & He). apply at_reach_back in Hx as (q & -> & Hq). apply at_reach_back in Hy as (r & -> & Hr).
  apply at_edge_back in He as (q' & Heq & He). apply (Ha q Hq). exists r. split; [assumption|].
  assert (q' = q); [|now subst]. symmetry. apply (same_name (me_world E)); [assumption|..].
  - eapply reach_in; eauto.
  - eapply imported_in; eauto.
  - change (p_name (package_at E cur q) = p_name (package_at E cur q')). now rewrite <- Heq.
Qed.

Lemma at_length : forall E cur, length (world_at E cur) = length (me_world E).
Proof. intros. apply map_length. Qed.

(** ** Searching *)

Lemma searchable_reach : forall E p q, searchable E p -> reach (me_world E) p q -> searchable E q.
Proof.
  intros E p q (Hd & Hp & Ha & Hf) H. split; [assumption|]. split; [eapply reach_in; eauto|]. split; [|assumption].
  intros r Hr. apply Ha. eapply reach_trans; eauto.
Qed.

Lemma scope_at : forall E cur p q, searchable E p -> reach (me_world E) p q ->
  GetImportedScope (me_depth E) (world_at E cur) (package_at E cur p) (p_name q) = Found (package_at E cur q).
Proof.
  intros E cur p q (Hd & Hp & Ha & Hf) H. apply scope_found; [now apply at_distinct|now apply at_in|now apply at_acyclic|now rewrite at_length|now apply at_reach|reflexivity].
Qed.

Lemma type_at : forall E cur p n s, declares p n s -> GetSymbol (me_depth E) (world_at E cur) (package_at E cur p) n = Found (p_name p, s).
Proof. intros E cur p n s H. exact (lookup_own_type _ _ (package_at E cur p) n s H). Qed.

Lemma named : forall E p, searchable E p -> p_name p <> ""%string.
Proof. intros E p ((_ & He) & Hp & _) H. apply He. rewrite <- H. now apply in_map. Qed.

(** ** Types *)

Definition sym_of (m : meaning) : sym + tyref := match m with Builtin t => inr t | Declared s => inl s end.
Definition lookups (k : nat) (m : meaning) : nat := match m with Builtin _ => k | Declared _ => S k end.

Lemma original_symbol : forall E cur q t k m, means (me_world E) q t k m -> forall p left s, searchable E p -> reach (me_world E) p q ->
  s = SyParameter t \/ (exists a, s = SyField t a) \/ s = SySubtype t ->
  GetOriginalSymbol left (me_depth E) (world_at E cur) (package_at E cur p) s =
    if (lookups k m <=? left)%nat then Found (sym_of m) else Unknown.
Proof.
  intros E cur q t k m H. induction H as [q t Hb|q t r s0 Hb Hr Hn Hs Hk|q t r t' k m Hb Hr Hn Hs H IH]; intros p left s Hp Hq Hsym.
  - destruct Hsym as [->|[(a & ->)| ->]]; destruct left; cbn [GetOriginalSymbol]; rewrite Hb; reflexivity.
  - assert (Hpr : reach (me_world E) p r) by (eapply reach_trans; eauto). pose proof (scope_at E cur p r Hp Hpr) as Hsc. rewrite Hn in Hsc.
    pose proof (type_at E cur r _ _ Hs) as Ht. cbn [lookups sym_of].
    destruct Hsym as [->|[(a & ->)| ->]]; (destruct left as [|left]; cbn [GetOriginalSymbol]; rewrite Hb, Hsc, Ht; [reflexivity|]);
      destruct left; destruct s0; try contradiction; reflexivity.
  - assert (Hpr : reach (me_world E) p r) by (eapply reach_trans; eauto). pose proof (scope_at E cur p r Hp Hpr) as Hsc. rewrite Hn in Hsc.
    pose proof (type_at E cur r _ _ Hs) as Ht.
    assert (X : lookups (S k) m = S (lookups k m)) by now destruct m.
    rewrite X. assert (Hsr : searchable E r) by (eapply searchable_reach; eauto).
    destruct Hsym as [->|[(a & ->)| ->]]; (destruct left as [|left]; cbn [GetOriginalSymbol]; rewrite Hb, Hsc, Ht; [reflexivity|]);
      rewrite (IH r left (SySubtype t') Hsr ltac:(apply reach_self) ltac:(tauto)); cbn [Nat.leb]; destruct left; reflexivity.
Qed.

Lemma name_type_meaning : forall t, name_type (tr_name t) = meaning_type (Builtin t).
Proof.
  intros t. unfold name_type, meaning_type. cbn [existsb]. rewrite orb_false_r, orb_assoc. reflexivity.
Qed.

Definition declared_type (m : meaning) : Prop :=
  match m with Builtin t => tr_builtin t = true | Declared s => match s with SyStruct _ | SyChoice _ | SyUnion _ | SyEnum _ | SyBitmask _ => True | _ => False end end.
Lemma means_declared_type : forall w p t k m, means w p t k m -> declared_type m.
Proof. intros w p t k m H. induction H; assumption. Qed.

Lemma symbol_type_meaning : forall E cur q t k m p s, means (me_world E) q t k m -> searchable E p -> reach (me_world E) p q ->
  s = SyParameter t \/ (exists a, s = SyField t a) \/ s = SySubtype t ->
  symbol_type E (world_at E cur) (package_at E cur p) s =
    if (k <=? subtype_limit m)%nat then Found (meaning_type m, meaning_native m) else Unknown.
Proof.
  intros E cur q t k m p s H Hp Hq Hs. unfold symbol_type. rewrite (original_symbol E cur q t k m H p 100 s Hp Hq Hs).
  pose proof (means_declared_type _ _ _ _ _ H) as Hd.
  destruct m as [b|d].
  - cbn [lookups subtype_limit sym_of]. destruct (k <=? 100)%nat; [|reflexivity]. rewrite name_type_meaning. reflexivity.
  - cbn [lookups subtype_limit sym_of]. change (S k <=? 100)%nat with (k <=? 99)%nat. destruct (k <=? 99)%nat; [|reflexivity].
    destruct d; try contradiction; reflexivity.
Qed.

(** ** Names *)

Lemma member_at : forall E cur p c n s, cur (p_name p) = Some c -> member_of E p c n s -> not_global E p n ->
  GetSymbol (me_depth E) (world_at E cur) (package_at E cur p) n = Found (p_name p, s).
Proof.
  intros E cur p c n s Hc (l & Hl & Hn) (Hu & Hi). apply (lookup_member (me_depth E) (world_at E cur) (package_at E cur p)).
  - exact Hu.
  - intros q Hq. apply at_edge_back in Hq as (q' & -> & Hq). exact (Hi q' Hq).
  - exists l. split; [|assumption]. cbn [package_at p_current]. now rewrite Hc, Hl.
Qed.

Definition compound_name (s : sym) (c : string) : string := match s with SyField _ _ | SyParameter _ | SyFunction _ => c | _ => ""%string end.
Lemma find_member : forall E cur p c n s, cur (p_name p) = Some c -> member_of E p c n s -> not_global E p n ->
  find_symbol E cur (package_at E cur p) n = Found (mkSR s n (p_name p) (compound_name s c)).
Proof.
  intros E cur p c n s Hc Hm Hg. unfold find_symbol. rewrite (member_at E cur p c n s Hc Hm Hg), Hc. now destruct s.
Qed.

Definition open_result (m : meaning) : result := mkRes (meaning_type m) 0 f64_zero "" false (meaning_native m) false.

Lemma go_ident_member : forall E p s n c, searchable E p -> (exists t, member_type s t) \/ (exists f, s = SyFunction f) -> go_ident (p_name p) (mkSR s n (p_name p) c) = IMember (title n).
Proof.
  intros E p s n c Hp Hs. unfold go_ident, PackageGoType. cbn [tr_builtin tr_package sr_package sr_name sr_sym tr_name].
  destruct (String.eqb_spec (p_name p) "") as [He|_]; [now apply named in Hp|]. rewrite String.eqb_refl.
  destruct Hs as [(t & [->|(a & ->)])|(f & ->)]; reflexivity.
Qed.

Lemma own_member : forall E cur p c n s t k m, searchable E p -> cur (p_name p) = Some c -> member_of E p c n s -> not_global E p n ->
  member_type s t -> means (me_world E) p t k m ->
  eval_ident E cur (package_at E cur p) n =
    if (k <=? subtype_limit m)%nat then MOk (AIdent (IMember (title n)) (PackageGoType (p_name p) t) (open_result m)) (Some (mkSR s n (p_name p) c))
    else MFail SErr.
Proof.
  intros E cur p c n s t k m Hp Hc Hm Hg Ht H. unfold eval_ident. rewrite (find_member E cur p c n s Hc Hm Hg). cbn [sr_sym].
  assert (S1 : s = SyParameter t \/ (exists a, s = SyField t a) \/ s = SySubtype t) by (destruct Ht as [->|(a & ->)]; eauto).
  rewrite (symbol_type_meaning E cur p t k m p s H Hp (reach_self _ _) S1).
  change (p_name (package_at E cur p)) with (p_name p).
  rewrite (go_ident_member E p s n _ Hp) by (left; eauto).
  destruct Ht as [->|(a & ->)]; destruct (k <=? subtype_limit m)%nat; reflexivity.
Qed.

Lemma evaluate_name : forall E cur p n, evaluate_member E cur p (MName n) = eval_ident E cur (package_at E cur p) n.
Proof. intros. unfold evaluate_member. now destruct (me_depth E). Qed.

Lemma member_value : forall E cur p c n s t k m, searchable E p -> cur (p_name p) = Some c -> member_of E p c n s -> not_global E p n ->
  member_type s t -> means (me_world E) p t k m ->
  ((k <= subtype_limit m)%nat -> exists go r, evaluate_member E cur p (MName n) = MOk (AIdent (IMember (title n)) go r) (Some (mkSR s n (p_name p) c)) /\
    go = PackageGoType (p_name p) t /\ r_type r = meaning_type m /\ r_native r = meaning_native m /\ r_full r = false) /\
  ((subtype_limit m < k)%nat -> evaluate_member E cur p (MName n) = MFail SErr).
Proof.
  intros E cur p c n s t k m Hp Hc Hm Hg Ht H. rewrite evaluate_name, (own_member E cur p c n s t k m Hp Hc Hm Hg Ht H). split; intros Hk.
  - rewrite (proj2 (Nat.leb_le _ _) Hk). eexists _, _. repeat split.
  - rewrite (proj2 (Nat.leb_gt _ _) Hk). reflexivity.
Qed.

(** Constants win. *)
Lemma sees_symbol : forall E cur p n q s, sees (me_world E) p n q s ->
  GetSymbol (me_depth E) (world_at E cur) (package_at E cur p) n = Found (p_name q, s).
Proof.
  intros E cur p n q s [(-> & H)|(Hu & l1 & l2 & Hi & Hl & H)]; [now apply type_at|].
  apply (lookup_imported_type (me_depth E) (world_at E cur) (package_at E cur p) n (map (package_at E cur) l1) (package_at E cur q) (map (package_at E cur) l2) s).
  - exact Hu.
  - rewrite at_imported, Hi, map_app. reflexivity.
  - intros x Hx. apply in_map_iff in Hx as (y & <- & Hy). exact (Hl y Hy).
  - exact H.
Qed.

Lemma constant_wins : forall E cur p n q t, sees (me_world E) p n q (SyConst t) ->
  evaluate_member E cur p (MName n) = MOk (AConst (copy_result true (me_const E (p_name q) n))) None.
Proof.
  intros E cur p n q t H. rewrite evaluate_name. unfold eval_ident, find_symbol. rewrite (sees_symbol E cur p n q _ H). reflexivity.
Qed.

(** ** Member access *)

Lemma sees_reach : forall w p n q s, sees w p n q s -> reach w p q /\ declares q n s.
Proof.
  intros w p n q s [(-> & H)|(Hu & l1 & l2 & Hi & Hl & H)]; split; try assumption; [apply reach_self|].
  apply edge_reach. unfold edge. rewrite Hi. apply in_or_app. right. now left.
Qed.

Lemma first_split : forall A B (f : A -> answer B) l1 x l2 r, (forall y, In y l1 -> f y = Unknown) -> f x = Found r -> first_of f (l1 ++ x :: l2) = Found r.
Proof. intros A B f l1 x l2 r H1 H2. induction l1 as [|y l1 IH]; cbn; [now rewrite H2|]. rewrite H1 by now left. apply IH. intros z Hz. apply H1. now right. Qed.

Lemma compound_member : forall E cur p n q s c m, members_declared E -> searchable E p -> sees (me_world E) p c q s -> member_of E q c n m ->
  GetCompoundType E cur (package_at E cur p) c n = Found (mkSR m n (p_name q) c).
Proof.
  intros E cur p n q s c m Hw Hp [(-> & H)|(Hu & l1 & l2 & Hi & Hl & H)] (l & Hm & Hn); unfold GetCompoundType.
  - unfold member_in. change (p_name (package_at E cur p)) with (p_name p). now rewrite Hm, Hn.
  - assert (N : forall x, In x (me_world E) -> undeclared x c -> member_in E c n (package_at E cur x) = Unknown).
    { intros x Hx Hxu. unfold member_in. change (p_name (package_at E cur x)) with (p_name x).
      destruct (me_members E (p_name x) c) as [l'|] eqn:Hl'; [|reflexivity]. now destruct (Hw x c l' Hx Hl'). }
    rewrite (N p (proj1 (proj2 Hp)) Hu), at_imported, Hi, map_app. cbn [map]. apply first_split.
    + intros y Hy. apply in_map_iff in Hy as (x & <- & Hx). apply N; [|now apply Hl].
      apply (imported_in (me_world E) p). unfold edge. rewrite Hi. apply in_or_app. now left.
    + unfold member_in. change (p_name (package_at E cur q)) with (p_name q). now rewrite Hm, Hn.
Qed.

Definition at_symbol (o : mout) (s : sym) : Prop := exists a n pkg c, o = MOk a (Some (mkSR s n pkg c)).

Lemma path_value : forall E cur p c e s q, members_declared E -> searchable E p -> cur (p_name p) = Some c -> path_to E p c e s q ->
  reach (me_world E) p q /\
  forall calls t k m, member_type s t -> means (me_world E) q t k m -> (k <= subtype_limit m)%nat ->
  exists a n pkg cn, evaluate_in calls E cur (package_at E cur p) e = MOk a (Some (mkSR s n pkg cn)) /\ res a = open_result m /\ symbol a = Some (PackageGoType (p_name p) t).
Proof.
  intros E cur p c e s q Hw Hp Hc H. induction H as [n s Hm Hg|a s q t q' s' n m Ha IH Ht Hb Hr Hn Hs Hk Hm].
  - split; [apply reach_self|]. intros calls t k m Ht H Hl. pose proof (own_member E cur p c n s t k m Hp Hc Hm Hg Ht H) as X.
    rewrite (proj2 (Nat.leb_le _ _) Hl) in X. destruct calls; cbn [evaluate_in eval_mexpr]; rewrite X; eexists _, _, _, _; repeat split.
  - destruct IH as (Hq & IH). destruct (sees_reach _ _ _ _ _ Hs) as (Hpq' & Hd). split; [assumption|].
    intros calls t2 k2 m2 Ht2 H2 Hl2.
    assert (M : means (me_world E) q t 0 (Declared s')) by (eapply means_declared; eauto; destruct Hk as (i & [-> | ->]); exact I).
    destruct (IH calls t 0%nat (Declared s') Ht M ltac:(lia)) as (ea & na & pa & ca & Ea & Ra & Sa).
    assert (S1 : s = SyParameter t \/ (exists a, s = SyField t a) \/ s = SySubtype t) by (destruct Ht as [->|(x & ->)]; eauto).
    assert (S2 : m = SyParameter t2 \/ (exists a, m = SyField t2 a) \/ m = SySubtype t2) by (destruct Ht2 as [->|(x & ->)]; eauto).
    assert (D : eval_mdot E cur (package_at E cur p) ea (Some (mkSR s na pa ca)) (r_full (res ea)) n = eval_member E cur (package_at E cur p) ea (mkSR s na pa ca) (r_full (res ea)) n).
    { unfold eval_mdot. cbn [sr_sym]. rewrite (original_symbol E cur q t 0 (Declared s') M p 100 s Hp Hq S1). cbn [lookups sym_of Nat.leb].
      rewrite Ra. cbn [open_result r_type meaning_type]. destruct Hk as (i & [-> | ->]); reflexivity. }
    assert (V : eval_member E cur (package_at E cur p) ea (mkSR s na pa ca) (r_full (res ea)) n =
      MOk (ADot ea (DField (title n)) (Some (PackageGoType (p_name p) t2)) (open_result m2)) (Some (mkSR m n (p_name q') (tr_name t)))).
    { assert (C : compound_of (me_depth E) E cur (package_at E cur p) (package_at E cur p) t = Found (tr_name t, s', package_at E cur q')).
      { destruct (me_depth E) as [|d] eqn:Ed.
        - exfalso. destruct Hp as (_ & Hin & _ & Hf). rewrite Ed in Hf. destruct (me_world E); [destruct Hin|cbn in Hf; lia].
        - cbn [compound_of]. unfold find_symbol. rewrite (sees_symbol E cur p _ _ _ Hs). cbn [sr_package sr_sym sr_name].
          rewrite (scope_at E cur p q' Hp Hpq'). destruct Hk as (i & [-> | ->]); reflexivity. }
      unfold eval_member. cbn [sr_sym].
      assert (T : symbol_type E (world_at E cur) (package_at E cur q') m = Found (meaning_type m2, meaning_native m2)).
      { rewrite (symbol_type_meaning E cur q' t2 k2 m2 q' m H2 (searchable_reach _ _ _ Hp Hpq') (reach_self _ _) S2). now rewrite (proj2 (Nat.leb_le _ _) Hl2). }
      pose proof (compound_member E cur p n q' s' (tr_name t) m Hw Hp Hs Hm) as G.
      assert (R : match compound_of (me_depth E) E cur (package_at E cur p) (package_at E cur p) t with
                  | Found (c0, SyStruct _, scope) | Found (c0, SyChoice _, scope) =>
                      match GetCompoundType E cur (package_at E cur p) c0 n with
                      | Found m0 =>
                          match symbol_type E (world_at E cur) scope (sr_sym m0) with
                          | Found (ty, native) => MOk (ADot ea (DField (title n)) (Some (symbol_go_type E (p_name (package_at E cur p)) m0)) (mkRes ty 0 f64_zero "" false native (r_full (res ea)))) (Some m0)
                          | x => MFail (failed x)
                          end
                      | x => MFail (failed x)
                      end
                  | Found _ => MFail SErr
                  | x => MFail (failed x)
                  end = MOk (ADot ea (DField (title n)) (Some (PackageGoType (p_name p) t2)) (open_result m2)) (Some (mkSR m n (p_name q') (tr_name t)))).
      { rewrite C. assert (F : r_full (res ea) = false) by (rewrite Ra; reflexivity).
        destruct Hk as (i & [-> | ->]); rewrite G; cbn [sr_sym]; rewrite T, F; destruct Ht2 as [->|(x & ->)]; reflexivity. }
      destruct Ht as [->|(x & ->)]; exact R. }
    exists (ADot ea (DField (title n)) (Some (PackageGoType (p_name p) t2)) (open_result m2)), n, (p_name q'), (tr_name t).
    split; [|split; reflexivity].
    destruct calls; cbn [evaluate_in] in Ea |- *; cbn [eval_mexpr]; rewrite Ea, D; exact V.
Qed.

Lemma path_member : forall E cur p c e s q t k m, members_declared E -> searchable E p -> cur (p_name p) = Some c -> path_to E p c e s q ->
  member_type s t -> means (me_world E) q t k m -> (k <= subtype_limit m)%nat ->
  exists a n pkg cn, evaluate_member E cur p e = MOk a (Some (mkSR s n pkg cn)) /\ symbol a = Some (PackageGoType (p_name p) t) /\
    r_type (res a) = meaning_type m /\ r_native (res a) = meaning_native m /\ r_full (res a) = false.
Proof.
  intros E cur p c e s q t k m Hw Hp Hc H Ht Hm Hk. destruct (proj2 (path_value E cur p c e s q Hw Hp Hc H) (me_depth E) t k m Ht Hm Hk) as (a & n & pkg & cn & Ee & R & Sy).
  exists a, n, pkg, cn. rewrite R. auto.
Qed.

(** ** Unknown names *)

Lemma unknown_name : forall E cur p n, searchable E p -> not_global E p n -> no_item E p n ->
  (forall q c l, q = p \/ edge (me_world E) p q -> cur (p_name q) = Some c -> me_members E (p_name q) c = Some l -> get n l = None) ->
  eval_ident E cur (package_at E cur p) n = MFail SErr.
Proof.
  intros E cur p n (Hd & Hp & Ha & Hf) (Hu & Hi) Ho Hm. unfold eval_ident, find_symbol.
  assert (N : no_name (world_at E cur) (package_at E cur p) n).
  { assert (M : forall q, q = p \/ edge (me_world E) p q -> no_member (package_at E cur q) n).
    { intros q Hq l Hl. cbn [package_at p_current] in Hl. destruct (cur (p_name q)) as [c|] eqn:Hc; [|discriminate]. exact (Hm q c l Hq Hc Hl). }
    split; [exact Hu|]. split; [|split].
    - intros q Hq. apply at_edge_back in Hq as (q' & -> & Hq). exact (Hi q' Hq).
    - apply M. now left.
    - intros q Hq. apply at_edge_back in Hq as (q' & -> & Hq). apply M. now right. }
  rewrite (symbol_other _ _ _ _ N).
  assert (R : GetOtherType (me_depth E) (world_at E cur) (package_at E cur p) n = Unknown).
  { apply (other_nothing (me_depth E)); [now apply at_in|now apply at_acyclic|now rewrite at_length|].
    intros q s Hq H. apply at_reach_back in Hq as (q' & -> & Hq). exact (Ho q' s Hq H). }
  rewrite R. reflexivity.
Qed.

Lemma nothing_unknown : forall E cur p n, searchable E p -> nothing E p n -> eval_ident E cur (package_at E cur p) n = MFail SErr.
Proof. intros E cur p n Hp (Hg & Ho & Hm). apply unknown_name; try assumption. intros q c l Hq _ Hl. exact (Hm q c l Hq Hl). Qed.

Lemma all_names : forall invoke E cur p e a s, eval_mexpr invoke E cur p e = MOk a s -> forall n, In n (names e) -> exists a' s', eval_ident E cur p n = MOk a' s'.
Proof.
  intros invoke E cur p e. induction e; intros r s H m Hm; cbn [names] in Hm; cbn [eval_mexpr] in H; try contradiction.
  - destruct Hm as [<-|[]]. eauto.
  - destruct (eval_mexpr invoke E cur p e) as [ea os|] eqn:Ee; [|discriminate]. apply in_app_or in Hm as [Hm|Hm]; [eauto|]. destruct id; [|contradiction].
    destruct Hm as [<-|[]]. destruct (eval_ident E cur p n) as [eb ob|] eqn:En; [eauto|discriminate].
  - unfold eval_elem in H. destruct (eval_mexpr invoke E cur p e1) eqn:E1; [|discriminate]. destruct (eval_mexpr invoke E cur p e2) eqn:E2; [|discriminate].
    apply in_app_or in Hm as [Hm|Hm]; eauto.
  - unfold eval_call in H. destruct (eval_mexpr invoke E cur p e) eqn:Ee; [|discriminate]. eauto.
  - unfold eval_lengthof in H. destruct (eval_mexpr invoke E cur p e) eqn:Ee; [|discriminate]. eauto.
  - unfold operator1 in H. destruct (eval_mexpr invoke E cur p e) eqn:Ee; [|discriminate]. eauto.
  - unfold operator1 in H. destruct (eval_mexpr invoke E cur p e) eqn:Ee; [|discriminate]. eauto.
  - unfold operator2 in H. destruct (eval_mexpr invoke E cur p e1) eqn:E1; [|discriminate]. destruct (eval_mexpr invoke E cur p e2) eqn:E2; [|discriminate].
    apply in_app_or in Hm as [Hm|Hm]; eauto.
  - unfold operator1 in H. destruct (eval_mexpr invoke E cur p e) eqn:Ee; [|discriminate]. eauto.
  - unfold operator2 in H. destruct (eval_mexpr invoke E cur p e1) eqn:E1; [|discriminate]. destruct (eval_mexpr invoke E cur p e2) eqn:E2; [|discriminate].
    apply in_app_or in Hm as [Hm|Hm]; eauto.
  - unfold operator2 in H. destruct (eval_mexpr invoke E cur p e1) eqn:E1; [|discriminate]. destruct (eval_mexpr invoke E cur p e2) eqn:E2; [|discriminate].
    apply in_app_or in Hm as [Hm|Hm]; eauto.
  - destruct (eval_mexpr invoke E cur p e1) eqn:E1; [|discriminate]. destruct (eval_mexpr invoke E cur p e2) eqn:E2; [|discriminate].
    destruct (eval_mexpr invoke E cur p e3) eqn:E3; [|discriminate]. apply in_app_or in Hm as [Hm|Hm]; [eauto|]. apply in_app_or in Hm as [Hm|Hm]; eauto.
  - unfold operator1 in H. destruct (eval_mexpr invoke E cur p e) eqn:Ee; [|discriminate]. eauto.
  - unfold operator2 in H. destruct (eval_mexpr invoke E cur p e1) eqn:E1; [|discriminate]. destruct (eval_mexpr invoke E cur p e2) eqn:E2; [|discriminate].
    apply in_app_or in Hm as [Hm|Hm]; eauto.
  - unfold operator1 in H. destruct (eval_mexpr invoke E cur p e) eqn:Ee; [|discriminate]. eauto.
  - unfold operator1 in H. destruct (eval_mexpr invoke E cur p e) eqn:Ee; [|discriminate]. eauto.
  - unfold operator2 in H. destruct (eval_mexpr invoke E cur p e1) eqn:E1; [|discriminate]. destruct (eval_mexpr invoke E cur p e2) eqn:E2; [|discriminate].
    apply in_app_or in Hm as [Hm|Hm]; eauto.
Qed.

Lemma evaluate_mexpr : forall E cur p e, exists invoke, evaluate_member E cur p e = eval_mexpr invoke E cur (package_at E cur p) e.
Proof. intros. unfold evaluate_member. destruct (me_depth E); cbn [evaluate_in]; eexists; reflexivity. Qed.

Lemma eval_fails : forall invoke, (forall cur p e, invoke cur p e <> MFail SOk) -> forall E cur p e, eval_mexpr invoke E cur p e <> MFail SOk.
Proof.
  intros invoke Hi E cur p. assert (F : forall A (x : answer A), failed x <> SOk) by (intros A []; discriminate).
  assert (ID : forall n, eval_ident E cur p n <> MFail SOk).
  { intros n. unfold eval_ident. destruct (find_symbol E cur p n) as [s| |]; try discriminate. destruct (sr_sym s); try discriminate;
      destruct (symbol_type E (world_at E cur) p _) as [[]| |]; discriminate. }
  assert (DOT : forall ea os full n, eval_mdot E cur p ea os full n <> MFail SOk).
  { intros ea os full n. unfold eval_mdot. destruct os as [s|]; [|discriminate]. destruct (GetOriginalSymbol _ _ _ _ _) as [o| |]; try discriminate.
    destruct (ety_eqb _ TyEnum); [destruct o as [[]|]; try discriminate; destruct (get _ _); discriminate|].
    destruct (ety_eqb _ TyBitmask); [destruct o as [[]|]; try discriminate; destruct (get _ _) as [[]|]; discriminate|].
    destruct (ety_eqb _ TyCompound); [|discriminate]. unfold eval_member.
    destruct (sr_sym s); try discriminate; (destruct (compound_of _ _ _ _ _ _) as [((c & k) & scope)| |]; try discriminate; destruct k; try discriminate;
      (destruct (GetCompoundType _ _ _ _ _); try discriminate; destruct (symbol_type _ _ _ _) as [[]| |]; discriminate)). }
  assert (O1 : forall mk op x, x <> MFail SOk -> operator1 mk op x <> MFail SOk).
  { intros mk op [ea os|x] H; unfold operator1; [|congruence]. destruct (op _ _) as [r []]; congruence. }
  assert (O2 : forall mk op x y, x <> MFail SOk -> y <> MFail SOk -> operator2 mk op x y <> MFail SOk).
  { intros mk op [ea os|x] [eb ob|y] H H'; unfold operator2; try congruence. destruct (op _ _ _) as [r []]; congruence. }
  assert (AF : forall os, array_field os <> inl SOk) by (intros [s|]; unfold array_field; [destruct (sr_sym s); try discriminate; destruct array|]; discriminate).
  induction e; cbn [eval_mexpr]; try discriminate; try (now apply O1); try (now apply O2); try apply ID.
  - destruct (_ <=? _); discriminate.
  - destruct (eval_mexpr _ _ _ _ e); [|congruence]. destruct id; [|apply DOT]. pose proof (ID n). destruct (eval_ident _ _ _ _); [apply DOT|congruence].
  - unfold eval_elem. destruct (eval_mexpr _ _ _ _ e1) as [ea os|]; [|congruence]. destruct (eval_mexpr _ _ _ _ e2) as [ei oi|]; [|congruence].
    pose proof (AF os). destruct (array_field os) as [x|t]; [congruence|]. destruct (ety_eqb _ _); [|discriminate]. destruct (reference_type _ _ _ _) as [[]| |]; discriminate.
  - unfold eval_call. destruct (eval_mexpr _ _ _ _ e) as [ea os|]; [|congruence]. destruct os as [s|]; [|discriminate]. destruct (sr_sym s); try discriminate.
    destruct (GetOriginalType _ _ _ _); try discriminate. destruct (GetImportedScope _ _ _ _) as [q| |]; try discriminate. cbn zeta.
    match goal with |- context [invoke ?x ?y ?z] => pose proof (Hi x y z); destruct (invoke x y z) end; [discriminate|congruence].
  - unfold eval_lengthof. destruct (eval_mexpr _ _ _ _ e) as [ea os|]; [|congruence]. pose proof (AF os). destruct (array_field os); [congruence|discriminate].
  - destruct (eval_mexpr _ _ _ _ e1); [|congruence]. destruct (eval_mexpr _ _ _ _ e2); [|congruence]. destruct (eval_mexpr _ _ _ _ e3); [|congruence].
    destruct (eval_ternary _ _ _ _) as [r []]; congruence.
Qed.

Lemma evaluate_fails : forall calls E cur p e, evaluate_in calls E cur p e <> MFail SOk.
Proof. intros calls E. induction calls as [|k IH]; intros cur p e; cbn [evaluate_in]; apply eval_fails; [discriminate|exact IH]. Qed.

Lemma all_evaluated : forall E cur p l, evaluate_all E cur p l = SOk -> forall e, In e l -> exists a s, evaluate_member E cur p e = MOk a s.
Proof.
  intros E cur p l. induction l as [|x l IH]; intros H e He; [destruct He|]. cbn [evaluate_all] in H.
  destruct (evaluate_member E cur p x) as [a s|y] eqn:Ex.
  - destruct He as [<-|He]; [eauto|now apply IH].
  - subst y. now destruct (evaluate_fails (me_depth E) E cur (package_at E cur p) x).
Qed.

Lemma union_names : forall E p l e n, searchable E p -> In e l -> In n (names e) -> not_global E p n -> no_item E p n -> EvaluateUnion E nowhere p l <> SOk.
Proof.
  intros E p l e n Hp He Hn Hg Ho H. destruct (all_evaluated E nowhere p l H e He) as (a & s & Ee). destruct (evaluate_mexpr E nowhere p e) as (invoke & Ei).
  rewrite Ei in Ee. destruct (all_names _ _ _ _ _ _ _ Ee n Hn) as (a' & s' & En).
  rewrite (unknown_name E nowhere p n Hp Hg Ho) in En; discriminate.
Qed.

(** ** Choices *)

Lemma labels_inv : forall E cur p os l zs, evaluate_labels E cur p os l = inr zs ->
  Forall2 (fun label z => exists e a s, specify os label = inr e /\ evaluate_member E cur p e = MOk a s /\ z = r_int (res a)) l zs.
Proof.
  intros E cur p os l. induction l as [|x l IH]; intros zs H; cbn [evaluate_labels] in H; [injection H as <-; constructor|].
  destruct (specify os x) as [|e] eqn:Es; [discriminate|]. destruct (evaluate_member E cur p e) as [a s|] eqn:Ee; [|discriminate].
  destruct (evaluate_labels E cur p os l) as [|zs']; [discriminate|]. injection H as <-. constructor; [exists e, a, s; auto|now apply IH].
Qed.
Lemma cases_inv : forall E cur p os l zss, evaluate_cases E cur p os l = inr zss -> Forall2 (fun labels zs => evaluate_labels E cur p os labels = inr zs) l zss.
Proof.
  intros E cur p os l. induction l as [|x l IH]; intros zss H; cbn [evaluate_cases] in H; [injection H as <-; constructor|].
  destruct (evaluate_labels E cur p os x) as [|zs] eqn:Ex; [discriminate|]. destruct (evaluate_cases E cur p os l) as [|zss']; [discriminate|]. injection H as <-.
  constructor; [assumption|now apply IH].
Qed.
Lemma labels_intro : forall E cur p os l zs, Forall2 (fun label z => exists e a s, specify os label = inr e /\ evaluate_member E cur p e = MOk a s /\ z = r_int (res a)) l zs ->
  evaluate_labels E cur p os l = inr zs.
Proof. intros E cur p os l zs H. induction H as [|x z l zs (e & a & s & Es & Ee & ->) H IH]; cbn [evaluate_labels]; [reflexivity|]. now rewrite Es, Ee, IH. Qed.
Lemma cases_intro : forall E cur p os l zss, Forall2 (fun labels zs => evaluate_labels E cur p os labels = inr zs) l zss -> evaluate_cases E cur p os l = inr zss.
Proof. intros E cur p os l zss H. induction H as [|x z l zs Ex H IH]; cbn [evaluate_cases]; [reflexivity|]. now rewrite Ex, IH. Qed.

(** A reference has one meaning. *)
Lemma means_unique : forall w p t k m, distinct w -> In p w -> means w p t k m -> forall k' m', means w p t k' m' -> m' = m.
Proof.
  intros w p t k m Hd Hp H. revert Hp. induction H as [p t Hb|p t q s Hb Hr Hn Hs Hk|p t q t' k m Hb Hr Hn Hs H IH]; intros Hp k' m' H'.
  - inversion H'; congruence.
  - inversion H' as [|? ? q' s' Hb' Hr' Hn' Hs' Hk'|? ? q' t'' k'' m'' Hb' Hr' Hn' Hs' H'']; subst; [congruence|..];
      (assert (q' = q) by (apply (same_name w); [apply Hd|eapply reach_in; eauto|eapply reach_in; eauto|congruence]); subst q'; unfold declares in *).
    + congruence.
    + rewrite Hs in Hs'. injection Hs' as ->. contradiction.
  - inversion H' as [|? ? q' s' Hb' Hr' Hn' Hs' Hk'|? ? q' t'' k'' m'' Hb' Hr' Hn' Hs' H'']; subst; [congruence|..];
      (assert (q' = q) by (apply (same_name w); [apply Hd|eapply reach_in; eauto|eapply reach_in; eauto|congruence]); subst q'; unfold declares in *).
    + rewrite Hs in Hs'. injection Hs' as <-. contradiction.
    + rewrite Hs in Hs'. injection Hs' as <-. eapply IH; [eapply reach_in; eauto|exact H''].
Qed.

(** The type of a parameter, written as an expression. *)
Lemma means_type : forall E p t k m q s, searchable E p -> means (me_world E) p t k m -> sees (me_world E) p (tr_name t) q s -> p_name q = tr_package t -> tr_builtin t = false ->
  match k with
  | O => m = Declared s
  | S j => exists t', s = SySubtype t' /\ means (me_world E) q t' j m
  end.
Proof.
  intros E p t k m q s Hp H Hs Hq Hb. destruct (sees_reach _ _ _ _ _ Hs) as (Hr & Hd).
  assert (U : forall q', reach (me_world E) p q' -> p_name q' = tr_package t -> q' = q).
  { intros q' Hr' Hn'. apply (same_name (me_world E)); [apply Hp|eapply reach_in; [apply Hp|eassumption]|eapply reach_in; [apply Hp|eassumption]|congruence]. }
  destruct H as [p t Hb'|p t q' s' Hb' Hr' Hn' Hd' Hk|p t q' t' k m Hb' Hr' Hn' Hd' H].
  - congruence.
  - rewrite (U q' Hr' Hn') in Hd'. unfold declares in *. congruence.
  - pose proof (U q' Hr' Hn'). subst q'. exists t'. split; [unfold declares in *; congruence|assumption].
Qed.

Lemma sees_type : forall E cur p t k m q s, searchable E p -> means (me_world E) p t k m -> sees (me_world E) p (tr_name t) q s -> p_name q = tr_package t -> tr_builtin t = false ->
  (k <= subtype_limit m)%nat -> find_symbol E cur (package_at E cur p) (tr_name t) = Found (mkSR s (tr_name t) (p_name q) "") /\
  match s with SyConst _ | SyEnumItem _ | SyField _ _ | SyParameter _ => False | _ => True end /\
  symbol_type E (world_at E cur) (package_at E cur p) s = Found (meaning_type m, meaning_native m) /\
  GetOriginalSymbol 100 (me_depth E) (world_at E cur) (package_at E cur p) s = Found (sym_of m).
Proof.
  intros E cur p t k m q s Hp H Hs Hq Hb Hk. pose proof (means_type E p t k m q s Hp H Hs Hq Hb) as M. destruct (sees_reach _ _ _ _ _ Hs) as (Hr & Hd).
  pose proof (means_declared_type _ _ _ _ _ H) as DT. unfold find_symbol. rewrite (sees_symbol E cur p _ _ _ Hs).
  destruct k as [|j].
  - subst m. cbn [declared_type] in DT. destruct s; try contradiction; (split; [reflexivity|]; split; [exact I|]; split; reflexivity).
  - destruct M as (t' & -> & M). split; [reflexivity|]. split; [exact I|].
    pose proof (original_symbol E cur q t' j m M p 100 (SySubtype t') Hp Hr ltac:(tauto)) as O.
    assert (L : (lookups j m <=? 100)%nat = true) by (destruct m; cbn [lookups subtype_limit] in *; apply Nat.leb_le; lia).
    rewrite L in O. split; [|exact O].
    rewrite (symbol_type_meaning E cur q t' j m p (SySubtype t') M Hp Hr ltac:(tauto)).
    now rewrite (proj2 (Nat.leb_le j (subtype_limit m)) ltac:(lia)).
Qed.

Definition named_value (E : menv) (m : meaning) (n : string) : option result :=
  match m with
  | Declared (SyEnum i) => get n (me_enum E i)
  | Declared (SyBitmask i) => match get n (me_mask E i) with Some o => o | None => None end
  | _ => None
  end.

Lemma mdot_step : forall E cur p ea s full n o, GetOriginalSymbol 100 (me_depth E) (world_at E cur) p (sr_sym s) = Found o ->
  eval_mdot E cur p ea (Some s) full n =
    if ety_eqb (r_type (res ea)) TyEnum then
      match o with
      | inl (SyEnum i) => match get n (me_enum E i) with Some r => MOk (ADot ea (go_item E (world_at E cur) p s n) None (copy_result full r)) None | None => MFail SErr end
      | _ => MFail SErr
      end
    else if ety_eqb (r_type (res ea)) TyBitmask then
      match o with
      | inl (SyBitmask i) =>
          match get n (me_mask E i) with
          | Some (Some r) => MOk (ADot ea (DMask (title n)) None (mkRes TyBitmask (r_int r) f64_zero "" false None full)) None
          | Some None => MFail SPanic
          | None => MFail SErr
          end
      | _ => MFail SErr
      end
    else if ety_eqb (r_type (res ea)) TyCompound then eval_member E cur p ea s full n else MFail SErr.
Proof. intros E cur p ea s full n o H. unfold eval_mdot. now rewrite H. Qed.

Lemma label_named : forall E cur p t k m q s n, searchable E p -> means (me_world E) p t k m -> sees (me_world E) p (tr_name t) q s -> p_name q = tr_package t -> tr_builtin t = false ->
  (k <= subtype_limit m)%nat ->
  (forall a os, evaluate_member E cur p (MDot (MName (tr_name t)) true n) = MOk a os ->
     exists r, named_value E m n = Some r /\ r_int (res a) = r_int r) /\
  (forall r x y, named_value E m n = Some r -> eval_ident E cur (package_at E cur p) n = MOk x y ->
     exists a os, evaluate_member E cur p (MDot (MName (tr_name t)) true n) = MOk a os /\ r_int (res a) = r_int r).
Proof.
  intros E cur p t k m q s n Hp H Hs Hq Hb Hk. destruct (sees_type E cur p t k m q s Hp H Hs Hq Hb Hk) as (F & NC & T & O).
  destruct (evaluate_mexpr E cur p (MDot (MName (tr_name t)) true n)) as (invoke & ->). cbn [eval_mexpr].
  assert (I1 : eval_ident E cur (package_at E cur p) (tr_name t) =
    MOk (AIdent (go_ident (p_name p) (mkSR s (tr_name t) (p_name q) "")) (symbol_go_type E (p_name p) (mkSR s (tr_name t) (p_name q) "")) (open_result m)) (Some (mkSR s (tr_name t) (p_name q) ""))).
  { unfold eval_ident. rewrite F. cbn [sr_sym]. destruct s; try contradiction; rewrite T; reflexivity. }
  rewrite I1.
  set (ea := AIdent (go_ident (p_name p) (mkSR s (tr_name t) (p_name q) "")) (symbol_go_type E (p_name p) (mkSR s (tr_name t) (p_name q) "")) (open_result m)).
  assert (R : r_type (res ea) = meaning_type m) by reflexivity. clearbody ea. set (sr := mkSR s (tr_name t) (p_name q) "").
  assert (O' : GetOriginalSymbol 100 (me_depth E) (world_at E cur) (package_at E cur p) (sr_sym sr) = Found (sym_of m)) by exact O.
  assert (N' : match sr_sym sr with SyField _ _ | SyParameter _ => False | _ => True end) by (destruct s; try contradiction; exact I). clearbody sr.
  clear I1 F T O NC. pose proof (means_declared_type _ _ _ _ _ H) as DT. clear H Hs Hk. split.
  - intros a os E1. destruct (eval_ident E cur (package_at E cur p) n) as [x y|] eqn:En; [|discriminate].
    rewrite (mdot_step _ _ _ _ _ _ _ _ O'), R in E1. destruct m as [b|d].
    + exfalso. clear - E1. cbn [meaning_type sym_of] in E1. destruct (tr_name b =? "bool")%string; [discriminate|]. destruct (tr_name b =? "string")%string; [discriminate|]. destruct (existsb _ _); discriminate.
    + destruct d; try contradiction; cbn [sym_of meaning_type ety_eqb named_value] in E1 |- *; 
        try (exfalso; unfold eval_member in E1; destruct (sr_sym sr); try contradiction; discriminate E1).
      * destruct (get n (me_enum E _)) as [r|]; [|discriminate]. exists r. split; [reflexivity|]. inversion E1. reflexivity.
      * destruct (get n (me_mask E _)) as [[r|]|]; try discriminate. exists r. split; [reflexivity|]. inversion E1. reflexivity.
  - intros r x y N En. rewrite En, (mdot_step _ _ _ _ _ _ _ _ O'), R.
    destruct m as [b|d]; [discriminate|]. destruct d; try discriminate; cbn [sym_of meaning_type ety_eqb named_value] in *.
    + rewrite N. eexists _, _. split; reflexivity.
    + destruct (get n (me_mask E _)) as [[r'|]|]; try discriminate. injection N as ->. eexists _, _. split; reflexivity.
Qed.

Lemma choice_inv : forall E cur p name ch sw zss, EvaluateChoice E cur p name ch = inr (sw, zss) ->
  exists a s, evaluate_member E (enter (p_name p) name cur) p (ch_selector ch) = MOk a (Some s) /\ sw = title (sr_name s) /\
    evaluate_all E (enter (p_name p) name cur) p (ch_exprs ch) = SOk /\ evaluate_cases E (enter (p_name p) name cur) p (Some s) (ch_labels ch) = inr zss.
Proof.
  intros E cur p name ch sw zss H. unfold EvaluateChoice in H. destruct (evaluate_member E _ p (ch_selector ch)) as [a os|] eqn:Es; [|discriminate].
  destruct (evaluate_all E _ p (ch_exprs ch)) eqn:Ea; try discriminate. destruct (evaluate_cases E _ p os (ch_labels ch)) as [|zs] eqn:Ec; [discriminate|].
  destruct os as [s|]; [|discriminate]. injection H as <- <-. exists a, s. auto.
Qed.

Lemma enter_own : forall pkg c cur, enter pkg c cur pkg = Some c.
Proof. intros. unfold enter. now rewrite String.eqb_refl. Qed.

Lemma label_value_of : forall E cur p t k m label e a os sr, searchable E p -> means (me_world E) p t k m -> (k <= subtype_limit m)%nat -> plain_name E p t ->
  sr_sym sr = SyParameter t -> specify (Some sr) label = inr e -> evaluate_member E cur p e = MOk a os -> label_value E cur p t label (r_int (res a)).
Proof.
  intros E cur p t k m label e a os sr Hp H Hk Hn Hs S1 E1.
  assert (G : (exists n, label = MName n) \/ specify (Some sr) label = inr label) by (destruct label; eauto).
  destruct G as [(n & ->)|G].
  - cbn [specify] in S1. rewrite Hs in S1. injection S1 as <-. cbn [label_value]. unfold plain_name in Hn. destruct (tr_builtin t) eqn:Hb.
    + exfalso. destruct (evaluate_mexpr E cur p (MDot (MName (tr_name t)) true n)) as (invoke & X). rewrite X in E1. cbn [eval_mexpr] in E1.
      rewrite (nothing_unknown E cur p _ Hp Hn) in E1. discriminate.
    + destruct Hn as (q & s & Hsees & Hq). destruct (proj1 (label_named E cur p t k m q s n Hp H Hsees Hq Hb Hk) a os E1) as (r & N & R).
      rewrite R. destruct m as [b|d]; [discriminate|]. destruct d; try discriminate; cbn [named_value] in N.
      * exists k. eexists. exists r. split; [left; split; eassumption|reflexivity].
      * destruct (get n (me_mask E _)) as [[r'|]|] eqn:Gm; try discriminate. injection N as ->. exists k. eexists. exists r. split; [right; split; eassumption|reflexivity].
  - rewrite G in S1. injection S1 as <-. destruct label; cbn [label_value]; try (exists a, os; split; [exact E1|reflexivity]).
    cbn [specify] in G. rewrite Hs in G. discriminate.
Qed.

Lemma selector_value : forall E cur p c sel s t k m, searchable E p -> cur (p_name p) = Some c -> member_of E p c sel s -> not_global E p sel -> member_type s t ->
  means (me_world E) p t k m -> forall a os, evaluate_member E cur p (MName sel) = MOk a os -> os = Some (mkSR s sel (p_name p) c) /\ (k <= subtype_limit m)%nat.
Proof.
  intros E cur p c sel s t k m Hp Hc Hm Hg Ht H a os E1. rewrite evaluate_name, (own_member E cur p c sel s t k m Hp Hc Hm Hg Ht H) in E1.
  destruct (Nat.leb_spec k (subtype_limit m)); [|discriminate]. injection E1 as _ <-. auto.
Qed.

Lemma Forall2_impl : forall A B (P Q : A -> B -> Prop) l l', (forall x y, P x y -> Q x y) -> Forall2 P l l' -> Forall2 Q l l'.
Proof. intros A B P Q l l' H F. induction F; constructor; auto. Qed.

Lemma choice_labels : forall E cur p name ch sel t k m sw zss, searchable E p -> ch_selector ch = MName sel -> member_of E p name sel (SyParameter t) -> not_global E p sel ->
  means (me_world E) p t k m -> plain_name E p t -> EvaluateChoice E cur p name ch = inr (sw, zss) ->
  sw = title sel /\ Forall2 (Forall2 (label_value E (enter (p_name p) name cur) p t)) (ch_labels ch) zss.
Proof.
  intros E cur p name ch sel t k m sw zss Hp Hsel Hm Hg H Hn Hc. destruct (choice_inv _ _ _ _ _ _ _ Hc) as (a & s & Es & -> & _ & Ec). rewrite Hsel in Es.
  destruct (selector_value E _ p name sel _ t k m Hp (enter_own _ _ _) Hm Hg ltac:(now left) H a _ Es) as (X & Hk). injection X as ->.
  split; [reflexivity|]. eapply Forall2_impl; [|exact (cases_inv _ _ _ _ _ _ Ec)]. intros labels zs L. cbn beta in L.
  eapply Forall2_impl; [|exact (labels_inv _ _ _ _ _ _ L)]. intros label z (e & a' & s' & Se & Ee & ->).
  exact (label_value_of E _ p t k m label e a' s' (mkSR (SyParameter t) sel (p_name p) name) Hp H Hk Hn eq_refl Se Ee).
Qed.

Lemma no_name_at : forall E cur p n, not_global E p n -> no_member_named E p n -> no_name (world_at E cur) (package_at E cur p) n.
Proof.
  intros E cur p n (Hu & Hi) Hm.
  assert (M : forall q, q = p \/ edge (me_world E) p q -> no_member (package_at E cur q) n).
  { intros q Hq l Hl. cbn [package_at p_current] in Hl. destruct (cur (p_name q)) as [c|] eqn:Hc; [|discriminate]. exact (Hm q c l Hq Hl). }
  split; [exact Hu|]. split; [|split].
  - intros q Hq. apply at_edge_back in Hq as (q' & -> & Hq). exact (Hi q' Hq).
  - apply M. now left.
  - intros q Hq. apply at_edge_back in Hq as (q' & -> & Hq). apply M. now right.
Qed.

Lemma item_value : forall E cur p n, searchable E p -> items_only E -> item_only E p n ->
  exists q i, reach (me_world E) p q /\ has_item q n (SyEnumItem i) /\ eval_ident E cur (package_at E cur p) n = MOk (AConst (copy_result true (me_item E i))) None.
Proof.
  intros E cur p n (Hd & Hp & Ha & Hf) Ho (Hg & Hm & q & s & Hq & Hi). unfold eval_ident, find_symbol.
  pose proof (item_found (world_at E cur) (package_at E cur p) n (me_depth E) (at_in E cur p Hp) (at_acyclic E cur p Hd Hp Ha) (no_name_at E cur p n Hg Hm) ltac:(now rewrite at_length)) as F.
  destruct (GetSymbol (me_depth E) (world_at E cur) (package_at E cur p) n) as [(pkg & x)| |]; [|exfalso; exact (F (package_at E cur q) s (at_reach E cur p q Hq) Hi)|contradiction].
  destruct F as (r & Hr & _ & Hx). apply at_reach_back in Hr as (r' & -> & Hr). destruct (Ho r' n x (reach_in _ _ _ Hp Hr) Hx) as (i & ->).
  exists r', i. auto.
Qed.

Lemma choice_complete : forall E cur p name ch sel t k m zss, searchable E p -> items_only E -> ch_selector ch = MName sel -> member_of E p name sel (SyParameter t) -> not_global E p sel ->
  means (me_world E) p t k m -> (k <= subtype_limit m)%nat -> plain_name E p t -> evaluate_all E (enter (p_name p) name cur) p (ch_exprs ch) = SOk ->
  (forall labels n, In labels (ch_labels ch) -> In (MName n) labels -> item_only E p n) ->
  Forall2 (Forall2 (label_value E (enter (p_name p) name cur) p t)) (ch_labels ch) zss -> EvaluateChoice E cur p name ch = inr (title sel, zss).
Proof.
  intros E cur p name ch sel t k m zss Hp Ho Hsel Hm Hg H Hk Hn He Hi Hl. unfold EvaluateChoice. rewrite Hsel, evaluate_name.
  rewrite (own_member E _ p name sel (SyParameter t) t k m Hp (enter_own _ _ _) Hm Hg ltac:(now left) H), (proj2 (Nat.leb_le _ _) Hk), He.
  set (cur' := enter (p_name p) name cur) in *.
  assert (C : evaluate_cases E cur' p (Some (mkSR (SyParameter t) sel (p_name p) name)) (ch_labels ch) = inr zss).
  { apply cases_intro. revert Hi. induction Hl as [|labels zs l zss L Hl IH]; intros Hi; constructor; [|apply IH; intros; eapply Hi; [right|]; eassumption].
    apply labels_intro. assert (Hi' : forall n, In (MName n) labels -> item_only E p n) by (intros n Hin; eapply Hi; [now left|exact Hin]).
    clear - L Hi' Hp Ho H Hk Hn. induction L as [|label z labels zs V L IH]; constructor; [|apply IH; intros; apply Hi'; now right].
    assert (G : (exists n, label = MName n) \/ (specify (Some (mkSR (SyParameter t) sel (p_name p) name)) label = inr label /\ exists a s, evaluate_member E cur' p label = MOk a s /\ z = r_int (res a)))
      by (destruct label; eauto).
    destruct G as [(n & ->)|(G & a & s & Ee & ->)]; [|exists label, a, s; auto].
    destruct V as (k' & i & r & V & ->). destruct (item_value E cur' p n Hp Ho (Hi' n ltac:(now left))) as (q0 & i0 & _ & _ & En).
    unfold plain_name in Hn. destruct (tr_builtin t) eqn:Hb.
    { exfalso. destruct V as [(V & _)|(V & _)]; inversion V; congruence. }
    destruct Hn as (q & s & Hsees & Hq).
    assert (M : forall k2 m2, means (me_world E) p t k2 m2 -> m2 = m) by (intros k2 m2 H2; eapply means_unique; eauto; apply Hp).
    assert (N : named_value E m n = Some r) by (destruct V as [(V & R)|(V & R)]; pose proof (M _ _ V); subst m; cbn [named_value]; rewrite R; reflexivity).
    destruct (proj2 (label_named E cur' p t k m q s n Hp H Hsees Hq Hb Hk) r _ _ N En) as (a & os & Ee & R).
    exists (MDot (MName (tr_name t)) true n), a, os. split; [reflexivity|]. split; [exact Ee|]. congruence. }
  rewrite C. reflexivity.
Qed.

(** ** Selectors *)

Lemma found_name : forall E cur p n s, find_symbol E cur p n = Found s -> sr_name s = n.
Proof. intros E cur p n s H. unfold find_symbol in H. destruct (GetSymbol _ _ _ _) as [(pkg & x)| |]; try discriminate. now injection H as <-. Qed.

Lemma found_member : forall E cur p c n s, GetCompoundType E cur p c n = Found s -> sr_name s = n.
Proof.
  intros E cur p c n s H. unfold GetCompoundType in H.
  assert (M : forall q x, member_in E c n q = Found x -> sr_name x = n).
  { intros q x Hx. unfold member_in in Hx. destruct (me_members _ _ _) as [l|]; [|discriminate]. destruct (get n l); [|discriminate]. now injection Hx as <-. }
  destruct (member_in E c n p) eqn:Em; [injection H as ->; eauto| |discriminate].
  apply first_of_found in H as (q & _ & H). eauto.
Qed.

Lemma result_name : forall invoke E cur p e a s, eval_mexpr invoke E cur p e = MOk a (Some s) -> last_name e = Some (sr_name s).
Proof.
  intros invoke E cur p e. induction e; intros r s H; cbn [eval_mexpr last_name] in *; try discriminate.
  - destruct (_ <=? _); discriminate.
  - unfold eval_ident in H. destruct (find_symbol E cur p n) as [s0| |] eqn:F; try discriminate. rewrite <- (found_name _ _ _ _ _ F). destruct (sr_sym s0); try discriminate;
      (destruct (symbol_type _ _ _ _) as [[]| |]; try discriminate; injection H as _ <-; reflexivity).
  - assert (D : forall ea os full, eval_mdot E cur p ea os full n = MOk r (Some s) -> sr_name s = n).
    { intros ea os full D. unfold eval_mdot in D. destruct os as [s0|]; [|discriminate]. destruct (GetOriginalSymbol _ _ _ _ _) as [o| |]; try discriminate.
      destruct (ety_eqb _ TyEnum); [destruct o as [[]|]; try discriminate; destruct (get _ _); discriminate|].
      destruct (ety_eqb _ TyBitmask); [destruct o as [[]|]; try discriminate; destruct (get _ _) as [[]|]; discriminate|].
      destruct (ety_eqb _ TyCompound); [|discriminate]. unfold eval_member in D.
      destruct (sr_sym s0); try discriminate; (destruct (compound_of _ _ _ _ _ _) as [((c & k) & scope)| |]; try discriminate; destruct k; try discriminate;
        (destruct (GetCompoundType _ _ _ _ _) as [m| |] eqn:G; try discriminate; destruct (symbol_type _ _ _ _) as [[]| |]; try discriminate; injection D as _ <-; eapply found_member; exact G)). }
    destruct (eval_mexpr _ _ _ _ e) as [ea os|]; [|discriminate]. destruct id; [destruct (eval_ident _ _ _ _); [|discriminate]|]; rewrite (D _ _ _ H); reflexivity.
  - unfold eval_elem in H. destruct (eval_mexpr _ _ _ _ e1) as [ea os|]; [|discriminate]. destruct (eval_mexpr _ _ _ _ e2) as [ei oi|]; [|discriminate].
    destruct (array_field os); [discriminate|]. destruct (ety_eqb _ _); [|discriminate]. destruct (reference_type _ _ _ _) as [[]| |]; discriminate.
  - unfold eval_call in H. destruct (eval_mexpr _ _ _ _ e) as [ea os|]; [|discriminate]. destruct os as [s0|]; [|discriminate]. destruct (sr_sym s0); try discriminate.
    destruct (GetOriginalType _ _ _ _); try discriminate. destruct (GetImportedScope _ _ _ _) as [q| |]; try discriminate. cbn zeta in H.
    destruct (invoke _ _ _); [|discriminate]. injection H as _ <-. exact (IHe ea s0 eq_refl).
  - unfold eval_lengthof in H. destruct (eval_mexpr _ _ _ _ e) as [ea os|]; [|discriminate]. destruct (array_field os); discriminate.
  - unfold operator1 in H. destruct (eval_mexpr _ _ _ _ e); [|discriminate]. destruct (eval_paren _ _) as [x []]; discriminate.
  - unfold operator1 in H. destruct (eval_mexpr _ _ _ _ e); [|discriminate]. destruct (eval_unary _ _ _) as [x []]; discriminate.
  - unfold operator2 in H. destruct (eval_mexpr _ _ _ _ e1); [|discriminate]. destruct (eval_mexpr _ _ _ _ e2); [|discriminate]. destruct (eval_arith _ _ _ _) as [x []]; discriminate.
  - unfold operator1 in H. destruct (eval_mexpr _ _ _ _ e); [|discriminate]. destruct (eval_not _ _) as [x []]; discriminate.
  - unfold operator2 in H. destruct (eval_mexpr _ _ _ _ e1); [|discriminate]. destruct (eval_mexpr _ _ _ _ e2); [|discriminate]. destruct (eval_logic _ _ _ _) as [x []]; discriminate.
  - unfold operator2 in H. destruct (eval_mexpr _ _ _ _ e1); [|discriminate]. destruct (eval_mexpr _ _ _ _ e2); [|discriminate]. destruct (eval_compare _ _ _ _) as [x []]; discriminate.
  - destruct (eval_mexpr _ _ _ _ e1); [|discriminate]. destruct (eval_mexpr _ _ _ _ e2); [|discriminate]. destruct (eval_mexpr _ _ _ _ e3); [|discriminate].
    destruct (eval_ternary _ _ _ _) as [x []]; discriminate.
  - unfold operator1 in H. destruct (eval_mexpr _ _ _ _ e); [|discriminate]. destruct (eval_tilde _ _) as [x []]; discriminate.
  - unfold operator2 in H. destruct (eval_mexpr _ _ _ _ e1); [|discriminate]. destruct (eval_mexpr _ _ _ _ e2); [|discriminate]. destruct (eval_bitwise _ _ _ _) as [x []]; discriminate.
  - unfold operator1 in H. destruct (eval_mexpr _ _ _ _ e); [|discriminate]. destruct (eval_valueof _ _) as [x []]; discriminate.
  - unfold operator1 in H. destruct (eval_mexpr _ _ _ _ e); [|discriminate]. destruct (eval_numbits _ _) as [x []]; discriminate.
  - unfold operator2 in H. destruct (eval_mexpr _ _ _ _ e1); [|discriminate]. destruct (eval_mexpr _ _ _ _ e2); [|discriminate]. destruct (eval_isset _ _ _) as [x []]; discriminate.
Qed.

Lemma choice_switch : forall E cur p name ch sw zss, EvaluateChoice E cur p name ch = inr (sw, zss) ->
  exists n, last_name (ch_selector ch) = Some n /\ sw = title n.
Proof.
  intros E cur p name ch sw zss H. destruct (choice_inv _ _ _ _ _ _ _ H) as (a & s & Es & -> & _). destruct (evaluate_mexpr E (enter (p_name p) name cur) p (ch_selector ch)) as (invoke & X).
  rewrite X in Es. exists (sr_name s). split; [eapply result_name; exact Es|reflexivity].
Qed.

Lemma Forall2_in : forall A B (P : A -> B -> Prop) l l' x, Forall2 P l l' -> In x l -> exists y, P x y.
Proof. intros A B P l l' x F. induction F as [|a b l l' H F IH]; intros Hx; [destruct Hx|]. destruct Hx as [<-|Hx]; eauto. Qed.

Lemma choice_label : forall E cur p name ch sw zss labels label, EvaluateChoice E cur p name ch = inr (sw, zss) -> In labels (ch_labels ch) -> In label labels ->
  exists a s e b os, evaluate_member E (enter (p_name p) name cur) p (ch_selector ch) = MOk a (Some s) /\ specify (Some s) label = inr e /\
    evaluate_member E (enter (p_name p) name cur) p e = MOk b os.
Proof.
  intros E cur p name ch sw zss labels label H Hl Hn. destruct (choice_inv _ _ _ _ _ _ _ H) as (a & s & Es & -> & _ & Ec).
  destruct (Forall2_in _ _ _ _ _ _ (cases_inv _ _ _ _ _ _ Ec) Hl) as (zs & L). destruct (Forall2_in _ _ _ _ _ _ (labels_inv _ _ _ _ _ _ L) Hn) as (z & e & b & os & Se & Ee & _).
  exists a, s, e, b, os. auto.
Qed.

Lemma choice_field : forall E cur p name ch sel t array k m sw zss labels n, searchable E p -> ch_selector ch = MName sel -> member_of E p name sel (SyField t array) -> not_global E p sel ->
  means (me_world E) p t k m -> In labels (ch_labels ch) -> In (MName n) labels -> EvaluateChoice E cur p name ch <> inr (sw, zss).
Proof.
  intros E cur p name ch sel t array k m sw zss labels n Hp Hsel Hm Hg H Hl Hn Hc. destruct (choice_label _ _ _ _ _ _ _ _ _ Hc Hl Hn) as (a & s & e & b & os & Es & Se & _). rewrite Hsel in Es.
  destruct (selector_value E _ p name sel _ t k m Hp (enter_own _ _ _) Hm Hg ltac:(right; eauto) H a _ Es) as (X & _). injection X as ->. discriminate.
Qed.

Lemma choice_builtin : forall E cur p name ch sel t sw zss labels n, searchable E p -> ch_selector ch = MName sel -> member_of E p name sel (SyParameter t) -> not_global E p sel ->
  tr_builtin t = true -> nothing E p (tr_name t) -> In labels (ch_labels ch) -> In (MName n) labels -> EvaluateChoice E cur p name ch <> inr (sw, zss).
Proof.
  intros E cur p name ch sel t sw zss labels n Hp Hsel Hm Hg Hb Hno Hl Hn Hc.
  assert (PN : plain_name E p t) by (unfold plain_name; now rewrite Hb).
  destruct (choice_labels E cur p name ch sel t 0 (Builtin t) sw zss Hp Hsel Hm Hg (means_builtin _ _ _ Hb) PN Hc) as (_ & F).
  destruct (Forall2_in _ _ _ _ _ _ F Hl) as (zs & L). destruct (Forall2_in _ _ _ _ _ _ L Hn) as (z & k & i & r & [(V & _)|(V & _)] & _); inversion V; congruence.
Qed.

Lemma choice_unknown : forall E cur p name ch sel t k m sw zss labels n, searchable E p -> ch_selector ch = MName sel -> member_of E p name sel (SyParameter t) -> not_global E p sel ->
  means (me_world E) p t k m -> nothing E p n -> In labels (ch_labels ch) -> In (MName n) labels -> EvaluateChoice E cur p name ch <> inr (sw, zss).
Proof.
  intros E cur p name ch sel t k m sw zss labels n Hp Hsel Hm Hg H Hno Hl Hn Hc. destruct (choice_label _ _ _ _ _ _ _ _ _ Hc Hl Hn) as (a & s & e & b & os & Es & Se & Ee). rewrite Hsel in Es.
  destruct (selector_value E _ p name sel _ t k m Hp (enter_own _ _ _) Hm Hg ltac:(now left) H a _ Es) as (X & _). injection X as ->. cbn [specify sr_sym] in Se. injection Se as <-.
  destruct (evaluate_mexpr E (enter (p_name p) name cur) p (MDot (MName (tr_name t)) true n)) as (invoke & X). rewrite X in Ee.
  destruct (all_names _ _ _ _ _ _ _ Ee n) as (a' & s' & En); [cbn [names]; apply in_or_app; right; now left|]. rewrite (nothing_unknown _ _ _ _ Hp Hno) in En. discriminate.
Qed.

(** ** No result symbol *)

Lemma dot_panics : forall E cur p e id n, last_name e = None -> forall a s, evaluate_member E cur p e = MOk a s ->
  (id = true -> exists b t, evaluate_member E cur p (MName n) = MOk b t) -> evaluate_member E cur p (MDot e id n) = MFail SPanic.
Proof.
  intros E cur p e id n Hl a s Ee Hid. unfold evaluate_member in *.
  assert (X : exists invoke, evaluate_in (me_depth E) E cur (package_at E cur p) = eval_mexpr invoke E cur (package_at E cur p)).
  { destruct (me_depth E); cbn [evaluate_in]; eexists; reflexivity. }
  destruct X as (invoke & X). rewrite X in *. cbn [eval_mexpr]. rewrite Ee. destruct s as [s|]; [rewrite (result_name _ _ _ _ _ _ _ Ee) in Hl; discriminate|].
  destruct id; [|reflexivity]. destruct (Hid eq_refl) as (b & t & Eb). cbn [eval_mexpr] in Eb. rewrite Eb. reflexivity.
Qed.

(** ** Integers *)

Lemma builtin_go_type : forall here t, tr_builtin t = true -> PackageGoType here t = AstTypes.GoType (builtin t).
Proof. intros here t H. unfold PackageGoType. now rewrite H. Qed.

Lemma i64_range : forall z, - 2 ^ 63 <= i64 z < 2 ^ 63.
Proof. intros z. exact (to_s_range 64 z ltac:(lia)). Qed.

Definition numeric (r : result) : Prop :=
  r_type r = TyInt /\ match r_native r with Some t => integer t | None => True end /\ (r_full r = true -> - 2 ^ 63 <= r_int r < 2 ^ 63).

Lemma arithmetic_numeric : forall D e, arithmetic D e -> numeric (res e).
Proof.
  intros D e H. destruct (arithmetic_compiled D e H) as (_ & _ & T & N & _ & R). split; [exact T|]. split; [exact N|]. intros F. rewrite F in R. apply R.
Qed.

Lemma arith_numeric : forall op a b, numeric a -> numeric b -> exists r x, eval_arith op (r_full a && r_full b) a b = (r, x) /\
  ((x = SOk /\ numeric r /\ r_full r = r_full a && r_full b) \/ (x = SPanic /\ divisor op = true)).
Proof.
  intros op a b (Ta & Na & Ra) (Tb & Nb & Rb). unfold eval_arith. rewrite Ta, Tb. cbn [ety_eqb andb orb negb].
  assert (exists n, arithmetic_type a b = Some (TyInt, n) /\ match n with Some t => integer t | None => True end) as (n & E & In).
  { unfold arithmetic_type. rewrite Ta, Tb. cbn [ety_eqb andb orb negb]. destruct (same_native (r_native a) (r_native b)) eqn:S.
    - exists (r_native a). split; [reflexivity|exact Na].
    - destruct (r_native a) as [x|]; destruct (r_native b) as [y|]; try discriminate.
      + destruct (mix_closed x y Na Nb) as (t & M & It). rewrite M. exists (Some t). split; [reflexivity|exact It].
      + exists (Some x). split; [reflexivity|exact Na].
      + exists (Some y). split; [reflexivity|exact Nb]. }
  rewrite E.
  assert (I : forall x y, - 2 ^ 63 <= x < 2 ^ 63 -> - 2 ^ 63 <= y < 2 ^ 63 ->
    (exists z, int_arith op x y = Some z /\ - 2 ^ 63 <= z < 2 ^ 63) \/ (int_arith op x y = None /\ divisor op = true)).
  { intros x y Hx Hy. destruct op; cbn [int_arith divisor]; try (left; eexists; split; [reflexivity|apply i64_range]);
      (destruct (Z.eqb_spec y 0) as [|Hy0]; [right; auto|left; eexists; split; [reflexivity|]]); try apply i64_range.
    pose proof (Z.rem_bound_abs x y Hy0). lia. }
  destruct (r_full a && r_full b) eqn:F.
  - apply andb_true_iff in F as (Fa & Fb). destruct (I _ _ (Ra Fa) (Rb Fb)) as [(z & -> & Hz)|(-> & Hd)]; eexists _, _; (split; [reflexivity|]); [left|right; auto].
    split; [reflexivity|]. split; [|reflexivity]. split; [reflexivity|]. split; [exact In|]. intros _. exact Hz.
  - assert (One : - 2 ^ 63 <= 1 < 2 ^ 63) by lia. destruct (I 1 1 One One) as [(z & -> & Hz)|(-> & Hd)]; eexists _, _; (split; [reflexivity|]); [left|right; auto].
    split; [reflexivity|]. split; [|reflexivity]. split; [reflexivity|]. split; [exact In|]. discriminate.
Qed.

Lemma const_arithmetic : forall D e, numeric (res e) -> r_full (res e) = true -> symbol e = None -> arithmetic D e.
Proof.
  intros D e (T & N & R) F S. apply AE_const; [split; [exact F|split; [exact T|split; [exact (R F)|exact N]]]|]. apply native_known; [exact N|]. congruence.
Qed.

Lemma len64_range : forall z, - 2 ^ 63 <= len64 z < 2 ^ 63.
Proof.
  intros z. unfold len64. destruct (Z.eqb_spec (u64 z) 0) as [|Hz]; [lia|].
  assert (0 <= u64 z < 2 ^ 64) by (apply Z.mod_pos_bound; lia). assert (0 <= Z.log2 (u64 z) < 64) by (split; [apply Z.log2_nonneg|apply Z.log2_lt_pow2; lia]).
  change (2 ^ 63) with 9223372036854775808. lia.
Qed.

Lemma integer_builtin : forall b, integer (mkT (tr_name b) (tr_bits b) false) -> meaning_type (Builtin b) = TyInt.
Proof.
  intros b (r & H). cbn [meaning_type]. remember (mkT (tr_name b) (tr_bits b) false) as t eqn:E. destruct H as [n r H| | | |]; try discriminate E; injection E as E _; rewrite <- E; try reflexivity.
  cbn [In named_range] in H. repeat (destruct H as [H|H]; [injection H as <- _; reflexivity|]). contradiction.
Qed.

Lemma integer_value : forall E cur p c D e, searchable E p -> cur (p_name p) = Some c -> integer_expression E p c D e ->
  (exists a s, evaluate_member E cur p e = MOk a s /\ arithmetic D a /\
     (same_type a \/ exists n s t, e = MName n /\ member_of E p c n s /\ member_type s t /\ tr_builtin t = false)) \/
  (evaluate_member E cur p e = MFail SPanic /\ divides e).
Proof.
  intros E cur p c D e Hp Hc H. unfold evaluate_member.
  assert (X : exists invoke, evaluate_in (me_depth E) E cur (package_at E cur p) = eval_mexpr invoke E cur (package_at E cur p)).
  { destruct (me_depth E); cbn [evaluate_in]; eexists; reflexivity. }
  destruct X as (invoke & X). rewrite X. clear X.
  induction H as [z Hz|n q t Hs T R N|n s t k b go g Hm Hg Ht H Hk I Go P K| |n t k m ty Hm Hg H Hk P|a H IH|a H IH Hb|op a b Ha IHa Hb IHb]; cbn [eval_mexpr].
  - left. destruct (Z.leb_spec z MaxInt64) as [_|Hl]; [|unfold MaxInt64 in Hl; lia]. eexists _, _. split; [reflexivity|]. split; [|left; exact I].
    apply const_arithmetic; try reflexivity. split; [reflexivity|]. split; [exact I|]. intros _. cbn. lia.
  - left. pose proof (constant_wins E cur p n q t Hs) as X. rewrite evaluate_name in X. rewrite X. eexists _, _. split; [reflexivity|]. split; [|left; exact I].
    apply const_arithmetic; try reflexivity. split; [exact T|]. split; [exact N|]. intros _. exact R.
  - left. rewrite (own_member E cur p c n s t k (Builtin b) Hp Hc Hm Hg Ht H), (proj2 (Nat.leb_le k (subtype_limit (Builtin b))) Hk), Go.
    eexists _, _. split; [reflexivity|]. split.
    + eapply AE_field; [|reflexivity|exact P|exact K]. split; [reflexivity|]. split; [cbn; exact (integer_builtin b I)|exact I].
    + destruct (tr_builtin t) eqn:Hb; [left|right; eauto 9]. unfold same_type. cbn [symbol res open_result]. unfold go_type. cbn [r_native meaning_native].
      inversion H; subst; [|congruence]. rewrite (builtin_go_type _ _ Hb) in Go. rewrite <- Go. reflexivity.
  - left. eexists _, _. split; [reflexivity|]. split; [|left; exact I]. apply AE_index; [|reflexivity]. split; [reflexivity|]. split; [reflexivity|exact I].
  - left. rewrite (own_member E cur p c n (SyField t true) t k m Hp Hc Hm Hg ltac:(right; eauto) H), (proj2 (Nat.leb_le k (subtype_limit m)) Hk).
    cbn [eval_lengthof array_field sr_sym]. eexists _, _. split; [reflexivity|]. split; [|left; exact I].
    eapply AE_lengthof; [reflexivity|exact P| |reflexivity]. split; [reflexivity|]. split; [reflexivity|]. cbn [r_native]. eexists. apply range_named. cbn. tauto.
  - destruct IH as [(ea & s & -> & Aa & _)|(-> & Hd)]; [left|right; auto]. pose proof (arithmetic_numeric D ea Aa) as (T & N & R).
    cbn [operator1]. unfold eval_numbits. rewrite T. cbn [ety_eqb]. eexists _, _. split; [reflexivity|]. split; [|left; exact I].
    destruct (r_full (res ea)) eqn:F.
    + apply const_arithmetic; try reflexivity. split; [reflexivity|]. split; [exact I|]. intros _. apply len64_range.
    + apply AE_numbits; [exact Aa|exact F|]. unfold eval_numbits. rewrite T. reflexivity.
  - destruct IH as [(ea & s & -> & Aa & Sa)|(-> & Hd)]; [left|right; auto]. pose proof (arithmetic_numeric D ea Aa) as (T & N & R).
    cbn [operator1]. unfold eval_paren. eexists _, _. split; [reflexivity|]. split; [|left; exact I].
    destruct (r_full (res ea)) eqn:F.
    + apply const_arithmetic; try reflexivity. split; [exact T|]. split; [exact N|]. intros _. exact (R eq_refl).
    + apply AE_paren; [exact Aa|exact F| |reflexivity]. destruct Sa as [Sa|(n & s' & t & -> & Hm & Ht & Hf)]; [exact Sa|]. rewrite (Hb n s' t eq_refl Hm Ht) in Hf. discriminate.
  - cbn [divides]. destruct IHa as [(ea & sa & -> & Aa & _)|(-> & Hd)]; [|right; cbn [operator2]; auto]. destruct IHb as [(eb & sb & -> & Ab & _)|(-> & Hd)]; [|right; cbn [operator2]; auto].
    cbn [operator2]. destruct (arith_numeric op (res ea) (res eb) (arithmetic_numeric D ea Aa) (arithmetic_numeric D eb Ab)) as (r & x & Er & Hx).
    rewrite Er. destruct Hx as [(-> & Nr & Fr)|(-> & Hd)]; [left|right; auto]. eexists _, _. split; [reflexivity|]. split; [|left; exact I].
    destruct (r_full (res ea) && r_full (res eb)) eqn:F.
    + apply const_arithmetic; [exact Nr|exact Fr|reflexivity].
    + apply AE_arith; [exact Aa|exact Ab|exact F|]. exact Er.
Qed.

Lemma sees_not_global : forall E p n q s, sees (me_world E) p n q s -> not_global E p n -> False.
Proof.
  intros E p n q s [(-> & H)|(Hu & l1 & l2 & Hi & Hl & H)] (Hg & Hi'); unfold declares, undeclared in *; [congruence|].
  assert (get n (p_types q) = None); [|congruence]. apply Hi'. unfold edge. rewrite Hi. apply in_or_app. right. now left.
Qed.

Lemma operation_int : forall op x y z, operation op x y = Some z -> - 2 ^ 63 <= z < 2 ^ 63 -> int_arith op x y = Some z.
Proof.
  intros op x y z H R. destruct op; cbn [operation int_arith] in *; try (destruct (y =? 0); [discriminate|]); injection H as <-; f_equal; try reflexivity; apply i64_id; exact R.
Qed.
Lemma operation_op : forall op x y, operation op x y = int_op (arith_op op) x y.
Proof. intros [] x y; reflexivity. Qed.

Lemma integer_ideal : forall E cur p c D S e, searchable E p -> cur (p_name p) = Some c -> integer_expression E p c D e -> exact_constants E p c S e ->
  forall a s z, evaluate_member E cur p e = MOk a s -> value E p c S e z ->
  ideal D S (source a) = Some (GI z) /\ (r_full (res a) = true -> r_int (res a) = z /\ constant_expression E p e).
Proof.
  intros E cur p c D S e Hp Hc H. pose proof (fun e H => integer_value E cur p c D e Hp Hc H) as IV. unfold evaluate_member in *.
  assert (X : exists invoke, evaluate_in (me_depth E) E cur (package_at E cur p) = eval_mexpr invoke E cur (package_at E cur p)).
  { destruct (me_depth E); cbn [evaluate_in]; eexists; reflexivity. }
  destruct X as (invoke & X). rewrite X in IV |- *. clear X.
  assert (FULL : forall a, r_full (res a) = true -> r_type (res a) = TyInt -> ideal D S (source a) = Some (GI (r_int (res a)))).
  { intros a F T. assert (source a = value_tree (res a)) as -> by (destruct a; cbn [source res] in *; rewrite F; reflexivity). unfold value_tree. rewrite T. reflexivity. }
  induction H as [z0 Hz|n q t Hs T R N|n s t k b go g Hm Hg Ht H Hk I0 Go P K| |n t k m ty Hm Hg H Hk P|a H IH|a H IH Hb|op a b Ha IHa Hb IHb]; intros HX r os z Er V; cbn [eval_mexpr exact_constants] in *.
  - destruct (z0 <=? MaxInt64); [|discriminate]. injection Er as <- _. inversion V; subst. split; [reflexivity|]. intros _. split; [reflexivity|constructor].
  - pose proof (constant_wins E cur p n q t Hs) as X. rewrite evaluate_name in X. rewrite X in Er. injection Er as <- _.
    assert (z = r_int (me_const E (p_name q) n)) as ->.
    { inversion V as [|n' q' t' Hs'|n' s' z' Hm' Hg'| | | | |]; subst; [|exfalso; eapply sees_not_global; eauto].
      pose proof (sees_symbol E cur p n q _ Hs) as A. rewrite (sees_symbol E cur p n q' _ Hs') in A. injection A as -> _. reflexivity. }
    split; [rewrite FULL; [reflexivity|reflexivity|exact T]|]. intros _. split; [reflexivity|econstructor; eauto].
  - rewrite (own_member E cur p c n s t k (Builtin b) Hp Hc Hm Hg Ht H), (proj2 (Nat.leb_le k (subtype_limit (Builtin b))) Hk) in Er. injection Er as <- _.
    split; [|discriminate]. inversion V as [|n' q' t' Hs'|n' s' z' Hm' Hg' Hv| | | | |]; subst; [exfalso; eapply sees_not_global; eauto|]. exact Hv.
  - injection Er as <- _. inversion V; subst. split; [reflexivity|discriminate].
  - rewrite (own_member E cur p c n (SyField t true) t k m Hp Hc Hm Hg ltac:(right; eauto) H), (proj2 (Nat.leb_le k (subtype_limit m)) Hk) in Er.
    cbn [eval_lengthof array_field sr_sym] in Er. injection Er as <- _. inversion V; subst. split; [reflexivity|discriminate].
  - destruct HX as (HX & HN). inversion V as [| | | | |a' x Va| |]; subst. destruct (IV a H) as [(ea & sa & Ea & Aa & _)|(Ea & _)]; rewrite Ea in Er; [|discriminate].
    destruct (IH HX ea sa x Ea Va) as (I1 & I2). pose proof (arithmetic_numeric D ea Aa) as (T & _ & _). cbn [operator1] in Er. unfold eval_numbits in Er. rewrite T in Er. cbn [ety_eqb] in Er. injection Er as <- _.
    destruct (r_full (res ea)) eqn:F; [exfalso; apply HN; now apply I2|]. split; [|cbn; discriminate].
    cbn [source res r_full ideal String.eqb Ascii.eqb Bool.eqb]. rewrite I1. reflexivity.
  - inversion V as [| | | | | |a' x Va|]; subst. destruct (IV a H) as [(ea & sa & Ea & Aa & _)|(Ea & _)]; rewrite Ea in Er; [|discriminate].
    destruct (IH HX ea sa z Ea Va) as (I1 & I2). pose proof (arithmetic_numeric D ea Aa) as (T & _ & _). cbn [operator1] in Er. unfold eval_paren in Er. injection Er as <- _.
    destruct (r_full (res ea)) eqn:F.
    + destruct (I2 eq_refl) as (<- & CE). split; [rewrite FULL; [reflexivity|reflexivity|exact T]|]. intros _. split; [reflexivity|now constructor].
    + split; [|cbn; discriminate]. cbn [source res r_full]. exact I1.
  - destruct HX as (HXa & HXb & HC). inversion V as [| | | | | | |op' a' b' x y z' Va Vb Ho]; subst.
    destruct (IV a Ha) as [(ea & sa & Ea & Aa & _)|(Ea & _)]; rewrite Ea in Er; [|discriminate].
    destruct (IV b Hb) as [(eb & sb & Eb & Ab & _)|(Eb & _)]; rewrite Eb in Er; [|discriminate].
    destruct (IHa HXa ea sa x Ea Va) as (A1 & A2). destruct (IHb HXb eb sb y Eb Vb) as (B1 & B2). cbn [operator2] in Er.
    destruct (arith_numeric op (res ea) (res eb) (arithmetic_numeric D ea Aa) (arithmetic_numeric D eb Ab)) as (r' & x' & Er' & Hx).
    rewrite Er' in Er. destruct Hx as [(-> & Nr & Fr)|(-> & Hd)]; [|discriminate]. injection Er as <- _.
    destruct (r_full (res ea) && r_full (res eb)) eqn:F.
    + apply andb_true_iff in F as (Fa & Fb). destruct (A2 Fa) as (Xa & Ca). destruct (B2 Fb) as (Xb & Cb).
      assert (CE : constant_expression E p (MArith op a b)) by now constructor. pose proof (HC CE z V) as R.
      assert (Q : r_int r' = z).
      { pose proof (arithmetic_numeric D ea Aa) as (Ta & _ & _). pose proof (arithmetic_numeric D eb Ab) as (Tb & _ & _).
        unfold eval_arith in Er'. rewrite Ta, Tb, Fa, Fb in Er'. cbn [ety_eqb andb orb negb] in Er'. destruct (arithmetic_type (res ea) (res eb)) as [(ty & nat)|]; [|discriminate].
        rewrite Xa, Xb, (operation_int op x y z Ho R) in Er'. injection Er' as <-. reflexivity. }
      split; [|intros _; split; [exact Q|exact CE]]. rewrite FULL; [cbn [res]; now rewrite Q|exact Fr|exact (proj1 Nr)].
    + split; [|cbn [res]; congruence]. cbn [source res]. rewrite Fr. cbn [ideal]. rewrite arith_group, A1, B1. cbn [obind as_int].
      rewrite operation_op in Ho. rewrite Ho. reflexivity.
Qed.

Lemma integer_text : forall E cur p c D e, searchable E p -> cur (p_name p) = Some c -> integer_expression E p c D e ->
  (evaluate_member E cur p e = MFail SPanic /\ divides e) \/
  exists a s, evaluate_member E cur p e = MOk a s /\
    (agree a -> exists ts, print a = Some ts /\ (exists t, go_expression ts t) /\
      forall t, go_expression ts t ->
        (check D t <> None <-> constants_fit a) /\
        forall S z, exact_constants E p c S e -> value E p c S e z -> state_ok D S -> check D t <> None -> no_overflow D S t -> geval D S t = Some (GI z)).
Proof.
  intros E cur p c D e Hp Hc H. destruct (integer_value E cur p c D e Hp Hc H) as [(a & s & Ea & Aa & _)|X]; [right|left; exact X].
  exists a, s. split; [exact Ea|]. intros G. destruct (arithmetic_text D a Aa G) as (ts & P & R & T). exists ts. split; [exact P|]. split; [exact R|].
  intros t Ht. destruct (T t Ht) as (C & _). split; [exact C|]. intros S z HX V So Ck No.
  rewrite (text_value D S a ts t (proj1 (arithmetic_compiled D a Aa)) G P Ht So Ck No). exact (proj1 (integer_ideal E cur p c D S e Hp Hc H HX a s z Ea V)).
Qed.
