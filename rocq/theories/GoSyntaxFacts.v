(** Facts about Go syntax: a text is read in at most one way. *)

Require Import ZArith String List Bool Lia ZifyBool ZifyNat.
From Verif Require Import GoSyntax.
Import ListNotations.
Open Scope Z_scope.

Fixpoint flatten (t : gtree) : list tok :=
  match t with
  | GName n => [TName n]
  | GLit l => [TLit l]
  | GParen a => [TLeft] ++ flatten a ++ [TRight]
  | GCall f a => flatten f ++ [TLeft] ++ flatten a ++ [TRight]
  | GInvoke f => flatten f ++ [TLeft; TRight]
  | GIndex a i => flatten a ++ [TOpen] ++ flatten i ++ [TClose]
  | GSelect a n => flatten a ++ [TDot; TName n]
  | GNot a => TBang :: flatten a
  | GNeg a => TOp Sub :: flatten a
  | GBin o a b => flatten a ++ [TOp o] ++ flatten b
  end.
Definition top (t : gtree) : nat :=
  match t with GBin o _ _ => prec o | GNot _ | GNeg _ => 6 | _ => 7 end.

(** Well formed but for the strength of operands. *)
Fixpoint wfp (t : gtree) : Prop :=
  match t with
  | GName _ | GLit _ => True
  | GParen a | GNot a | GNeg a => wfp a
  | GCall f a | GIndex f a => wfp f /\ top f = 7%nat /\ wfp a
  | GInvoke f | GSelect f _ => wfp f /\ top f = 7%nat
  | GBin _ a b => wfp a /\ wfp b
  end.
Fixpoint wf (t : gtree) : Prop :=
  match t with
  | GName _ | GLit _ => True
  | GParen a => wf a
  | GNot a | GNeg a => wf a /\ (6 <= top a)%nat
  | GCall f a | GIndex f a => wf f /\ top f = 7%nat /\ wf a
  | GInvoke f | GSelect f _ => wf f /\ top f = 7%nat
  | GBin o a b => wf a /\ wf b /\ (prec o <= top a)%nat /\ (prec o < top b)%nat
  end.
Lemma wf_wfp : forall t, wf t -> wfp t.
Proof. induction t; cbn; intros H; intuition. Qed.

Lemma top_range : forall t, (1 <= top t <= 7)%nat.
Proof. destruct t as [| | | | | | | | |o a b]; cbn; try lia. destruct o; cbn; lia. Qed.
Lemma prec_range : forall o, (1 <= prec o <= 5)%nat.
Proof. destruct o; cbn; lia. Qed.

Lemma parses_wf : forall n ts t, parses n ts t -> ts = flatten t /\ wf t /\ (n <= top t)%nat.
Proof.
  induction 1; cbn [flatten wf top]; repeat match goal with H : _ /\ _ |- _ => destruct H end; subst;
  repeat split; try lia; try assumption; try (pose proof (top_range f); lia); try (pose proof (top_range a); lia).
Qed.
Lemma wf_parses : forall t, wf t -> forall n, (n <= top t)%nat -> parses n (flatten t) t.
Proof.
  induction t as [x|l|a IHa|f IHf a IHa|f IHf|a IHa i IHi|a IHa x|a IHa|a IHa|o a IHa b IHb]; cbn [flatten wf top]; intros H n Hn.
  - now constructor.
  - now constructor.
  - constructor; [assumption|]. apply IHa; [assumption|]. apply top_range.
  - destruct H as (Hf & Hp & Ha). constructor; [assumption| |]; [apply IHf; [assumption|lia]|apply IHa; [assumption|apply top_range]].
  - destruct H as (Hf & Hp). constructor; [assumption|]. apply IHf; [assumption|lia].
  - destruct H as (Hf & Hp & Ha). constructor; [assumption| |]; [apply IHa; [assumption|lia]|apply IHi; [assumption|apply top_range]].
  - destruct H as (Hf & Hp). constructor; [assumption|]. apply IHa; [assumption|lia].
  - constructor; [assumption|]. apply IHa; tauto.
  - constructor; [assumption|]. apply IHa; tauto.
  - destruct H as (Ha & Hb & Ka & Kb). constructor; [assumption|now apply IHa|now apply IHb].
Qed.

(** ** Nesting *)

Definition weight (k : tok) : Z := match k with TLeft | TOpen => 1 | TRight | TClose => -1 | _ => 0 end.
Fixpoint depth (ts : list tok) : Z := match ts with [] => 0 | k :: ts' => weight k + depth ts' end.
Lemma depth_app : forall a b, depth (a ++ b) = depth a + depth b.
Proof. induction a as [|k a IH]; intros b; cbn [app depth]; [lia|rewrite IH; lia]. Qed.
Lemma depth_flatten : forall t, depth (flatten t) = 0.
Proof. induction t; cbn [flatten depth]; repeat (rewrite ?depth_app; cbn [depth weight]); lia. Qed.

Lemma split2 {A} : forall (x y p q : list A), x ++ y = p ++ q ->
  (exists l, x = p ++ l /\ q = l ++ y) \/ (exists l, p = x ++ l /\ y = l ++ q).
Proof.
  induction x as [|a x IH]; intros y p q H.
  - right. exists p. split; [reflexivity|exact H].
  - destruct p as [|b p].
    + left. exists (a :: x). split; [reflexivity|]. symmetry. exact H.
    + cbn in H. injection H as -> H. destruct (IH _ _ _ H) as [(l & -> & E)|(l & -> & E)]; [left|right]; exists l; split; auto.
Qed.

Lemma prefix_depth : forall t p q, flatten t = p ++ q -> 0 <= depth p.
Proof.
  assert (B : forall A k k' (p q : list tok), (forall p q, A = p ++ q -> 0 <= depth p) -> depth A = 0 -> weight k = 1 -> weight k' = -1 ->
    [k] ++ A ++ [k'] = p ++ q -> 0 <= depth p).
  { intros A k k' p q HA HA0 Hk Hk' H. destruct p as [|k0 p]; [cbn; lia|]. cbn in H. injection H as <- H. cbn [depth]. rewrite Hk.
    destruct (split2 A [k'] p q H) as [(l & E & _)|(l & -> & E)].
    - specialize (HA _ _ E). lia.
    - rewrite depth_app, HA0. destruct l as [|k1 l]; [cbn; lia|]. cbn in E. injection E as <- E. destruct l; [|discriminate]. cbn [depth]. lia. }
  assert (C : forall A A' k k' (p q : list tok), (forall p q, A' = p ++ q -> 0 <= depth p) -> depth A' = 0 ->
    (forall p q, A = p ++ q -> 0 <= depth p) -> depth A = 0 -> weight k = 1 -> weight k' = -1 ->
    A' ++ [k] ++ A ++ [k'] = p ++ q -> 0 <= depth p).
  { intros A A' k k' p q HA' HA'0 HA HA0 Hk Hk' H. destruct (split2 A' _ p q H) as [(l & E & _)|(l & -> & E)]; [exact (HA' _ _ E)|].
    rewrite depth_app, HA'0. pose proof (B A k k' l q HA HA0 Hk Hk' E). lia. }
  induction t as [x|l|a IHa|f IHf a IHa|f IHf|a IHa i IHi|a IHa x|a IHa|a IHa|o a IHa b IHb]; cbn [flatten]; intros p q H.
  - destruct p as [|k p]; [cbn; lia|]. cbn in H. injection H as <- H. destruct p; [cbn; lia|discriminate].
  - destruct p as [|k p]; [cbn; lia|]. cbn in H. injection H as <- H. destruct p; [cbn; lia|discriminate].
  - exact (B _ TLeft TRight _ _ IHa (depth_flatten a) eq_refl eq_refl H).
  - exact (C _ _ TLeft TRight _ _ IHf (depth_flatten f) IHa (depth_flatten a) eq_refl eq_refl H).
  - refine (C [] (flatten f) TLeft TRight p q IHf (depth_flatten f) _ eq_refl eq_refl eq_refl H).
    intros p' q' E. destruct p'; [cbn; lia|discriminate].
  - exact (C _ _ TOpen TClose _ _ IHa (depth_flatten a) IHi (depth_flatten i) eq_refl eq_refl H).
  - destruct (split2 (flatten a) _ p q H) as [(l & E & _)|(l & -> & E)]; [exact (IHa _ _ E)|]. rewrite depth_app, depth_flatten.
    destruct l as [|k1 [|k2 [|k3 l]]]; cbn [app] in E; [cbn; lia|..]; injection E; intros; subst; try discriminate; cbn; lia.
  - destruct p as [|k p]; [cbn; lia|]. cbn in H. injection H as <- H. cbn [depth weight]. specialize (IHa _ _ H). lia.
  - destruct p as [|k p]; [cbn; lia|]. cbn in H. injection H as <- H. cbn [depth weight]. specialize (IHa _ _ H). lia.
  - destruct (split2 (flatten a) _ p q H) as [(l & E & _)|(l & -> & E)]; [exact (IHa _ _ E)|]. rewrite depth_app, depth_flatten.
    destruct l as [|k l]; [cbn; lia|]. cbn in E. injection E as <- E. cbn [depth weight]. specialize (IHb _ _ E). lia.
Qed.

Lemma flatten_cons : forall t, exists k ts, flatten t = k :: ts.
Proof.
  induction t as [x|l|a IHa|f [kf [tf IHf]] a IHa|f [kf [tf IHf]]|a [ka [ta IHa]] i IHi|a [ka [ta IHa]] x|a IHa|a IHa|o a [ka [ta IHa]] b IHb];
  cbn [flatten]; rewrite ?IHf, ?IHa; cbn [app]; eauto.
Qed.
Lemma flatten_nil : forall t, flatten t <> [].
Proof. intros t H. destruct (flatten_cons t) as (k & ts & E). congruence. Qed.

(** ** Positions after an operand *)

(** Whether an operand has just ended, and the number of binary operators. *)
Definition ends (k : tok) : bool := match k with TName _ | TLit _ | TRight | TClose | TOther _ => true | _ => false end.
Fixpoint after (st : bool) (ts : list tok) : bool := match ts with [] => st | k :: ts' => after (ends k) ts' end.
Definition counts (st : bool) (k : tok) : nat := match k with TOp _ => if st then 1 else 0 | _ => 0 end.
Fixpoint binaries (st : bool) (ts : list tok) : nat :=
  match ts with [] => 0 | k :: ts' => counts st k + binaries (ends k) ts' end.

Lemma after_app : forall a b st, after st (a ++ b) = after (after st a) b.
Proof. induction a as [|k a IH]; intros b st; cbn [app after]; [reflexivity|apply IH]. Qed.
Lemma binaries_app : forall a b st, binaries st (a ++ b) = (binaries st a + binaries (after st a) b)%nat.
Proof. induction a as [|k a IH]; intros b st; cbn [app after binaries]; [reflexivity|rewrite IH; lia]. Qed.
Lemma after_flatten : forall t st, after st (flatten t) = true.
Proof.
  induction t as [x|l|a IHa|f IHf a IHa|f IHf|a IHa i IHi|a IHa x|a IHa|a IHa|o a IHa b IHb]; intros st; cbn [flatten];
  repeat (rewrite ?after_app; cbn [after ends]); rewrite ?IHa, ?IHb; reflexivity.
Qed.

(** A name, a literal or something in brackets has no operators outside of
    brackets. *)
Lemma op_primary : forall t o p q, wfp t -> top t = 7%nat -> flatten t = p ++ TOp o :: q -> depth p = 0 -> False.
Proof.
  assert (B : forall t k' l o q, flatten t ++ [k'] = l ++ TOp o :: q -> ends k' = true -> 0 <= depth l).
  { intros t k' l o q H E. destruct (split2 (flatten t) [k'] l _ H) as [(m & F & _)|(m & -> & F)]; [exact (prefix_depth _ _ _ F)|].
    destruct m as [|k m]; [|destruct m; discriminate]. rewrite depth_app, depth_flatten. cbn. lia. }
  induction t as [x|l|a IHa|f IHf a IHa|f IHf|a IHa i IHi|a IHa x|a IHa|a IHa|o' a IHa b IHb]; cbn [flatten wfp top]; intros o p q W T H D;
  try discriminate; try (destruct o'; discriminate).
  - destruct p as [|k p]; [discriminate|]. destruct p; discriminate.
  - destruct p as [|k p]; [discriminate|]. destruct p; discriminate.
  - destruct p as [|k p]; [discriminate|]. cbn in H. injection H as <- H. pose proof (B _ _ _ _ _ H eq_refl). cbn [depth weight] in D. lia.
  - destruct W as (Wf & Tf & Wa). destruct (split2 (flatten f) _ p _ H) as [(l & E & F)|(l & -> & F)].
    + destruct l as [|k l]; [discriminate|]. cbn in F. injection F as <- F. exact (IHf _ _ _ Wf Tf E D).
    + rewrite depth_app, depth_flatten in D. destruct l as [|k l]; [discriminate|]. cbn in F. injection F as <- F.
      pose proof (B _ _ _ _ _ F eq_refl). cbn [depth weight] in D. lia.
  - destruct W as (Wf & Tf). destruct (split2 (flatten f) _ p _ H) as [(l & E & F)|(l & -> & F)].
    + destruct l as [|k l]; [discriminate|]. cbn in F. injection F as <- F. exact (IHf _ _ _ Wf Tf E D).
    + destruct l as [|k1 [|k2 [|k3 l]]]; discriminate.
  - destruct W as (Wf & Tf & Wa). destruct (split2 (flatten a) _ p _ H) as [(l & E & F)|(l & -> & F)].
    + destruct l as [|k l]; [discriminate|]. cbn in F. injection F as <- F. exact (IHa _ _ _ Wf Tf E D).
    + rewrite depth_app, depth_flatten in D. destruct l as [|k l]; [discriminate|]. cbn in F. injection F as <- F.
      pose proof (B _ _ _ _ _ F eq_refl). cbn [depth weight] in D. lia.
  - destruct W as (Wf & Tf). destruct (split2 (flatten a) _ p _ H) as [(l & E & F)|(l & -> & F)].
    + destruct l as [|k l]; [discriminate|]. cbn in F. injection F as <- F. exact (IHa _ _ _ Wf Tf E D).
    + destruct l as [|k1 [|k2 [|k3 l]]]; discriminate.
Qed.

(** Every operator between operands binds at least as strongly as the whole. *)
Lemma op_inside : forall t o p q, wf t -> flatten t = p ++ TOp o :: q -> depth p = 0 -> after false p = true -> (top t <= prec o)%nat.
Proof.
  induction t as [x|l|a IHa|f IHf a IHa|f IHf|a IHa i IHi|a IHa x|a IHa|a IHa|o' a IHa b IHb]; intros o p q W H D A;
  try (exfalso; exact (op_primary _ _ _ _ (wf_wfp _ W) eq_refl H D)).
  - cbn [flatten] in H. destruct p as [|k p]; [discriminate|]. cbn in H. injection H as <- H. destruct W as (Wa & Ta).
    pose proof (IHa _ _ _ Wa H D A). pose proof (prec_range o). lia.
  - cbn [flatten] in H. destruct p as [|k p]; [discriminate|]. cbn in H. injection H as <- H. destruct W as (Wa & Ta).
    pose proof (IHa _ _ _ Wa H D A). pose proof (prec_range o). lia.
  - cbn [flatten] in H. destruct W as (Wa & Wb & Ta & Tb). cbn [top]. destruct (split2 (flatten a) _ p _ H) as [(l & E & F)|(l & -> & F)].
    + destruct l as [|k l]; cbn in F; injection F as F1 F2; [subst; lia|]. subst k. pose proof (IHa _ _ _ Wa E D A). lia.
    + destruct l as [|k l]; cbn in F; injection F as F1 F2; [subst; lia|]. subst k.
      rewrite depth_app, depth_flatten in D. cbn [depth weight] in D. rewrite after_app in A. cbn [after ends] in A.
      pose proof (IHb _ _ _ Wb F2 ltac:(lia) A). lia.
Qed.

(** ** Uniqueness *)

Lemma head_primary : forall t k ts, wfp t -> top t = 7%nat -> flatten t = k :: ts -> match k with TBang | TOp _ => False | _ => True end.
Proof.
  induction t as [x|l|a IHa|f IHf a IHa|f IHf|a IHa i IHi|a IHa x|a IHa|a IHa|o' a IHa b IHb]; cbn [flatten wfp top]; intros k ts W T H; try discriminate;
  try (destruct o'; discriminate); try (injection H as <- H; exact I).
  all: match goal with H : flatten ?f ++ _ = _ |- _ => destruct (flatten_cons f) as (k' & ts' & E); rewrite E in H; cbn in H; injection H as <- H;
    match goal with IH : forall k ts, _ -> _ -> flatten f = _ -> _ |- _ => exact (IH _ _ ltac:(tauto) ltac:(tauto) E) end end.
Qed.

Lemma brackets_unique : forall X X' A A' k k1, weight k = 1 -> weight k1 = -1 -> depth X = 0 -> depth X' = 0 -> depth A = 0 -> depth A' = 0 ->
  (forall p q, A = p ++ q -> 0 <= depth p) -> (forall p q, A' = p ++ q -> 0 <= depth p) ->
  X ++ [k] ++ A ++ [k1] = X' ++ [k] ++ A' ++ [k1] -> X = X' /\ A = A'.
Proof.
  assert (Main : forall X X' A A' k k1, weight k = 1 -> weight k1 = -1 -> depth X = 0 -> depth X' = 0 -> depth A = 0 ->
    (forall p q, A = p ++ q -> 0 <= depth p) ->
    forall l, X' = X ++ l -> [k] ++ A ++ [k1] = l ++ [k] ++ A' ++ [k1] -> X = X' /\ A = A').
  { intros X X' A A' k k1 Hk Hk1 HX HX' HA PA l -> E. destruct l as [|k0 l].
    - cbn in E. injection E as E. rewrite app_nil_r. split; [reflexivity|]. apply app_inj_tail in E. tauto.
    - exfalso. cbn in E. injection E as <- E. change (k :: A' ++ [k1]) with ((k :: A') ++ [k1]) in E. rewrite app_assoc in E.
      apply app_inj_tail in E as [E _]. specialize (PA _ _ E). rewrite depth_app in HX'. cbn [depth] in HX'. lia. }
  intros X X' A A' k k1 Hk Hk1 HX HX' HA HA' PA PA' H.
  destruct (split2 X _ X' _ H) as [(l & E & F)|(l & E & F)].
  - destruct (Main X' X A' A k k1 Hk Hk1 HX' HX HA' PA' l E F) as [-> ->]. now split.
  - exact (Main X X' A A' k k1 Hk Hk1 HX HX' HA PA l E F).
Qed.

Definition same_shape (t t' : gtree) : Prop :=
  match t, t' with
  | GName n, GName n' => n = n'
  | GLit l, GLit l' => l = l'
  | GParen a, GParen a' => flatten a = flatten a'
  | GCall f a, GCall f' a' | GIndex f a, GIndex f' a' => flatten f = flatten f' /\ flatten a = flatten a'
  | GInvoke f, GInvoke f' => flatten f = flatten f'
  | GSelect a n, GSelect a' n' => flatten a = flatten a' /\ n = n'
  | _, _ => False
  end.

Lemma primary_last : forall t, top t = 7%nat -> exists ts k, flatten t = ts ++ [k] /\
  match t with
  | GName n => k = TName n /\ ts = []
  | GLit l => k = TLit l /\ ts = []
  | GParen a => k = TRight /\ ts = [] ++ [TLeft] ++ flatten a
  | GCall f a => k = TRight /\ ts = flatten f ++ [TLeft] ++ flatten a
  | GInvoke f => k = TRight /\ ts = flatten f ++ [TLeft] ++ []
  | GIndex f a => k = TClose /\ ts = flatten f ++ [TOpen] ++ flatten a
  | GSelect a n => k = TName n /\ ts = flatten a ++ [TDot]
  | _ => False
  end.
Proof.
  destruct t as [x|l|a|f a|f|a i|a x|a|a|o a b]; cbn [top]; intros T; try discriminate; try (destruct o; discriminate); cbn [flatten].
  - exists [], (TName x). auto.
  - exists [], (TLit l). auto.
  - exists ([] ++ [TLeft] ++ flatten a), TRight. auto.
  - exists (flatten f ++ [TLeft] ++ flatten a), TRight. rewrite <- app_assoc. auto.
  - exists (flatten f ++ [TLeft] ++ []), TRight. rewrite <- app_assoc. auto.
  - exists (flatten a ++ [TOpen] ++ flatten i), TClose. rewrite <- app_assoc. auto.
  - exists (flatten a ++ [TDot]), (TName x). rewrite <- app_assoc. auto.
Qed.

Lemma nil_prefix : forall p q, ([] : list tok) = p ++ q -> 0 <= depth p.
Proof. intros p q H. destruct p; [cbn; lia|discriminate]. Qed.

Lemma primary_shape : forall t t', top t = 7%nat -> top t' = 7%nat -> flatten t = flatten t' -> same_shape t t'.
Proof.
  intros t t' T T' H. destruct (primary_last t T) as (ts & k & E & S). destruct (primary_last t' T') as (ts' & k' & E' & S').
  rewrite E, E' in H. apply app_inj_tail in H as [H1 H2]. subst ts' k'. clear E E'.
  assert (N : forall t, flatten t ++ [TDot] <> []) by (intros; apply not_eq_sym, app_cons_not_nil).
  destruct t as [x|l|a|f a|f|a i|a x|a|a|o a b]; destruct t' as [x'|l'|a'|f' a'|f'|a' i'|a' x'|a'|a'|o' a' b']; try contradiction;
  destruct S as [S1 S2], S' as [S1' S2']; subst; try discriminate; cbn [same_shape];
  try (injection S1'; intros; subst; reflexivity); try congruence;
  try (exfalso; apply (N a'); congruence); try (exfalso; apply (N a); congruence).
  all: try (injection S1' as ->; apply app_inj_tail in S2' as [S2' _]; now split).
  all: try match goal with S : ?X ++ [?k] ++ ?A = ?X' ++ [?k] ++ ?A' |- _ =>
    let H := fresh in assert (H : X ++ [k] ++ A ++ [match k with TOpen => TClose | _ => TRight end] = X' ++ [k] ++ A' ++ [match k with TOpen => TClose | _ => TRight end])
      by (rewrite !app_assoc; f_equal; rewrite <- !app_assoc; exact S);
    apply brackets_unique in H; [|reflexivity|reflexivity|try reflexivity; apply depth_flatten|try reflexivity; apply depth_flatten
      |try reflexivity; apply depth_flatten|try reflexivity; apply depth_flatten
      |first [apply prefix_depth|apply nil_prefix]|first [apply prefix_depth|apply nil_prefix]] end.
  all: try match goal with H : _ = _ /\ _ = _ |- _ => destruct H as [? ?] end; subst; auto;
    try (exfalso; match goal with H : flatten ?f = [] |- _ => exact (flatten_nil f H) | H : [] = flatten ?f |- _ => exact (flatten_nil f (eq_sym H)) end).
Qed.

Lemma flatten_inj : forall t t', wf t -> wf t' -> flatten t = flatten t' -> t = t'.
Proof.
  assert (U : forall t t' o p q, wf t -> flatten t = p ++ TOp o :: q -> p = flatten t' -> (6 <= top t)%nat -> False).
  { intros t t' o p q W H -> T. pose proof (op_inside t o _ q W H (depth_flatten t') (after_flatten t' false)). pose proof (prec_range o). lia. }
  assert (Low : forall t, (top t < 6)%nat -> exists o a b, t = GBin o a b).
  { intros t T. destruct t; cbn in T; try lia. eauto. }
  induction t as [x|l|a IHa|f IHf a IHa|f IHf|a IHa i IHi|a IHa x|a IHa|a IHa|o a IHa b IHb]; intros t' W W' H.
  10: { (* an operator *)
    destruct (Nat.lt_ge_cases (top t') 6) as [T|T].
    - destruct (Low _ T) as (o' & a' & b' & ->). cbn [flatten] in H. destruct W as (Wa & Wb & Ta & Tb), W' as (Wa' & Wb' & Ta' & Tb').
      destruct (split2 _ _ _ _ H) as [(l & E & F)|(l & E & F)].
      + destruct l as [|k l].
        * cbn in F. rewrite app_nil_r in E. injection F as F1 F2. subst. rewrite (IHa a' Wa Wa' E), (IHb b' Wb Wb' (eq_sym F2)). reflexivity.
        * exfalso. cbn in F. injection F as <- F.
          pose proof (op_inside a o' _ l Wa E (depth_flatten a') (after_flatten a' false)) as K1.
          assert (D : depth l = 0). { pose proof (depth_flatten a) as D. rewrite E, depth_app, depth_flatten in D. cbn [depth weight] in D. lia. }
          assert (A : after false l = true). { pose proof (after_flatten a false) as A. rewrite E, after_app in A. exact A. }
          pose proof (op_inside b' o _ (flatten b) Wb' F D A) as K2. lia.
      + destruct l as [|k l].
        * cbn in F. rewrite app_nil_r in E. injection F as F1 F2. subst. rewrite (IHa a' Wa Wa' (eq_sym E)), (IHb b' Wb Wb' F2). reflexivity.
        * exfalso. cbn in F. injection F as <- F.
          pose proof (op_inside a' o _ l Wa' E (depth_flatten a) (after_flatten a false)) as K1.
          assert (D : depth l = 0). { pose proof (depth_flatten a') as D. rewrite E, depth_app, depth_flatten in D. cbn [depth weight] in D. lia. }
          assert (A : after false l = true). { pose proof (after_flatten a' false) as A. rewrite E, after_app in A. exact A. }
          pose proof (op_inside b o' _ (flatten b') Wb F D A) as K2. lia.
    - exfalso. exact (U t' a o _ (flatten b) W' (eq_sym H) eq_refl T). }
  all: match type of W with wf ?t => assert (T : (6 <= top t)%nat) by (cbn; lia) end;
    destruct (Nat.lt_ge_cases (top t') 6) as [T'|T']; [exfalso; destruct (Low _ T') as (o' & a' & b' & ->); exact (U _ a' o' _ (flatten b') W H eq_refl T)|].
  all: destruct (Nat.eq_dec (top t') 7) as [T7|T7].
  all: try match goal with |- GNot _ = _ => exfalso; pose proof (head_primary t' TBang (flatten a) (wf_wfp _ W') T7 (eq_sym H)) as K; exact K end.
  all: try match goal with |- GNeg _ = _ => exfalso; pose proof (head_primary t' (TOp Sub) (flatten a) (wf_wfp _ W') T7 (eq_sym H)) as K; exact K end.
  all: try (assert (T0 : top t' = 6%nat) by (pose proof (top_range t'); lia); destruct t' as [| | | | | | |a'|a'|o' a' b']; try discriminate; try (destruct o'; discriminate)).
  all: try (cbn in H; discriminate).
  all: try (cbn [flatten] in H; injection H as H; f_equal; apply IHa; [apply W|apply W'|exact H]).
  all: try (exfalso; match type of W with wf ?t => exact (head_primary t TBang (flatten a') (wf_wfp _ W) eq_refl H) end).
  all: try (exfalso; match type of W with wf ?t => exact (head_primary t (TOp Sub) (flatten a') (wf_wfp _ W) eq_refl H) end).
  all: match type of W with wf ?t => pose proof (primary_shape t t' eq_refl T7 H) as K end; destruct t' as [x'|l'|a'|f' a'|f'|a' i'|a' x'|a'|a'|o' a' b']; try contradiction;
    cbn [same_shape] in K; cbn [wf] in W, W'; repeat match goal with H : _ /\ _ |- _ => destruct H end; subst; f_equal; auto.
Qed.

Theorem parse_unique : forall ts t t', go_expression ts t -> go_expression ts t' -> t = t'.
Proof.
  intros ts t t' H H'. apply parses_wf in H as (E & W & _). apply parses_wf in H' as (E' & W' & _). apply flatten_inj; congruence.
Qed.
