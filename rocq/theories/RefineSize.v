(** Sizes in a schema whose expressions have more values ([more_schema] of Refine.v). *)

Require Import ZArith List Bool Lia.
From Verif Require Import Bits Stream Scalars Traits Array Schema Refine.
Import ListNotations.
Open Scope Z_scope.

Definition below {A} (o o' : outcome A) : Prop := o = Panic \/ o = o'.
Lemma below_refl : forall {A} (o : outcome A), below o o.
Proof. intros. now right. Qed.
Lemma below_bind : forall {A B} (o o' : outcome A) (f f' : A -> outcome B), below o o' -> (forall a, below (f a) (f' a)) -> below (obind o f) (obind o' f').
Proof. intros A B o o' f f' [ -> | -> ] H; [now left|]. destruct o'; cbn; [apply H|apply below_refl..]. Qed.

Lemma size_basic_more : forall E t t' v, more_basic t t' -> below (size_basic E t v) (size_basic E t' v).
Proof.
  intros E t t' v [b|s g w w' H]; [apply below_refl|]. cbn. destruct (more_cases _ _ (H E)) as [ -> | -> ]; [now left|apply below_refl].
Qed.
Lemma sum_more : forall {A} (size size' : nat -> A -> Z -> outcome Z) cfg, (forall i e p, below (size i e p) (size' i e p)) ->
  forall es i pos, below (sum_sizes size cfg i es pos) (sum_sizes size' cfg i es pos).
Proof.
  intros A size size' cfg H es. induction es as [|e es IH]; intros i pos; cbn [sum_sizes]; [apply below_refl|].
  match goal with |- context [size i e ?p] => destruct (H i e p) as [ -> | -> ]; [now left|]; destruct (size' i e p) end; first [apply IH | apply below_refl].
Qed.
Lemma objects_more : forall {A} (size size' : nat -> A -> Z -> outcome Z) cfg es pos, (forall i e p, below (size i e p) (size' i e p)) ->
  below (object_array_bitsize size cfg es pos) (object_array_bitsize size' cfg es pos).
Proof.
  intros A size size' cfg es pos H. unfold object_array_bitsize. destruct (length_size cfg (length es)); try apply below_refl.
  match goal with |- below (match ?x with _ => _ end) (match ?y with _ => _ end) => assert (Q : below x y) end.
  { apply sum_more. intros i e p. destruct (H i e p) as [ -> | -> ]; [now left|apply below_refl]. }
  destruct Q as [ -> | -> ]; [now left|apply below_refl].
Qed.

Definition sizes_below (M M' : methods) : Prop := forall id ps v pos, below (m_size M id ps v pos) (m_size M' id ps v pos).

Lemma size_array_more : forall M M' E f f' l l' p es pos, sizes_below M M' -> more_field f f' -> more_option more_expr l l' ->
  below (size_field_array M E f l p es pos) (size_field_array M' E f' l' p es pos).
Proof.
  intros M M' E f f' l l' p es pos HM [t t' a a' o c c' al k Ht _ _] Hl. unfold size_field_array. destruct (config_more E l l' p Hl) as [ -> | -> ]; [now left|].
  destruct (array_config E l' p) as [cfg|]; [|apply below_refl]. cbn [f_type f_cast]. destruct Ht as [b b' Hb|id g g' Hg].
  - destruct (codec_more E b b' Hb) as [ -> | -> ]; [now left|apply below_refl].
  - destruct (arguments_more E g g' (length es) Hg) as [ -> |Q]; [now left|]. rewrite Q. destruct (arguments_ok E g (length es)); [|now left].
    apply objects_more. intros i e q. destruct (more_cases _ _ (Hg E i)) as [ -> | -> ]; [now left|]. destruct (g' E i); [apply HM|apply below_refl].
Qed.
Lemma size_content_more : forall M M' E f f' v pos, sizes_below M M' -> more_field f f' -> below (size_content M E f v pos) (size_content M' E f' v pos).
Proof.
  intros M M' E f f' v pos HM Hf. pose proof Hf as H. destruct Hf as [t t' a a' o c c' al k Ht Ha Hc]. unfold size_content. cbn [f_array f_type].
  destruct Ha as [|[l p] [l' p'] (Hl & Hp)].
  - destruct Ht as [b b' Hb|id g g' Hg]; [now apply size_basic_more|]. destruct (more_cases _ _ (Hg E 0%nat)) as [ -> | -> ]; [now left|]. destruct (g' E 0%nat); [apply HM|apply below_refl].
  - cbn [fst snd] in Hl, Hp. subst p'. destruct v; try apply below_refl. now apply size_array_more.
Qed.
Lemma size_field_more : forall M M' E f f' s pos, sizes_below M M' -> more_field f f' -> below (size_field M E f s pos) (size_field M' E f' s pos).
Proof.
  intros M M' E f f' s pos HM Hf. unfold size_field. destruct (included_more E f f' Hf) as [ -> | -> ]; [now left|]. destruct (included E f') as [[|]|]; try apply below_refl.
  replace (f_align f') with (f_align f) by (destruct Hf; reflexivity). replace (f_optional f') with (f_optional f) by (destruct Hf; reflexivity).
  apply below_bind; [apply below_refl|]. intros q. destruct (f_optional f); (destruct s as [v|]; [|apply below_refl]);
    (apply below_bind; [now apply size_content_more|intros; apply below_refl]).
Qed.
Lemma size_fields_more : forall M M' E fs fs', sizes_below M M' -> Forall2 more_field fs fs' -> forall i pos, below (size_fields M E i fs pos) (size_fields M' E i fs' pos).
Proof.
  intros M M' E fs fs' HM H. induction H as [|f f' fs fs' Hf _ IH]; intros i pos; cbn [size_fields]; [apply below_refl|]. apply below_bind; [now apply size_field_more|intros; apply IH].
Qed.

Theorem size_more : forall S S', more_schema S S' -> forall fuel, sizes_below (run S fuel) (run S' fuel).
Proof.
  intros S S' HS. assert (N : forall id, (nth_error S id = None /\ nth_error S' id = None) \/
    exists d d', nth_error S id = Some d /\ nth_error S' id = Some d' /\ more_def d d').
  { intros id. revert id. induction HS as [|d d' S S' Hd HS IH]; intros [|id]; cbn; [now left|now left|right; exists d, d'; auto|apply IH]. }
  induction fuel as [|fuel IH]; [intros id ps v pos; apply below_refl|]. set (M := run S fuel) in *. set (M' := run S' fuel) in *. intros id ps v pos. cbn [run m_size]. fold M M'.
  unfold of_def. destruct (N id) as [[ -> -> ] |(d & d' & -> & -> & Hd)]; [apply below_refl|].
  destruct Hd as [t t' Ht|fs fs' Hf|s cs cs' e e' Hc He|fs fs' Hf]; cbn [size_def].
  - now apply size_basic_more.
  - destruct v; try apply below_refl. apply below_bind; [now apply size_fields_more|intros; apply below_refl].
  - destruct v; try apply below_refl. destruct (s ps) as [sel|]; [|apply below_refl].
    destruct (select_more cs cs' e e' Hc He sel 0) as [[ -> -> ] |(j & f & f' & -> & -> & Hf)]; [apply below_refl|]. apply below_bind; [now apply size_field_more|intros; apply below_refl].
  - destruct v; try apply below_refl. apply below_bind; [apply below_refl|]. intros d. destruct (tag <? 1); [apply below_refl|].
    destruct (nth_more fs fs' (Z.to_nat (tag - 1)) Hf) as [[ -> -> ] |(f & f' & -> & -> & Hf')]; [apply below_refl|]. apply below_bind; [now apply size_field_more|intros; apply below_refl].
Qed.
