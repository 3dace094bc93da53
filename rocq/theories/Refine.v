(** Schemas whose expressions have values in more cases: what succeeds with the one
    schema does the same with the other. *)

Require Import ZArith List Bool Lia ZifyBool ZifyNat.
From Verif Require Import Bits Stream Scalars Traits Delta Array Schema PosSpec.
Import ListNotations.
Open Scope Z_scope.
Open Scope io_scope.

(** ** Schemas *)

Definition more {A} (a b : option A) : Prop := forall x, a = Some x -> b = Some x.
Definition more_expr (w w' : Schema.expr) : Prop := forall E, more (w E) (w' E).
Definition more_cond (c c' : Schema.cond) : Prop := forall E, more (c E) (c' E).
Definition more_args (a a' : arguments) : Prop := forall E i, more (a E i) (a' E i).
Inductive more_basic : basic -> basic -> Prop :=
| MB_std : forall b, more_basic (Std b) (Std b)
| MB_bits : forall s g w w', more_expr w w' -> more_basic (Bits s g w) (Bits s g w').
Inductive more_type : ftype -> ftype -> Prop :=
| MT_basic : forall t t', more_basic t t' -> more_type (TBasic t) (TBasic t')
| MT_ref : forall id a a', more_args a a' -> more_type (TRef id a) (TRef id a').
Inductive more_option {A} (R : A -> A -> Prop) : option A -> option A -> Prop :=
| MO_none : more_option R None None
| MO_some : forall x y, R x y -> more_option R (Some x) (Some y).
Definition more_array (a b : option Schema.expr * bool) : Prop := more_option more_expr (fst a) (fst b) /\ snd a = snd b.
Inductive more_field : field -> field -> Prop :=
| MF : forall t t' a a' o c c' al k, more_type t t' -> more_option more_array a a' -> more_option more_cond c c' ->
    more_field (mkF t a o c al k) (mkF t' a' o c' al k).
Inductive more_def : def -> def -> Prop :=
| MD_scalar : forall t t', more_basic t t' -> more_def (DScalar t) (DScalar t')
| MD_struct : forall fs fs', Forall2 more_field fs fs' -> more_def (DStruct fs) (DStruct fs')
| MD_choice : forall s cs cs' d d', Forall2 (fun a b => fst a = fst b /\ more_option more_field (snd a) (snd b)) cs cs' ->
    more_option more_field d d' -> more_def (DChoice s cs d) (DChoice s cs' d')
| MD_union : forall fs fs', Forall2 more_field fs fs' -> more_def (DUnion fs) (DUnion fs').
Definition more_schema : schema -> schema -> Prop := Forall2 more_def.

(** ** Programs *)

(** [m] and [m'] do the same, unless [m] panics. *)
Definition under {S A} (m m' : prog S A) : Prop := forall s, snd (m s) = Panic \/ m s = m' s.

Lemma under_refl : forall {S A} (m : prog S A), under m m.
Proof. intros S A m s. now right. Qed.
Lemma under_panic : forall {S A} (m' : prog S A), under (fun s => (s, Panic)) m'.
Proof. intros S A m' s. now left. Qed.
Lemma under_bind : forall {S A B} (m m' : prog S A) (f f' : A -> prog S B),
  under m m' -> (forall a, under (f a) (f' a)) -> under (sbind m f) (sbind m' f').
Proof.
  intros S A B m m' f f' Hm Hf s. unfold sbind. destruct (Hm s) as [H|H].
  - left. destruct (m s) as [s' o]. cbn in H. now subst o.
  - rewrite <- H. destruct (m s) as [s' [a|e| |]]; auto. apply Hf.
Qed.
Lemma under_rbind : forall {A B} (m m' : reader A) (f f' : A -> reader B),
  under m m' -> (forall a, under (f a) (f' a)) -> under (rbind m f) (rbind m' f').
Proof. exact (fun A B => @under_bind rst A B). Qed.
Lemma under_wbind : forall {A B} (m m' : writer A) (f f' : A -> writer B),
  under m m' -> (forall a, under (f a) (f' a)) -> under (wbind m f) (wbind m' f').
Proof. exact (fun A B => @under_bind wst A B). Qed.
Lemma under_if : forall {S A} (b : bool) (m1 m2 m1' m2' : prog S A), under m1 m1' -> under m2 m2' ->
  under (if b then m1 else m2) (if b then m1' else m2').
Proof. intros S A [|]; auto. Qed.
Lemma under_ignore : forall {S A} (m m' : prog S A), under m m' -> under (signore m) (signore m').
Proof.
  intros S A m m' H s. unfold signore. destruct (H s) as [E|E].
  - left. destruct (m s) as [s' o]. cbn in E. now subst o.
  - right. now rewrite E.
Qed.
Lemma under_stream : forall {C S A} (m m' : prog S A), under m m' -> under (@on_stream C S A m) (on_stream m').
Proof.
  intros C S A m m' H [c s]. unfold on_stream. destruct (H s) as [E|E].
  - left. destruct (m s). exact E.
  - right. now rewrite E.
Qed.
Lemma under_child : forall {S A} i (m m' : prog (node * S) A), under m m' -> under (on_child i m) (on_child i m').
Proof.
  intros S A i m m' H [[c ch] s]. unfold on_child. destruct (nth_error ch i) as [n|]; [|now right].
  destruct (H (n, s)) as [E|E].
  - left. destruct (m (n, s)) as [[? ?] ?]. exact E.
  - right. now rewrite E.
Qed.
Lemma under_at_node : forall {A} (m m' : prog node A), under m m' -> under (at_node m) (at_node m').
Proof.
  intros A m m' H [n s]. unfold at_node. cbn [fst]. destruct (H n) as [E|E].
  - left. destruct (m n). exact E.
  - right. now rewrite E.
Qed.
Lemma under_run_node : forall {A} (m m' : prog (node * unit) A), under m m' -> under (run_node m) (run_node m').
Proof.
  intros A m m' H n. unfold run_node. destruct (H (n, tt)) as [E|E].
  - left. destruct (m (n, tt)). exact E.
  - right. now rewrite E.
Qed.
Lemma under_node_child : forall {A} i (m m' : prog node A), under m m' -> under (child i m) (child i m').
Proof. intros A i m m' H. apply under_run_node, under_child, under_at_node, H. Qed.
Lemma under_packed : forall {N S A} (m m' : prog (N * S) A), under m m' -> under (on_packed m) (on_packed m').
Proof.
  intros N S A m m' H [[n|] s]; unfold on_packed; [|now right]. destruct (H (n, s)) as [E|E].
  - left. destruct (m (n, s)) as [[? ?] ?]. exact E.
  - right. now rewrite E.
Qed.
Lemma under_with_ctx : forall {C S A} c (m m' : prog (C * S) A), under m m' -> under (with_ctx c m) (with_ctx c m').
Proof.
  intros C S A c m m' H s. unfold with_ctx. destruct (H (c, s)) as [E|E].
  - left. destruct (m (c, s)) as [[? ?] ?]. exact E.
  - right. now rewrite E.
Qed.

(** ** Arrays *)

Lemma under_read_array : forall {A N} (K K' : elemops A N) cfg,
  (forall i, under (k_read K i) (k_read K' i)) -> (forall i, under (k_pread K i) (k_pread K' i)) ->
  k_create K = k_create K' -> under (read_array K cfg) (read_array K' cfg).
Proof.
  intros A N K K' cfg H1 H2 H3. apply under_with_ctx. unfold array_unmarshal.
  apply under_bind; [apply under_refl|intros size].
  apply under_if; [apply under_refl|]. apply under_if; [apply under_refl|].
  apply under_bind.
  - apply under_if; [|apply under_refl]. intros s. unfold new_context. rewrite H3. now right.
  - intros _. generalize (Z.to_nat size) as n, 0%nat as i.
    induction n as [|n IH]; intros i; cbn [read_elems]; [apply under_refl|].
    apply under_bind; [|intros e; apply under_bind; [apply IH|intros; apply under_refl]].
    unfold read_elem. apply under_bind; [apply under_refl|intros _].
    apply under_if; [apply under_packed, H2|apply under_stream, H1].
Qed.
Lemma under_write_array : forall {A N} (K K' : elemops A N) cfg es,
  (forall i e, under (k_write K i e) (k_write K' i e)) -> (forall i e, under (k_pwrite K i e) (k_pwrite K' i e)) ->
  (forall i e, under (k_init K i e) (k_init K' i e)) ->
  k_create K = k_create K' -> under (write_array K cfg es) (write_array K' cfg es).
Proof.
  intros A N K K' cfg es H1 H2 H3 H4. apply under_with_ctx. unfold array_marshal.
  apply under_bind; [apply under_refl|intros _].
  assert (W : forall l i, under (write_elems K cfg i l) (write_elems K' cfg i l)).
  { induction l as [|e l IH]; intros i; cbn [write_elems]; [apply under_refl|].
    apply under_bind; [|intros _; apply IH]. unfold write_elem. apply under_bind; [apply under_refl|intros _].
    apply under_ignore. apply under_if; [apply under_packed, H2|apply under_stream, H1]. }
  assert (J : forall l i n, snd (init_elems K i l n) = Panic \/ init_elems K i l n = init_elems K' i l n).
  { induction l as [|e l IH]; intros i n; cbn [init_elems]; [now right|]. destruct (H3 i e n) as [E|E].
    - left. destruct (k_init K i e n) as [n' o]. cbn in E. now subst o.
    - rewrite <- E. destruct (k_init K i e n) as [n' [a|x| |]]; auto. }
  destruct es as [|e es]; [apply under_refl|]. apply under_bind; [|intros _; apply W].
  apply under_if; [|apply under_refl]. apply under_bind.
  - intros s. unfold new_context. rewrite H4. now right.
  - intros _ [[n|] s]; unfold init_context; [|now right]. destruct (J (e :: es) 0%nat n) as [E|E].
    + left. destruct (init_elems K 0 (e :: es) n). exact E.
    + right. now rewrite E.
Qed.

(** ** Expressions *)

Lemma more_cases : forall {A} (a b : option A), more a b -> a = None \/ a = b.
Proof. intros A [x|] b H; [right; symmetry; now apply H|now left]. Qed.
Lemma included_more : forall E f f', more_field f f' -> included E f = None \/ included E f = included E f'.
Proof.
  intros E f f' [t t' a a' o c c' al k Ht Ha Hc]. unfold included. cbn [f_clause]. destruct Hc as [|c c' H]; [now right|]. apply more_cases, H.
Qed.
Lemma config_more : forall E l l' p, more_option more_expr l l' -> array_config E l p = None \/ array_config E l p = array_config E l' p.
Proof.
  intros E l l' p [|w w' H]; [now right|]. unfold array_config. destruct (more_cases _ _ (H E)) as [ -> | -> ]; [now left|now right].
Qed.
Lemma codec_more : forall E t t', more_basic t t' -> codec_of E t = Panic \/ codec_of E t = codec_of E t'.
Proof.
  intros E t t' [b|s g w w' H]; [now right|]. unfold codec_of. destruct (more_cases _ _ (H E)) as [ -> | -> ]; [now left|now right].
Qed.
Lemma packable_more : forall t t', more_basic t t' -> packable t = packable t'.
Proof. intros t t' [b|s g w w' H]; reflexivity. Qed.
Lemma write_basic_more : forall E t t' v, more_basic t t' -> under (write_basic E t v) (write_basic E t' v).
Proof.
  intros E t t' v [b|s g w w' H]; [apply under_refl|]. unfold write_basic. destruct (more_cases _ _ (H E)) as [ -> | -> ]; [apply under_panic|apply under_refl].
Qed.
Lemma read_basic_more : forall E t t', more_basic t t' -> under (read_basic E t) (read_basic E t').
Proof.
  intros E t t' [b|s g w w' H]; [apply under_refl|]. unfold read_basic. destruct (more_cases _ _ (H E)) as [ -> | -> ]; [apply under_panic|apply under_refl].
Qed.

(** ** Methods *)

Record methods_under (M M' : methods) : Prop := {
  mu_marshal : forall id ps v, under (m_marshal M id ps v) (m_marshal M' id ps v);
  mu_unmarshal : forall id ps, under (m_unmarshal M id ps) (m_unmarshal M' id ps);
  mu_create : forall id n, m_create M id n = m_create M' id n;
  mu_init : forall id ps v, under (m_init M id ps v) (m_init M' id ps v);
  mu_pmarshal : forall id ps v, under (m_pmarshal M id ps v) (m_pmarshal M' id ps v);
  mu_punmarshal : forall id ps, under (m_punmarshal M id ps) (m_punmarshal M' id ps)
}.

Lemma arguments_more : forall E a a' n, more_args a a' -> arguments_ok E a n = false \/ arguments_ok E a' n = true.
Proof.
  intros E a a' n H. unfold arguments_ok. destruct (forallb (fun i => match a E i with Some _ => true | None => false end) (seq 0 n)) eqn:F; [|now left].
  right. rewrite forallb_forall in *. intros i Hi. specialize (F i Hi). destruct (a E i) as [x|] eqn:Ea; [|discriminate]. now rewrite (H E i x Ea).
Qed.

Ltac arg H E i := let X := fresh in destruct (more_cases _ _ (H E i)) as [X|X]; rewrite X; [try apply under_panic|].

Lemma object_under : forall M M' E id a a', methods_under M M' -> more_args a a' ->
  let K := object_ops M E id a in let K' := object_ops M' E id a' in
  (forall i e, under (k_write K i e) (k_write K' i e)) /\ (forall i, under (k_read K i) (k_read K' i)) /\
  (forall i e, under (k_init K i e) (k_init K' i e)) /\ (forall i e, under (k_pwrite K i e) (k_pwrite K' i e)) /\
  (forall i, under (k_pread K i) (k_pread K' i)) /\ k_create K = k_create K'.
Proof.
  intros M M' E id a a' [H1 H2 H3 H4 H5 H6] Ha. cbn [object_ops k_write k_read k_init k_pwrite k_pread k_create].
  split; [intros i e; arg Ha E i; destruct (a' E i); [apply H1|apply under_refl]|].
  split; [intros i; arg Ha E i; destruct (a' E i); [apply H2|apply under_refl]|].
  split; [intros i e; arg Ha E i; destruct (a' E i); [apply H4|apply under_refl]|].
  split; [intros i e; arg Ha E i; destruct (a' E i); [apply H5|apply under_refl]|].
  split; [intros i; arg Ha E i; destruct (a' E i); [apply H6|apply under_refl]|].
  now rewrite H3.
Qed.

Lemma write_array_more : forall M M' E f f' l l' p es, methods_under M M' -> more_field f f' -> more_option more_expr l l' ->
  under (write_field_array M E f l p es) (write_field_array M' E f' l' p es).
Proof.
  intros M M' E f f' l l' p es HM [t t' a a' o c c' al k Ht Ha Hc] Hl. unfold write_field_array.
  destruct (config_more E l l' p Hl) as [ -> | -> ]; [apply under_panic|]. destruct (array_config E l' p) as [cfg|]; [|apply under_refl].
  cbn [f_type]. destruct Ht as [b b' Hb|id x x' Hx].
  - destruct (codec_more E b b' Hb) as [ -> | -> ]; [apply under_panic|apply under_refl].
  - destruct (arguments_more E x x' (length es) Hx) as [ -> | Y]; [apply under_panic|]. rewrite Y.
    destruct (arguments_ok E x (length es)); [|apply under_panic]. apply under_if; [apply under_refl|].
    destruct (object_under M M' E id x x' HM Hx) as (K1 & K2 & K3 & K4 & K5 & K6). now apply under_write_array.
Qed.
Lemma read_array_more : forall M M' E f f' l l' p, methods_under M M' -> more_field f f' -> more_option more_expr l l' ->
  under (read_field_array M E f l p) (read_field_array M' E f' l' p).
Proof.
  intros M M' E f f' l l' p HM [t t' a a' o c c' al k Ht Ha Hc] Hl. unfold read_field_array. cbn [f_type].
  destruct Ht as [b b' Hb|id x x' Hx].
  - destruct (codec_more E b b' Hb) as [ -> | -> ]; [apply under_panic|].
    destruct (codec_of E b') as [T|e| |]; try apply under_panic.
    destruct (config_more E l l' p Hl) as [ -> | -> ]; [apply under_panic|apply under_refl].
  - destruct (config_more E l l' p Hl) as [ -> | -> ]; [apply under_panic|]. destruct (array_config E l' p) as [cfg|]; [|apply under_refl].
    destruct (object_under M M' E id x x' HM Hx) as (K1 & K2 & K3 & K4 & K5 & K6). now apply under_read_array.
Qed.

Lemma write_field_more : forall M M' E f f' s, methods_under M M' -> more_field f f' -> under (write_field M E f s) (write_field M' E f' s).
Proof.
  intros M M' E f f' s HM Hf. unfold write_field. destruct (included_more E f f' Hf) as [ -> | -> ]; [apply under_panic|].
  destruct (included E f') as [[|]|]; try apply under_refl.
  assert (C : forall v, under (write_content M E f v) (write_content M' E f' v)).
  { intros v. unfold write_content. pose proof Hf as Hf'. destruct Hf as [t t' a a' o c c' al k Ht Ha Hc]. cbn [f_array f_type].
    destruct Ha as [|[l p] [l' p'] [Hl Hp]]; cbn [fst snd] in *.
    - destruct Ht as [b b' Hb|id x x' Hx]; [now apply write_basic_more|]. arg Hx E 0%nat. destruct (x' E 0%nat); [apply HM|apply under_refl].
    - subst p'. destruct v; try apply under_refl. now apply write_array_more. }
  destruct Hf as [t t' a a' o c c' al k Ht Ha Hc]. cbn [f_align f_optional]. apply under_wbind; [apply under_refl|intros _].
  destruct o.
  - apply under_wbind; [apply under_refl|intros _]. destruct s; [apply C|apply under_refl].
  - destruct s; [apply C|apply under_refl].
Qed.
Lemma read_field_more : forall M M' E f f', methods_under M M' -> more_field f f' -> under (read_field M E f) (read_field M' E f').
Proof.
  intros M M' E f f' HM Hf. unfold read_field. destruct (included_more E f f' Hf) as [ -> | -> ]; [apply under_panic|].
  destruct (included E f') as [[|]|]; try apply under_refl.
  assert (C : under (read_content M E f) (read_content M' E f')).
  { unfold read_content. pose proof Hf as Hf'. destruct Hf as [t t' a a' o c c' al k Ht Ha Hc]. cbn [f_array f_type].
    destruct Ha as [|[l p] [l' p'] [Hl Hp]]; cbn [fst snd] in *.
    - destruct Ht as [b b' Hb|id x x' Hx]; [now apply read_basic_more|]. arg Hx E 0%nat. destruct (x' E 0%nat); [apply HM|apply under_refl].
    - subst p'. apply under_rbind; [now apply read_array_more|intros; apply under_refl]. }
  destruct Hf as [t t' a a' o c c' al k Ht Ha Hc]. cbn [f_align f_optional]. apply under_rbind; [apply under_refl|intros _].
  apply under_if.
  - apply under_rbind; [apply under_refl|intros b]. apply under_if; [|apply under_refl]. apply under_rbind; [exact C|intros; apply under_refl].
  - apply under_rbind; [exact C|intros; apply under_refl].
Qed.
Lemma pwrite_field_more : forall M M' E f f' s, methods_under M M' -> more_field f f' -> under (pwrite_field M E f s) (pwrite_field M' E f' s).
Proof.
  intros M M' E f f' s HM Hf. unfold pwrite_field. destruct (included_more E f f' Hf) as [ -> | -> ]; [apply under_panic|].
  destruct (included E f') as [[|]|]; try apply under_refl.
  assert (C : forall v, under (pwrite_content M E f v) (pwrite_content M' E f' v)).
  { intros v. unfold pwrite_content. pose proof Hf as Hf'. destruct Hf as [t t' a a' o c c' al k Ht Ha Hc]. cbn [f_array f_type].
    destruct Ha as [|[l p] [l' p'] [Hl Hp]]; cbn [fst snd] in *.
    - destruct Ht as [b b' Hb|id x x' Hx].
      + rewrite <- (packable_more b b' Hb). apply under_if; [|now apply under_stream, write_basic_more].
        destruct (codec_more E b b' Hb) as [ -> | -> ]; [apply under_panic|apply under_refl].
      + arg Hx E 0%nat. destruct (x' E 0%nat); [apply HM|apply under_refl].
    - destruct v; try apply under_refl. apply under_stream. now apply write_array_more. }
  destruct Hf as [t t' a a' o c c' al k Ht Ha Hc]. cbn [f_align f_optional]. destruct o.
  - apply under_bind; [apply under_refl|intros _]. destruct s; [|apply under_refl]. apply under_bind; [apply under_refl|intros _; apply C].
  - apply under_bind; [apply under_refl|intros _]. destruct s; [apply C|apply under_refl].
Qed.
Lemma pread_field_more : forall M M' E f f', methods_under M M' -> more_field f f' -> under (pread_field M E f) (pread_field M' E f').
Proof.
  intros M M' E f f' HM Hf. unfold pread_field. destruct (included_more E f f' Hf) as [ -> | -> ]; [apply under_panic|].
  destruct (included E f') as [[|]|]; try apply under_refl.
  assert (C : under (pread_content M E f) (pread_content M' E f')).
  { unfold pread_content. pose proof Hf as Hf'. destruct Hf as [t t' a a' o c c' al k Ht Ha Hc]. cbn [f_array f_type].
    destruct Ha as [|[l p] [l' p'] [Hl Hp]]; cbn [fst snd] in *.
    - destruct Ht as [b b' Hb|id x x' Hx].
      + rewrite <- (packable_more b b' Hb). apply under_if; [|now apply under_stream, read_basic_more].
        destruct (codec_more E b b' Hb) as [ -> | -> ]; [apply under_panic|apply under_refl].
      + arg Hx E 0%nat. destruct (x' E 0%nat); [apply HM|apply under_refl].
    - apply under_bind; [apply under_stream; now apply read_array_more|intros; apply under_refl]. }
  destruct Hf as [t t' a a' o c c' al k Ht Ha Hc]. cbn [f_align f_optional]. apply under_if.
  - apply under_bind; [apply under_refl|intros b]. apply under_if; [|apply under_refl].
    apply under_bind; [apply under_refl|intros _]. apply under_bind; [exact C|intros; apply under_refl].
  - apply under_bind; [apply under_refl|intros _]. apply under_bind; [exact C|intros; apply under_refl].
Qed.
Lemma init_delta_more : forall E t t' v, more_basic t t' -> under (init_delta E t v) (init_delta E t' v).
Proof.
  intros E t t' v H [[c|] ch]; [|now right]. unfold init_delta. destruct (codec_more E t t' H) as [ -> | -> ]; [now left|now right].
Qed.
Lemma init_field_more : forall M M' E f f' s, methods_under M M' -> more_field f f' -> under (init_field M E f s) (init_field M' E f' s).
Proof.
  intros M M' E f f' s HM Hf. pose proof (included_more E f f' Hf) as I. unfold init_field.
  destruct Hf as [t t' a a' o c c' al k Ht Ha Hc]. cbn [f_array f_type f_optional] in *. destruct Ha as [|l l' Hl]; [|apply under_refl].
  destruct Ht as [b b' Hb|id x x' Hx].
  - rewrite <- (packable_more b b' Hb). apply under_if; [|apply under_refl]. destruct I as [ -> | -> ]; [apply under_panic|].
    destruct (included E _) as [[|]|]; try apply under_refl. destruct s; [now apply init_delta_more|apply under_refl].
  - destruct I as [ -> | -> ]; [apply under_panic|]. destruct (included E _) as [[|]|]; try apply under_refl.
    destruct s; [|apply under_refl]. arg Hx E 0%nat. destruct (x' E 0%nat); [apply HM|apply under_refl].
Qed.
Lemma create_field_more : forall M M' f f' n, methods_under M M' -> more_field f f' -> create_field M f n = create_field M' f' n.
Proof.
  intros M M' f f' [c ch] HM [t t' a a' o cl cl' al k Ht Ha Hc]. unfold create_field. cbn [f_array f_type].
  destruct Ha; [|reflexivity]. destruct Ht as [b b' Hb|id x x' Hx]; [now rewrite (packable_more b b' Hb)|]. now rewrite (mu_create _ _ HM).
Qed.
Lemma create_fields_more : forall M M' fs fs', methods_under M M' -> Forall2 more_field fs fs' -> forall n, create_fields M fs n = create_fields M' fs' n.
Proof.
  intros M M' fs fs' HM H. induction H as [|f f' fs fs' Hf H IH]; intros n; [reflexivity|]. cbn [create_fields]. unfold sbind.
  rewrite (create_field_more M M' f f' n HM Hf). destruct (create_field M' f' n) as [n' [x|e| |]]; try reflexivity. apply IH.
Qed.

(** ** Definitions *)

Lemma select_more : forall cs cs' d d', Forall2 (fun a b => fst a = fst b /\ more_option more_field (snd a) (snd b)) cs cs' -> more_option more_field d d' ->
  forall sel i, (select sel i cs d = None /\ select sel i cs' d' = None) \/
    exists j f f', select sel i cs d = Some (j, f) /\ select sel i cs' d' = Some (j, f') /\ more_field f f'.
Proof.
  intros cs cs' d d' H Hd. induction H as [|[l o] [l' o'] cs cs' [Hl Ho] H IH]; intros sel i; cbn [select fst snd] in *.
  - destruct Hd as [|f f' Hf]; [now left|right; exists i, f, f'; auto].
  - subst l'. destruct Ho as [|f f' Hf]; [apply IH|].
    destruct (match l with [] => false | c :: _ => sel =? c end); [right; exists i, f, f'; auto|apply IH].
Qed.
Lemma choice_fields_more : forall cs cs' d d', Forall2 (fun a b => fst a = fst b /\ more_option more_field (snd a) (snd b)) cs cs' -> more_option more_field d d' ->
  Forall2 more_field (choice_fields cs d) (choice_fields cs' d').
Proof.
  intros cs cs' d d' H Hd. unfold choice_fields. apply Forall2_app; [|destruct Hd; repeat constructor; assumption].
  induction H as [|[l o] [l' o'] cs cs' [Hl Ho] H IH]; cbn [flat_map snd] in *; [constructor|]. apply Forall2_app; [|exact IH]. destruct Ho; repeat constructor; assumption.
Qed.
Lemma cases_more : forall cs cs', Forall2 (fun a b : list Z * option field => fst a = fst b /\ more_option more_field (snd a) (snd b)) cs cs' -> has_cases cs = has_cases cs'.
Proof. intros cs cs' H. now destruct H. Qed.
Lemma nth_more : forall fs fs' i, Forall2 more_field fs fs' ->
  (nth_error fs i = None /\ nth_error fs' i = None) \/ exists f f', nth_error fs i = Some f /\ nth_error fs' i = Some f' /\ more_field f f'.
Proof.
  intros fs fs' i H. revert i. induction H as [|f f' fs fs' Hf H IH]; intros [|i]; cbn; [now left|now left|right; exists f, f'; auto|apply IH].
Qed.

Lemma length_more : forall fs fs', Forall2 more_field fs fs' -> length fs = length fs'.
Proof. intros fs fs' H. induction H; cbn; congruence. Qed.

Theorem run_more : forall S S', more_schema S S' -> forall fuel, methods_under (run S fuel) (run S' fuel).
Proof.
  intros S S' HS. assert (N : forall id, (nth_error S id = None /\ nth_error S' id = None) \/
    exists d d', nth_error S id = Some d /\ nth_error S' id = Some d' /\ more_def d d').
  { intros id. revert id. induction HS as [|d d' S S' Hd HS IH]; intros [|id]; cbn; [now left|now left|right; exists d, d'; auto|apply IH]. }
  induction fuel as [|fuel IH].
  - constructor; intros; first [reflexivity | apply under_refl].
  - set (M := run S fuel) in *. set (M' := run S' fuel) in *. cbn [run]. fold M M'.
    constructor; cbn [m_marshal m_unmarshal m_create m_init m_pmarshal m_punmarshal]; unfold of_def; intros id;
      (destruct (N id) as [[ -> -> ] |(d & d' & -> & -> & Hd)]; [intros; first [reflexivity | apply under_refl]|]).
    + intros ps v. destruct Hd as [t t' Ht|fs fs' Hf|s cs cs' e e' Hc He|fs fs' Hf]; cbn [marshal_def].
      * now apply write_basic_more.
      * destruct v; try apply under_refl. generalize (mkE ps slots) as E, 0%nat as i. intros E.
        induction Hf as [|f f' fs fs' Hf _ IHf]; intros i; cbn [write_fields]; [apply under_refl|].
        apply under_wbind; [now apply write_field_more|intros _; apply IHf].
      * destruct v; try apply under_refl. destruct (s ps) as [sel|]; [|apply under_refl].
        destruct (select_more cs cs' e e' Hc He sel 0) as [[ -> -> ] |(j & f & f' & -> & -> & Hf)]; [apply under_refl|now apply write_field_more].
      * destruct v; try apply under_refl. apply under_wbind; [apply under_refl|intros _]. destruct (tag <? 1); [apply under_refl|].
        destruct (nth_more fs fs' (Z.to_nat (tag - 1)) Hf) as [[ -> -> ] |(f & f' & -> & -> & Hf')]; [apply under_refl|now apply write_field_more].
    + intros ps. destruct Hd as [t t' Ht|fs fs' Hf|s cs cs' e e' Hc He|fs fs' Hf]; cbn [unmarshal_def].
      * now apply read_basic_more.
      * apply under_rbind; [|intros; apply under_refl]. generalize (@nil (option value)) as done.
        induction Hf as [|f f' fs fs' Hf H' IHf]; intros done; cbn [read_fields]; [apply under_refl|].
        cbn [length]. rewrite (length_more fs fs' H'). apply under_rbind; [now apply read_field_more|intros; apply IHf].
      * rewrite (length_more _ _ (choice_fields_more cs cs' e e' Hc He)). destruct (s ps) as [sel|]; [|apply under_refl].
        destruct (select_more cs cs' e e' Hc He sel 0) as [[ -> -> ] |(j & f & f' & -> & -> & Hf)]; [apply under_refl|].
        apply under_rbind; [now apply read_field_more|intros; apply under_refl].
      * rewrite (length_more _ _ Hf). apply under_rbind; [apply under_refl|intros tag]. destruct (tag <? 1); [apply under_refl|].
        destruct (nth_more fs fs' (Z.to_nat (tag - 1)) Hf) as [[ -> -> ] |(f & f' & -> & -> & Hf')]; [apply under_refl|].
        apply under_rbind; [now apply read_field_more|intros; apply under_refl].
    + intros n. destruct Hd as [t t' Ht|fs fs' Hf|s cs cs' e e' Hc He|fs fs' Hf]; cbn [create_def].
      * reflexivity.
      * now apply create_fields_more.
      * apply create_fields_more; [exact IH|now apply choice_fields_more].
      * now apply create_fields_more.
    + intros ps v. destruct Hd as [t t' Ht|fs fs' Hf|s cs cs' e e' Hc He|fs fs' Hf]; cbn [init_def].
      * now apply init_delta_more.
      * destruct v; try apply under_refl. generalize (mkE ps slots) as E, 0%nat as i. intros E.
        induction Hf as [|f f' fs fs' Hf _ IHf]; intros i; cbn [init_fields]; [apply under_refl|].
        apply under_bind; [apply under_node_child; now apply init_field_more|intros _; apply IHf].
      * destruct v; try apply under_refl. rewrite (cases_more cs cs' Hc). apply under_if; [|apply under_refl]. destruct (s ps) as [sel|]; [|apply under_refl].
        destruct (select_more cs cs' e e' Hc He sel 0) as [[ -> -> ] |(j & f & f' & -> & -> & Hf)]; [apply under_refl|].
        rewrite (length_more _ _ (choice_fields_more cs cs' None None Hc (MO_none _))). apply under_if.
        -- apply under_node_child. now apply init_field_more.
        -- intros n. right. now apply create_field_more.
      * apply under_refl.
    + intros ps v. destruct Hd as [t t' Ht|fs fs' Hf|s cs cs' e e' Hc He|fs fs' Hf]; cbn [pmarshal_def].
      * destruct (codec_more (mkE [] []) t t' Ht) as [ -> | -> ]; [apply under_panic|apply under_refl].
      * destruct v; try apply under_refl. generalize (mkE ps slots) as E, 0%nat as i. intros E.
        induction Hf as [|f f' fs fs' Hf _ IHf]; intros i; cbn [pwrite_fields]; [apply under_refl|].
        apply under_bind; [apply under_child; now apply pwrite_field_more|intros _; apply IHf].
      * destruct v; try apply under_refl. rewrite (cases_more cs cs' Hc). apply under_if; [|apply under_refl]. destruct (s ps) as [sel|]; [|apply under_refl].
        destruct (select_more cs cs' e e' Hc He sel 0) as [[ -> -> ] |(j & f & f' & -> & -> & Hf)]; [apply under_refl|].
        apply under_child. now apply pwrite_field_more.
      * apply under_refl.
    + intros ps. destruct Hd as [t t' Ht|fs fs' Hf|s cs cs' e e' Hc He|fs fs' Hf]; cbn [punmarshal_def].
      * destruct (codec_more (mkE [] []) t t' Ht) as [ -> | -> ]; [apply under_panic|apply under_refl].
      * apply under_bind; [|intros; apply under_refl]. generalize (@nil (option value)) as done.
        induction Hf as [|f f' fs fs' Hf H' IHf]; intros done; cbn [pread_fields]; [apply under_refl|].
        cbn [length]. rewrite (length_more fs fs' H'). apply under_bind; [apply under_child; now apply pread_field_more|intros; apply IHf].
      * rewrite (length_more _ _ (choice_fields_more cs cs' e e' Hc He)), (cases_more cs cs' Hc). apply under_if; [|apply under_refl]. destruct (s ps) as [sel|]; [|apply under_refl].
        destruct (select_more cs cs' e e' Hc He sel 0) as [[ -> -> ] |(j & f & f' & -> & -> & Hf)]; [apply under_refl|].
        apply under_bind; [apply under_child; now apply pread_field_more|intros; apply under_refl].
      * rewrite (length_more _ _ Hf). apply under_refl.
Qed.

Theorem roundtrips_more : forall S S' fuel id ps v enc, more_schema S S' ->
  roundtrips_at (MarshalZserio S fuel id ps v) (UnmarshalZserio S fuel id ps) enc v ->
  roundtrips_at (MarshalZserio S' fuel id ps v) (UnmarshalZserio S' fuel id ps) enc v.
Proof.
  intros S S' fuel id ps v enc H [W R]. pose proof (run_more S S' H fuel) as U. split.
  - intros w Hw. pose proof (W w Hw) as E. destruct (mu_marshal _ _ U id ps v w) as [P|P]; unfold MarshalZserio in *; [|congruence].
    rewrite E in P. discriminate.
  - intros pos rest. pose proof (R pos rest) as E. destruct (mu_unmarshal _ _ U id ps (mkR pos (enc pos ++ rest))) as [P|P]; unfold UnmarshalZserio in *; [|congruence].
    rewrite E in P. discriminate.
Qed.
