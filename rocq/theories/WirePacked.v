(** Objects as part of packed arrays. *)

Require Import ZArith List Bool Lia ZifyBool ZifyNat.
From Verif Require Import Bits BitsFacts Stream Spec PosSpec StreamFacts StreamThms Scalars ScalarFacts ScalarThms
  Traits TraitSpec TraitFacts Delta DeltaSpec DeltaFacts PosFacts Array ArraySpec ArrayFacts Schema SchemaSpec
  SchemaFacts SchemaPlain SchemaObjects WireSpec WireScalars WireColumns WireFacts.
Import ListNotations.
Open Scope Z_scope.

Lemma packable_column : forall t, packable t = has_column t.
Proof. intros [b|s g w]; [destruct b|]; reflexivity. Qed.

(** ** Effects *)

Lemma effect_nil : forall R w i b, (forall x, pencodes w x x pnil) -> (b = true -> forall x, i x = (x, Ok tt)) ->
  effect R w i b [].
Proof.
  intros R w i b Hw Hi. split.
  - intros x st Hx _. exists x. split; [apply Hw|exact Hx].
  - intros Hb x st Hx. exists x. split; [now apply Hi|exact Hx].
Qed.

Lemma effect_seq : forall R w1 i1 w2 i2 b l1 l2, effect R w1 i1 b l1 -> effect R w2 i2 b l2 ->
  effect R (w1 ;;s w2)%prog (i1 ;;s i2)%prog b (l1 ++ l2).
Proof.
  intros R w1 i1 w2 i2 b l1 l2 [W1 I1] [W2 I2]. split.
  - intros x st Hx Hg. destruct (W1 x st Hx Hg) as (x1 & E1 & Hx1).
    destruct (W2 x1 _ Hx1 (run_goods l1 st Hg)) as (x2 & E2 & Hx2). exists x2. rewrite run_state_app. split; [|exact Hx2].
    eapply pencodes_ext; [intros p; symmetry; apply run_out_app|]. eapply pencodes_bind; eassumption.
  - intros Hb x st Hx. destruct (I1 Hb x st Hx) as (x1 & E1 & Hx1). destruct (I2 Hb x1 _ Hx1) as (x2 & E2 & Hx2).
    exists x2. rewrite init_state_app. split; [|exact Hx2]. unfold sbind. now rewrite E1.
Qed.

Lemma effect_raw : forall R (m : writer unit) e w i b l, encodes_at m e -> effect R w i b l ->
  effect R (on_stream m ;;s w)%prog i b (Raw e :: l).
Proof.
  intros R m e w i b l Hm [W I]. split; [|exact I].
  intros x st Hx Hg. destruct (W x st Hx Hg) as (x1 & E1 & Hx1). exists x1. split; [|exact Hx1].
  cbn [run_out]. eapply pencodes_bind; [|exact E1]. now apply pencodes_stream.
Qed.

Lemma effect_one : forall R (m : writer unit) e b, encodes_at m e -> effect R (on_stream m) (sret tt) b [Raw e].
Proof.
  intros R m e b Hm. split.
  - intros x st Hx _. exists x. split; [|exact Hx]. cbn [run_out].
    eapply pencodes_ext; [intros p; symmetry; apply papp_nil_r|]. now apply pencodes_stream.
  - intros _ x st Hx. exists x. split; [reflexivity|exact Hx].
Qed.

Definition own (x : node) (st : store) : Prop := exists ch, x = Node (Some (st [])) ch.

Lemma effect_cell : forall E t b v counted, basic_value E t v -> has_codec E t -> builtin_of E t = Some b ->
  integer_like b -> exists c, cell_of counted E t v = Some c /\ cell_ok c /\ c_counted c = counted /\
    effect own (match codec_of E t with Ok T => on_delta (d_write T v) | _ => lift Panic end) (init_delta E t v)
      counted [Cell [] c].
Proof.
  intros E t b v counted Hv Hc Hb Hi.
  destruct (element_cell counted E t b v Hv Hb Hi) as (c & H1 & H2 & _ & H3 & H4 & H5 & H6). exists c.
  split; [exact H1|]. split; [exact H6|]. split; [exact H2|]. unfold init_delta. rewrite (codec_ok E t b Hc Hb). split.
  - intros x st (ch & ->) Hg. exists (Node (Some (next_ctx cellT (st []) c)) ch). split.
    + cbn [run_out]. eapply pencodes_ext; [intros p; symmetry; apply papp_nil_r|]. intros w Hw. unfold on_delta.
      now rewrite (cell_write (vtraits b) v c (st []) H3 H4 (Hg []) w Hw).
    + exists ch. cbn [run_state]. unfold upd. now rewrite path_eqb_refl.
  - intros Hct x st (ch & ->). exists (Node (Some (inited c (st []))) ch). cbn [obind].
    rewrite (cell_init (vtraits b) v c (st []) H5 H4). split; [reflexivity|]. exists ch. cbn [init_state].
    rewrite H2, Hct. unfold upd. now rewrite path_eqb_refl.
Qed.

(** ** Nodes *)

Definition field_node (H : nat -> node -> store -> Prop) (f : field) (y : node) (st : store) : Prop :=
  match f_array f, f_type f with
  | Some _, _ => True
  | None, TBasic t => if packable t then own y st else True
  | None, TRef id _ => H id y st
  end.
Definition fields_node (H : nat -> node -> store -> Prop) (fs : list field) (x : node) (st : store) : Prop :=
  exists c ch, x = Node c ch /\
    forall i f, nth_error fs i = Some f -> exists y, nth_error ch i = Some y /\ field_node H f y (below st i).
Fixpoint shaped (S : schema) (n : nat) (id : nat) (x : node) (st : store) : Prop :=
  match n with
  | O => False
  | Datatypes.S n' => exists d, nth_error S id = Some d /\
      match d with
      | DScalar _ => own x st
      | _ => fields_node (shaped S n') (fields_of d) x st
      end
  end.

Definition extensional (H : nat -> node -> store -> Prop) : Prop :=
  forall id x st st', same st st' -> H id x st -> H id x st'.

Lemma own_ext : forall x st st', same st st' -> own x st -> own x st'.
Proof. intros x st st' Hs (ch & ->). exists ch. now rewrite (Hs []). Qed.
Lemma field_node_ext : forall H f y st st', extensional H -> same st st' -> field_node H f y st -> field_node H f y st'.
Proof.
  intros H f y st st' HE Hs. unfold field_node. destruct (f_array f); [auto|]. destruct (f_type f) as [t|id args].
  - destruct (packable t); [|auto]. now apply own_ext.
  - now apply HE.
Qed.
Lemma fields_node_ext : forall H fs x st st', extensional H -> same st st' -> fields_node H fs x st -> fields_node H fs x st'.
Proof.
  intros H fs x st st' HE Hs (c & ch & -> & Hk). exists c, ch. split; [reflexivity|]. intros i f Hf.
  destruct (Hk i f Hf) as (y & Hy & Hn). exists y. split; [exact Hy|].
  eapply field_node_ext; [exact HE| |exact Hn]. intros p. apply (Hs (i :: p)).
Qed.
Lemma shaped_ext : forall S n, extensional (shaped S n).
Proof.
  intros S. induction n as [|n IH]; intros id x st st' Hs Hx; [exact Hx|]. destruct Hx as (d & Hd & Hx). exists d.
  split; [exact Hd|]. destruct d; [now apply (own_ext x st)|..]; now apply (fields_node_ext _ _ x st).
Qed.

Lemma shaped_finite : forall S n id x st, shaped S n id x st -> finite S n id.
Proof.
  intros S. induction n as [|n IH]; intros id x st Hx; [exact Hx|]. destruct Hx as (d & Hd & Hx). exists d.
  split; [exact Hd|]. intros f Hin Ha.
  assert (Hf : fields_node (shaped S n) (fields_of d) x st) by (destruct d; [destruct Hin|exact Hx..]).
  destruct Hf as (c & ch & -> & Hk). apply In_nth_error in Hin as [i Hi]. destruct (Hk i f Hi) as (y & _ & Hn).
  unfold field_node in Hn. rewrite Ha in Hn. destruct (f_type f); [exact I|]. eapply IH, Hn.
Qed.

Lemma update_eq : forall {A} (l : list A) i y y', nth_error l i = Some y -> nth_error (update i y' l) i = Some y'.
Proof. induction l as [|a l IH]; intros [|i] y y' H; try discriminate; [reflexivity|]. cbn in *. eapply IH, H. Qed.
Lemma update_neq : forall {A} (l : list A) i j y', i <> j -> nth_error (update i y' l) j = nth_error l j.
Proof.
  induction l as [|a l IH]; intros [|i] [|j] y' H; cbn [update nth_error]; try reflexivity; try congruence.
  - apply IH. congruence.
Qed.

(** The node of one field changes, the others do not. *)
Lemma child_effect : forall H fs k f w i b l, extensional H -> nth_error fs k = Some f ->
  effect (field_node H f) w i b l -> effect (fields_node H fs) (on_child k w) (child k i) b (map (under k) l).
Proof.
  intros H fs k f w i b l HE Hf [W I].
  assert (Keep : forall c ch st st' y', (forall j g, nth_error fs j = Some g ->
      exists y, nth_error ch j = Some y /\ field_node H g y (below st j)) ->
    (forall q, (forall r, q <> k :: r) -> st' q = st q) -> field_node H f y' (below st' k) ->
    fields_node H fs (Node c (update k y' ch)) st').
  { intros c ch st st' y' Hk Ho Hy'. exists c, (update k y' ch). split; [reflexivity|]. intros j g Hg.
    destruct (Nat.eq_dec k j) as [<-|Hne].
    - rewrite Hf in Hg. injection Hg as <-. destruct (Hk k f Hf) as (y & Hy & _). exists y'.
      split; [now apply (update_eq ch k y)|exact Hy'].
    - destruct (Hk j g Hg) as (y & Hy & Hn). exists y. rewrite update_neq by exact Hne. split; [exact Hy|].
      eapply field_node_ext; [exact HE| |exact Hn]. intros p. unfold below. symmetry. apply Ho. intros r. congruence. }
  split.
  - intros x st (c & ch & -> & Hk) Hg. destruct (Hk k f Hf) as (y & Hy & Hn).
    destruct (W y _ Hn (goods_below st k Hg)) as (y' & E1 & Hn'). exists (Node c (update k y' ch)). split.
    + eapply pencodes_ext; [intros p; symmetry; apply run_out_under|]. intros s Hs. unfold on_child.
      now rewrite Hy, (E1 s Hs).
    + eapply Keep; [exact Hk|intros q Hq; now apply run_state_other|].
      eapply field_node_ext; [exact HE| |exact Hn']. intros p. symmetry. apply run_state_under.
  - intros Hb x st (c & ch & -> & Hk). destruct (Hk k f Hf) as (y & Hy & Hn).
    destruct (I Hb y _ Hn) as (y' & E1 & Hn'). exists (Node c (update k y' ch)). split.
    + unfold child, run_node, on_child, at_node. rewrite Hy. cbn [fst]. now rewrite E1.
    + eapply Keep; [exact Hk|intros q Hq; now apply init_state_other|].
      eapply field_node_ext; [exact HE| |exact Hn']. intros p. symmetry. apply init_state_under.
Qed.

(** ** Which columns are counted *)

Definition field_mark (K : bool -> nat -> path -> bool) (f : field) (b : bool) (p : path) : bool :=
  match f_array f, f_type f with
  | None, TRef id _ => K b id p
  | _, _ => b
  end.
Definition def_mark (K : bool -> nat -> path -> bool) (d : def) (b : bool) (p : path) : bool :=
  match p with
  | [] => b
  | i :: p' =>
      match nth_error (fields_of d) i with
      | None => b
      | Some f => field_mark K f (match d with DChoice _ cases _ => b && negb (is_default i cases) | _ => b end) p'
      end
  end.
Fixpoint mark (S : schema) (n : nat) (b : bool) (id : nat) (p : path) : bool :=
  match n with
  | O => b
  | Datatypes.S n' => match nth_error S id with Some d => def_mark (mark S n') d b p | None => b end
  end.
Lemma field_mark_false : forall K f p, (forall id p, K false id p = false) -> field_mark K f false p = false.
Proof. intros K f p H. unfold field_mark. destruct (f_array f); [reflexivity|]. destruct (f_type f); auto. Qed.
Lemma mark_false : forall S n id p, mark S n false id p = false.
Proof.
  intros S. induction n as [|n IH]; intros id p; [reflexivity|]. cbn [mark]. destruct (nth_error S id) as [d|]; [|reflexivity].
  unfold def_mark. destruct p as [|i p]; [reflexivity|]. destruct (nth_error (fields_of d) i) as [f|]; [|reflexivity].
  destruct d; apply field_mark_false; exact IH.
Qed.

Lemma labelled_nil : forall K, labelled K [].
Proof. intros K p c []. Qed.
Lemma labelled_raw : forall K e l, labelled K l -> labelled K (Raw e :: l).
Proof. intros K e l H p c [E|E]; [discriminate|now apply H]. Qed.
Lemma cells_raw : forall e l, cells_ok l -> cells_ok (Raw e :: l).
Proof. intros e l H p c [E|E]; [discriminate|now apply (H p)]. Qed.
Lemma cells_nil : cells_ok [].
Proof. intros p c []. Qed.
Lemma in_under : forall i l p c, In (Cell p c) (map (under i) l) -> exists p', p = i :: p' /\ In (Cell p' c) l.
Proof.
  intros i l p c H. apply in_map_iff in H as ([e|q c'] & E & H); [discriminate|]. cbn in E. injection E as <- <-. eauto.
Qed.
Lemma cells_under : forall i l, cells_ok l -> cells_ok (map (under i) l).
Proof. intros i l H p c Hin. apply in_under in Hin as (p' & _ & Hin). now apply (H p'). Qed.
Lemma cells_app : forall l1 l2, cells_ok l1 -> cells_ok l2 -> cells_ok (l1 ++ l2).
Proof. intros l1 l2 H1 H2 p c H. apply in_app_or in H as [H|H]; [now apply (H1 p)|now apply (H2 p)]. Qed.
Lemma labelled_app : forall K l1 l2, labelled K l1 -> labelled K l2 -> labelled K (l1 ++ l2).
Proof. intros K l1 l2 H1 H2 p c H. apply in_app_or in H as [H|H]; [now apply H1|now apply H2]. Qed.

(** ** Fields *)

Definition init_content (M : methods) (E : env) (f : field) (v : value) : prog node unit :=
  match f_array f, f_type f with
  | Some _, _ => sret tt
  | None, TBasic t => if packable t then init_delta E t v else sret tt
  | None, TRef id args => match args E 0%nat with Some ps => m_init M id ps v | None => lift Panic end
  end.

Lemma content_effect : forall M F ok fin H K E f v b, plain_wires M F ok -> parts_wire M F ok fin H K ->
  valid_content ok fin true E f v ->
  exists l, content_parts F b E f v = Some l /\ cells_ok l /\ labelled (field_mark K f b) l /\
    effect (field_node H f) (pwrite_content M E f v) (init_content M E f v) b l.
Proof.
  intros M F ok fin H K E f v b HP HQ Hv. unfold content_parts, pwrite_content, init_content, field_mark.
  destruct (f_array f) as [[len packed]|] eqn:Hf.
  - pose proof Hv as Hv0. unfold valid_content in Hv0. rewrite Hf in Hv0. destruct Hv0 as (es & -> & _ & _).
    destruct (array_wire M F ok fin H K E f len packed true es HP HQ Hf Hv) as (enc & H1 & H2).
    rewrite orb_true_r in H1, H2. rewrite H1. eexists. split; [reflexivity|].
    split; [apply cells_raw, cells_nil|]. split; [apply labelled_raw, labelled_nil|]. now apply effect_one.
  - unfold valid_content in Hv. rewrite Hf in Hv.
    assert (HN : field_node H f = match f_type f with
        | TBasic t => fun y st => if packable t then own y st else True
        | TRef id _ => H id
        end).
    { unfold field_node. rewrite Hf. now destruct (f_type f). }
    rewrite HN. clear HN. destruct (f_type f) as [t|id args].
    + destruct Hv as [Hv Hc]. rewrite <- packable_column. destruct (packable t) eqn:Ep.
      * specialize (Hc eq_refl eq_refl).
        assert (Hb : exists b0, builtin_of E t = Some b0).
        { destruct Hv as (b0 & e & Hb & _). eauto. }
        destruct Hb as [b0 Hb].
        destruct (effect_cell E t b0 v b Hv Hc Hb (packable_integral E t b0 Ep Hb)) as (c & C1 & C2 & C3 & C4).
        rewrite C1. eexists. split; [reflexivity|]. split; [|split; [|exact C4]].
        -- intros p c' [E1|[]]. injection E1 as _ <-. exact C2.
        -- intros p c' [E1|[]]. injection E1 as _ <-. exact C3.
      * destruct (basic_wire E t v Hv) as (bs & H1 & H2). rewrite H1. eexists. split; [reflexivity|].
        split; [apply cells_raw, cells_nil|]. split; [apply labelled_raw, labelled_nil|]. apply effect_one. now apply encodes_pfix.
    + destruct Hv as (ps & Ha & Hok). rewrite Ha. exact (proj2 HQ b id ps v Hok).
Qed.

Lemma field_effect : forall M F ok fin H K E f slot b, plain_wires M F ok -> parts_wire M F ok fin H K ->
  valid_field ok fin true E f slot ->
  exists l, field_parts F b E f slot = Some l /\ cells_ok l /\ labelled (field_mark K f b) l /\
    effect (field_node H f) (pwrite_field M E f slot) (init_field M E f slot) b l.
Proof.
  intros M F ok fin H K E f slot b HP HQ (_ & stored & Hin & Hv). unfold field_parts, pwrite_field.
  change (present E f) with (included E f). rewrite Hin. destruct stored.
  - destruct (align_opt_at (f_align f)) as [A1 _]. change (align_format (f_align f)) with (align_bits (f_align f)).
    destruct slot as [v|].
    + assert (Hi : init_field M E f (Some v) = init_content M E f v).
      { unfold init_field, init_content. rewrite Hin. destruct (f_array f); [reflexivity|].
        destruct (f_type f) as [t|id args]; [|reflexivity]. now destruct (packable t). }
      rewrite Hi. destruct (content_effect M F ok fin H K E f v b HP HQ Hv) as (l & L1 & L2 & L3 & L4). rewrite L1.
      destruct (f_optional f); cbn [is_some option_map]; (eexists; split; [reflexivity|]).
      * split; [now apply cells_raw, cells_raw|]. split; [now apply labelled_raw, labelled_raw|].
        apply effect_raw; [apply bool_at|]. now apply effect_raw.
      * split; [now apply cells_raw|]. split; [now apply labelled_raw|]. now apply effect_raw.
    + rewrite Hv. cbn [is_some]. eexists. split; [reflexivity|]. split; [apply cells_raw, cells_nil|].
      split; [apply labelled_raw, labelled_nil|]. apply effect_raw; [apply bool_at|].
      apply effect_nil; [intros x; apply pencodes_ret|]. intros _ x. unfold init_field. rewrite Hin, Hv.
      destruct (f_array f); [reflexivity|]. destruct (f_type f) as [t|id args]; [|reflexivity]. now destruct (packable t).
  - eexists. split; [reflexivity|]. split; [apply cells_nil|]. split; [apply labelled_nil|].
    apply effect_nil; [intros x; apply pencodes_ret|]. intros _ x. unfold init_field. rewrite Hin.
    destruct (f_array f); [reflexivity|]. destruct (f_type f) as [t|id args]; [|reflexivity]. now destruct (packable t).
Qed.

(** ** Structs *)

Lemma struct_effect : forall M F ok fin H K ps slots all b, plain_wires M F ok -> parts_wire M F ok fin H K ->
  extensional H -> forall fs k, (forall i f, nth_error fs i = Some f -> nth_error all (k + i)%nat = Some f) ->
  (forall i f, nth_error fs i = Some f -> valid_field ok fin true (mkE ps slots) f (nth_slot (k + i) slots)) ->
  exists ls, all_some (map (fun x => option_map (map (under (fst x)))
                              (field_parts F b (mkE ps slots) (snd x) (slot_of (fst x) slots)))
                          (combine (seq k (length fs)) fs)) = Some ls /\
    cells_ok (concat ls) /\ labelled (def_mark K (DStruct all) b) (concat ls) /\
    effect (fields_node H all) (pwrite_fields M (mkE ps slots) k fs) (init_fields M (mkE ps slots) k fs) b (concat ls).
Proof.
  intros M F ok fin H K ps slots all b HP HQ HE. induction fs as [|f fs IH]; intros k Hall Hv.
  - exists []. split; [reflexivity|]. split; [apply cells_nil|]. split; [apply labelled_nil|].
    apply effect_nil; [intros x; apply pencodes_ret|reflexivity].
  - pose proof (Hv 0%nat f eq_refl) as Hf. pose proof (Hall 0%nat f eq_refl) as Hk. rewrite Nat.add_0_r in Hf, Hk.
    destruct (field_effect M F ok fin H K _ f _ b HP HQ Hf) as (l & L1 & L2 & L3 & L4).
    destruct (IH (S k)) as (ls & I1 & I2 & I3 & I4).
    { intros i g Hg. replace (S k + i)%nat with (k + S i)%nat by lia. now apply Hall. }
    { intros i g Hg. replace (S k + i)%nat with (k + S i)%nat by lia. now apply Hv. }
    exists (map (under k) l :: ls). cbn [length seq combine map all_some fst snd concat].
    rewrite slot_of_nth, L1. cbn [option_map]. rewrite I1. split; [reflexivity|].
    split; [now apply cells_app; [apply cells_under|]|]. split.
    + apply labelled_app; [|exact I3]. intros p c Hin. apply in_under in Hin as (p' & -> & Hin).
      unfold def_mark. cbn [fields_of]. rewrite Hk. now apply L3.
    + cbn [pwrite_fields init_fields e_slots]. apply effect_seq; [|exact I4]. now apply child_effect with (f := f).
Qed.

(** ** Creating contexts *)

Lemma create_nodes : forall S n M F K, parts_wire M F (valid S n) (finite S n) (shaped S n) K ->
  forall fs pre c ch, (forall f, In f fs -> f_array f = None ->
      match f_type f with TRef id' _ => finite S n id' | TBasic _ => True end) ->
    length ch = length pre ->
    (forall i f, nth_error pre i = Some f -> exists y, nth_error ch i = Some y /\ field_node (shaped S n) f y (fun _ => d_empty)) ->
    exists ch', create_fields M fs (Node c ch) = (Node c ch', Ok tt) /\
      forall i f, nth_error (pre ++ fs) i = Some f ->
        exists y, nth_error ch' i = Some y /\ field_node (shaped S n) f y (fun _ => d_empty).
Proof.
  intros S n M F K [HC _]. induction fs as [|f fs IH]; intros pre c ch Hfin Hl Hk.
  - exists ch. rewrite app_nil_r. split; [reflexivity|exact Hk].
  - assert (Hy : exists y, create_field M f (Node c ch) = (Node c (ch ++ [y]), Ok tt) /\
      field_node (shaped S n) f y (fun _ => d_empty)).
    { pose proof (Hfin f (or_introl eq_refl)) as Hf. unfold create_field, field_node.
      destruct (f_array f); [eexists; split; [reflexivity|exact I]|].
      destruct (f_type f) as [t|id args].
      - eexists. split; [reflexivity|]. destruct (packable t); [|exact I]. eexists. reflexivity.
      - destruct (HC id (Hf eq_refl)) as (y & H1 & H2). exists y. rewrite H1. auto. }
    destruct Hy as (y & H1 & H2).
    destruct (IH (pre ++ [f]) c (ch ++ [y])) as (ch' & H3 & H4).
    { intros g Hg. apply Hfin. now right. }
    { rewrite !app_length. cbn. lia. }
    { intros i g Hg. destruct (Nat.lt_ge_cases i (length pre)) as [Hlt|Hge].
      - rewrite nth_error_app1 in Hg by exact Hlt. destruct (Hk i g Hg) as (z & Hz & Hn). exists z.
        rewrite nth_error_app1 by lia. auto.
      - rewrite nth_error_app2 in Hg by exact Hge. destruct (i - length pre)%nat as [|j] eqn:Ej; [|destruct j; discriminate].
        injection Hg as <-. exists y. rewrite nth_error_app2 by lia. replace (i - length ch)%nat with 0%nat by lia. auto. }
    exists ch'. rewrite <- app_assoc in H4. split; [|exact H4]. cbn [create_fields]. unfold sbind. now rewrite H1.
Qed.

Lemma def_create : forall S n M F K id d, parts_wire M F (valid S n) (finite S n) (shaped S n) K ->
  nth_error S id = Some d -> finite S (Datatypes.S n) id ->
  exists x, create_def M d (Node None []) = (x, Ok tt) /\ shaped S (Datatypes.S n) id x (fun _ => d_empty).
Proof.
  intros S n M F K id d HQ Hd (d' & Hd' & Hfin). rewrite Hd in Hd'. injection Hd' as <-.
  assert (Hf : exists ch', create_fields M (fields_of d) (Node None []) = (Node None ch', Ok tt) /\
    fields_node (shaped S n) (fields_of d) (Node None ch') (fun _ => d_empty)).
  { destruct (create_nodes S n M F K HQ (fields_of d) [] None [] Hfin eq_refl) as (ch' & H1 & H2).
    - intros [|i] f; discriminate.
    - exists ch'. split; [exact H1|]. exists None, ch'. split; [reflexivity|exact H2]. }
  destruct Hf as (ch' & H1 & H2). cbn [shaped]. rewrite Hd. destruct d as [t|fs|selector cases default|fs]; cbn [create_def].
  - eexists. split; [reflexivity|]. eexists. split; [reflexivity|]. eexists. reflexivity.
  - eexists. split; [exact H1|]. eexists. split; [reflexivity|exact H2].
  - eexists. split; [exact H1|]. eexists. split; [reflexivity|exact H2].
  - eexists. split; [exact H1|]. eexists. split; [reflexivity|exact H2].
Qed.

(** ** Objects *)

Lemma uncounted_state : forall l st, (forall p c, In (Cell p c) l -> c_counted c = false) -> init_state st l = st.
Proof.
  induction l as [|[e|p c] l IH]; intros st Hl; cbn [init_state]; [reflexivity|apply IH; intros q d Hd; apply (Hl q); now right|].
  rewrite (Hl p c (or_introl eq_refl)). apply IH. intros q d Hd. apply (Hl q). now right.
Qed.

(** The default case of a choice: another node is added. *)
Lemma default_effect : forall S n M F K fs k f w i l, parts_wire M F (valid S n) (finite S n) (shaped S n) K ->
  nth_error fs k = Some f -> (forall id p, K false id p = false) -> labelled (field_mark K f false) l ->
  effect (field_node (shaped S n) f) w i false l -> forall b,
  effect (fields_node (shaped S n) fs) (on_child k w) (create_field M f) b (map (under k) l).
Proof.
  intros S n M F K fs k f w i l [HC _] Hf HK Hl He b.
  pose proof (child_effect (shaped S n) fs k f w i false l (shaped_ext S n) Hf He) as [W _]. split; [exact W|].
  intros _ x st (c & ch & -> & Hk).
  rewrite uncounted_state.
  2: { intros p q Hin. apply in_under in Hin as (p' & _ & Hin). rewrite (Hl p' q Hin). now apply field_mark_false. }
  assert (Hy : exists y, create_field M f (Node c ch) = (Node c (ch ++ [y]), Ok tt)).
  { unfold create_field. destruct (Hk k f Hf) as (y & _ & Hn). unfold field_node in Hn.
    destruct (f_array f); [eauto|]. destruct (f_type f) as [t|id args]; [eauto|].
    destruct (HC id (shaped_finite _ _ _ _ _ Hn)) as (z & H1 & _). exists z. now rewrite H1. }
  destruct Hy as (y & Hy). exists (Node c (ch ++ [y])). split; [exact Hy|]. exists c, (ch ++ [y]). split; [reflexivity|].
  intros j g Hg. destruct (Hk j g Hg) as (z & Hz & Hn). exists z. split; [|exact Hn].
  rewrite nth_error_app1; [exact Hz|]. apply nth_error_Some. congruence.
Qed.

Lemma shaped_effect : forall S n id d w i b l, nth_error S id = Some d ->
  effect (fun x st => match d with DScalar _ => own x st | _ => fields_node (shaped S n) (fields_of d) x st end) w i b l ->
  effect (shaped S (Datatypes.S n) id) w i b l.
Proof.
  intros S n id d w i b l Hd [W I]. split.
  - intros x st (d' & Hd' & Hx) Hg. rewrite Hd in Hd'. injection Hd' as <-. destruct (W x st Hx Hg) as (x' & H1 & H2).
    exists x'. split; [exact H1|]. exists d. auto.
  - intros Hb x st (d' & Hd' & Hx). rewrite Hd in Hd'. injection Hd' as <-. destruct (I Hb x st Hx) as (x' & H1 & H2).
    exists x'. split; [exact H1|]. exists d. auto.
Qed.

Lemma def_effect : forall S n M F K id d ps v b, plain_wires M F (valid S n) ->
  parts_wire M F (valid S n) (finite S n) (shaped S n) K -> (forall id p, K false id p = false) ->
  nth_error S id = Some d -> valid S (Datatypes.S n) true id ps v ->
  exists l, def_parts F b d ps v = Some l /\ cells_ok l /\ labelled (def_mark K d b) l /\
    effect (shaped S (Datatypes.S n) id) (pmarshal_def M d ps v) (init_def M d ps v) b l.
Proof.
  intros S n M F K id d ps v b HP HQ HK Hd Hv. destruct Hv as (d' & Hd' & Hv). rewrite Hd in Hd'. injection Hd' as <-.
  enough (Hsuff : exists l, def_parts F b d ps v = Some l /\ cells_ok l /\ labelled (def_mark K d b) l /\
    effect (fun x st => match d with DScalar _ => own x st | _ => fields_node (shaped S n) (fields_of d) x st end)
      (pmarshal_def M d ps v) (init_def M d ps v) b l).
  { destruct Hsuff as (l & L1 & L2 & L3 & L4). exists l. split; [exact L1|]. split; [exact L2|]. split; [exact L3|].
    now apply shaped_effect with (d := d). }
  destruct d as [t|fs|selector cases default|fs]; cbn [pmarshal_def init_def def_parts].
  - destruct Hv as [Hv Hc]. destruct (Hc eq_refl) as [Hc1 Hc2].
    assert (Hb : exists b0, builtin_of (mkE [] []) t = Some b0).
    { destruct Hv as (b0 & e & Hb & _). eauto. }
    destruct Hb as [b0 Hb].
    destruct (effect_cell (mkE [] []) t b0 v b Hv Hc1 Hb (Hc2 b0 Hb)) as (c & C1 & C2 & C3 & C4). rewrite C1.
    eexists. split; [reflexivity|]. split; [|split; [|exact C4]].
    + intros p c' [E1|[]]. injection E1 as _ <-. exact C2.
    + intros p c' [E1|[]]. injection E1 as <- <-. exact C3.
  - destruct Hv as (slots & -> & _ & Hv).
    destruct (struct_effect M F (valid S n) (finite S n) (shaped S n) K ps slots fs b HP HQ (shaped_ext S n) fs 0
      ltac:(auto) Hv) as (ls & L1 & L2 & L3 & L4).
    unfold indexed. rewrite L1. eexists. split; [reflexivity|]. split; [exact L2|]. split; [exact L3|exact L4].
  - destruct Hv as (slots & sel & -> & _ & Hsel & Hcs & Hv). rewrite Hsel, <- select_eq.
    assert (has_cases cases = true) as -> by (destruct cases; [now destruct (Hcs eq_refl)|reflexivity]).
    destruct (select sel 0 cases default) as [[i f]|] eqn:Es.
    + destruct Hv as [_ Hv]. pose proof (select_nth sel cases default i f Es) as Hn. rewrite slot_of_nth.
      set (b' := b && negb (is_default i cases)) in *.
      destruct (field_effect M F (valid S n) (finite S n) (shaped S n) K _ f _ b' HP HQ Hv) as (l & L1 & L2 & L3 & L4).
      rewrite L1. eexists. split; [reflexivity|]. split; [now apply cells_under|]. split.
      * intros p c Hin. apply in_under in Hin as (p' & -> & Hin). unfold def_mark. cbn [fields_of]. rewrite Hn.
        apply (L3 p' c Hin).
      * assert (Hi : is_default i cases = negb (i <? length (choice_fields cases None))%nat).
        { unfold is_default. rewrite <- branches_length.
          assert (i < length (choice_fields cases default))%nat by (apply nth_error_Some; congruence).
          rewrite choice_fields_length in H. destruct default; lia. }
        subst b'. rewrite Hi, negb_involutive in *. destruct (i <? length (choice_fields cases None))%nat.
        -- rewrite andb_true_r in *. apply child_effect with (f := f); [apply shaped_ext|exact Hn|exact L4].
        -- rewrite andb_false_r in *. now apply (default_effect S n M F K (choice_fields cases default) i f _ _ l HQ Hn HK L3 L4).
    + eexists. split; [reflexivity|]. split; [apply cells_nil|]. split; [apply labelled_nil|].
      apply effect_nil; [intros x; apply pencodes_ret|reflexivity].
  - destruct Hv as [Hv _]. discriminate.
Qed.

(** ** All types *)

Lemma levels_wire : forall S n fuel, (n <= fuel)%nat ->
  plain_wires (run S fuel) (formats_of S n) (valid S n) /\
  parts_wire (run S fuel) (formats_of S n) (valid S n) (finite S n) (shaped S n) (mark S n).
Proof.
  intros S. induction n as [|n IH]; intros fuel Hf.
  - split; [intros id ps v []|]. split; [intros id []|intros b id ps v []].
  - destruct fuel as [|fuel]; [lia|]. destruct (IH fuel ltac:(lia)) as [HP HQ]. split; [|split].
    + intros id ps v Hv. pose proof Hv as (d & Hd & _).
      destruct (def_wire S n _ _ _ _ id d ps v HP HQ Hd Hv) as (enc & H1 & H2). exists enc.
      cbn [run m_marshal formats_of plain]. unfold of_def. rewrite Hd. auto.
    + intros id Hfin. pose proof Hfin as (d & Hd & _). cbn [run m_create]. unfold of_def. rewrite Hd.
      eapply def_create; eassumption.
    + intros b id ps v Hv. pose proof Hv as (d & Hd & _).
      destruct (def_effect S n _ _ _ id d ps v b HP HQ (mark_false S n) Hd Hv) as (l & L1 & L2 & L3 & L4). exists l.
      cbn [formats_of parts mark run m_pmarshal m_init]. unfold of_def. rewrite Hd. auto.
Qed.

Lemma encodes_at_unique : forall m e1 e2, encodes_at m e1 -> encodes_at m e2 -> forall pos, e1 pos = e2 pos.
Proof.
  intros m e1 e2 H1 H2 pos. pose proof (H1 (mkW (repeat false pos) []) eq_refl) as E1.
  rewrite (H2 (mkW (repeat false pos) []) eq_refl) in E1. cbn [wbits] in E1. rewrite repeat_length in E1.
  injection E1 as E1. now apply app_inv_head in E1.
Qed.

Theorem wire_written : forall S n id ps v, valid S n false id ps v ->
  exists enc, wire_format S n id ps v = Some enc /\
    forall fuel, (n <= fuel)%nat -> encodes_at (MarshalZserio S fuel id ps v) enc.
Proof.
  intros S n id ps v Hv.
  destruct (proj1 (levels_wire S n n (le_n n)) id ps v Hv) as (enc & H1 & _). exists enc. split; [exact H1|].
  intros fuel Hf. destruct (proj1 (levels_wire S n fuel Hf) id ps v Hv) as (enc' & H1' & H2').
  rewrite H1 in H1'. injection H1' as <-. exact H2'.
Qed.

Theorem wire_roundtrip : forall S n id ps v, causal S -> valid S n false id ps v ->
  exists enc, wire_format S n id ps v = Some enc /\
    forall fuel, (n <= fuel)%nat ->
      roundtrips_at (MarshalZserio S fuel id ps v) (UnmarshalZserio S fuel id ps) enc v.
Proof.
  intros S n id ps v HC Hv. destruct (wire_written S n id ps v Hv) as (enc & H1 & H2). exists enc. split; [exact H1|].
  destruct (schema_roundtrip S n id ps v HC Hv) as (enc' & H3). intros fuel Hf. split; [now apply H2|].
  destruct (H3 fuel Hf) as [W R]. eapply decodes_at_ext; [|exact R]. intros p.
  eapply encodes_at_unique; [exact W|now apply H2].
Qed.

Theorem wire_distinct : forall S n id ps v v' enc enc' pos, causal S ->
  valid S n false id ps v -> valid S n false id ps v' ->
  wire_format S n id ps v = Some enc -> wire_format S n id ps v' = Some enc' -> enc pos = enc' pos -> v = v'.
Proof.
  intros S n id ps v v' enc enc' pos HC Hv Hv' E E' Hb.
  destruct (wire_roundtrip S n id ps v HC Hv) as (e & H1 & H2). rewrite E in H1. injection H1 as <-.
  destruct (wire_roundtrip S n id ps v' HC Hv') as (e' & H1' & H2'). rewrite E' in H1'. injection H1' as <-.
  destruct (H2 n (le_n n)) as [_ R]. destruct (H2' n (le_n n)) as [_ R'].
  specialize (R pos []). specialize (R' pos []). rewrite Hb in R. congruence.
Qed.
