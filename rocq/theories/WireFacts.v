(** The writers produce the wire format. *)

Require Import ZArith List Bool Lia ZifyBool ZifyNat.
From Verif Require Import Bits BitsFacts Stream Spec PosSpec StreamFacts StreamThms Scalars ScalarFacts ScalarThms
  Traits TraitSpec TraitFacts Delta DeltaSpec DeltaFacts PosFacts Array ArraySpec ArrayFacts Schema SchemaSpec
  SchemaFacts SchemaPlain SchemaObjects WireSpec WireScalars WireColumns.
Import ListNotations.
Open Scope Z_scope.

(** ** Arrays *)

Lemma write_array_at : forall {A N} (K : elemops A N) cfg es enc c c', holds cfg (length es) ->
  (es = [] -> forall p, enc p = []) ->
  (es <> [] -> if a_packed cfg
               then exists n n', k_create K = Ok n /\ init_elems K 0 es n = (n', Ok tt) /\ c = Some n'
               else c = None) ->
  (es <> [] -> pencodes (write_elems K cfg 0 es) c c' enc) ->
  encodes_at (write_array K cfg es) (papp (pfix (length_bits cfg (length es))) enc).
Proof.
  intros A N K cfg es enc c c' Hh He Hs Hw. unfold write_array, array_marshal.
  assert (HL : forall c0 : option N, pencodes
    (if a_auto cfg then on_stream (WriteVarsize (u64 (Z.of_nat (length es)))) else sret tt) c0 c0
    (pfix (length_bits cfg (length es)))).
  { intros c0. unfold length_bits, holds in *. destruct (a_auto cfg); [|apply pencodes_ret].
    apply pencodes_stream, encodes_pfix.
    assert (u64 (Z.of_nat (length es)) = Z.of_nat (length es)) as ->.
    { unfold u64. apply to_u_small. unfold MaxVarsize in Hh. lia. }
    apply varsize_output. lia. }
  destruct es as [|e es].
  - eapply encodes_at_ext with (e1 := papp (pfix (length_bits cfg (length (@nil A)))) pnil).
    { intros p. apply papp_ext; [reflexivity|]. intros q. symmetry. now apply He. }
    eapply pencodes_with_ctx. eapply pencodes_bind; [apply HL|apply pencodes_ret].
  - eapply pencodes_with_ctx. eapply pencodes_bind; [apply HL|]. cbn beta iota.
    specialize (Hs ltac:(discriminate)). specialize (Hw ltac:(discriminate)). destruct (a_packed cfg).
    + destruct Hs as (n & n' & Hc & Hi & ->). eapply pencodes_bind_ctx; [|exact Hw].
      intros w. unfold sbind, new_context, init_context. rewrite Hc. cbn [snd]. now rewrite Hi.
    + subst c. eapply pencodes_bind_ctx; [intros w; reflexivity|exact Hw].
Qed.

(** The number of elements. *)
Lemma count_length : forall E len pk cfg n, array_config E len pk = Some cfg -> holds cfg n ->
  count_bits len n = Some (length_bits cfg n).
Proof.
  intros E len pk cfg n Hc Hh. unfold array_config, count_bits, length_bits, holds in *. destruct len as [l|].
  - destruct (l E); [|discriminate]. now injection Hc as <-.
  - injection Hc as <-. cbn [a_auto] in *. destruct (varsize_bits (Z.of_nat n) ltac:(lia)) as (bs & H1 & H2 & _).
    now rewrite H1, (encodes_output _ _ H2).
Qed.

Lemma all_some_map : forall {A B} (g : A -> option B) (h : A -> B) l, Forall (fun a => g a = Some (h a)) l ->
  all_some (map g l) = Some (map h l).
Proof.
  intros A B g h l H. induction H as [|a l Ha H IH]; [reflexivity|]. cbn [map all_some]. now rewrite Ha, IH.
Qed.

(** The bits and the cell of an element. *)
Lemma element_bits : forall b e, wf_builtin b -> in_range b e ->
  scalar_bits b (inj b e) = Some (enc_of b (inj b e)) /\ encodes (t_write (vtraits b) (inj b e)) (enc_of b (inj b e)).
Proof.
  intros b e Hw He. destruct (scalar_wire b e Hw He) as (bs & H1 & H2 & _). unfold enc_of, vtraits. cbn [t_write].
  rewrite proj_inj, (encodes_output _ _ H2). auto.
Qed.

Lemma element_cell : forall counted E t b v, basic_value E t v -> builtin_of E t = Some b -> integer_like b ->
  exists c, cell_of counted E t v = Some c /\ c_counted c = counted /\ c_bits c = enc_of b v /\
    encodes (t_write (vtraits b) v) (c_bits c) /\ t_as (vtraits b) v = c_num c /\
    t_size (vtraits b) v = Ok (c_size c) /\ cell_ok c.
Proof.
  intros counted E t b v Hv Hb Hi. destruct (basic_element E t b v Hv Hb) as (e & -> & Hw & He).
  destruct (element_bits b e Hw He) as [H1 H2]. destruct (reckoned_size b e Hi He) as (s & H3 & H4).
  unfold cell_of. rewrite type_in_eq, Hb, H1, H3, (number_as b e Hi). eexists. split; [reflexivity|].
  cbn [c_counted c_bits c_num c_size]. split; [reflexivity|]. split; [reflexivity|]. split; [exact H2|].
  unfold vtraits at 1 2. cbn [t_as t_size]. rewrite proj_inj. split; [reflexivity|]. split; [exact H4|].
  unfold cell_ok. cbn [c_num]. destruct (vtraits_number b e Hw Hi He) as [H5 _].
  unfold vtraits in H5. cbn [t_as] in H5. now rewrite proj_inj in H5.
Qed.

(** ** What is assumed of the types that fields refer to *)

Definition plain_wires (M : methods) (F : formats) (ok : bool -> nat -> list value -> value -> Prop) : Prop :=
  forall id ps v, ok false id ps v -> exists enc, plain F id ps v = Some enc /\ encodes_at (m_marshal M id ps v) enc.

(** Writing and initialising move the contexts of the node as the items say. *)
Definition effect (R : node -> store -> Prop) (write : prog (node * wst) unit) (init : prog node unit)
    (counted : bool) (l : list item) : Prop :=
  (forall x st, R x st -> goods st -> exists x', pencodes write x x' (run_out st l) /\ R x' (run_state st l)) /\
  (counted = true -> forall x st, R x st -> exists x', init x = (x', Ok tt) /\ R x' (init_state st l)).
Definition labelled (K : path -> bool) (l : list item) : Prop := forall p c, In (Cell p c) l -> c_counted c = K p.

Definition parts_wire (M : methods) (F : formats) (ok : bool -> nat -> list value -> value -> Prop) (fin : nat -> Prop)
    (H : nat -> node -> store -> Prop) (K : bool -> nat -> path -> bool) : Prop :=
  (forall id, fin id -> exists x, m_create M id (Node None []) = (x, Ok tt) /\ H id x (fun _ => d_empty)) /\
  (forall b id ps v, ok true id ps v -> exists l, parts F b id ps v = Some l /\ cells_ok l /\ labelled (K b id) l /\
     effect (H id) (m_pmarshal M id ps v) (m_init M id ps v) b l).

(** ** Arrays of objects *)

Lemma objects_plain : forall M F ok E id args cfg, plain_wires M F ok -> a_packed cfg = false -> a_check cfg = false ->
  forall es i, (forall j e, nth_error es j = Some e -> exists ps, args E (i + j)%nat = Some ps /\ ok false id ps e) ->
  exists encs, all_some (map (fun ie => match args E (fst ie) with Some ps => plain F id ps (snd ie) | None => None end)
                          (combine (seq i (length es)) es)) = Some encs /\
    forall c, pencodes (write_elems (object_ops M E id args) cfg i es) c c (pconcat encs).
Proof.
  intros M F ok E id args cfg HP Hp Hc. induction es as [|e es IH]; intros i H.
  - exists []. split; [reflexivity|]. intros c. apply pencodes_ret.
  - destruct (H 0%nat e eq_refl) as (ps & Ha & Hok). rewrite Nat.add_0_r in Ha.
    destruct (HP id ps e Hok) as (enc & H1 & H2).
    destruct (IH (S i)) as (encs & H3 & H4).
    { intros j e' Hj. destruct (H (S j) e' Hj) as (ps' & Ha' & Hok'). exists ps'. split; [|exact Hok'].
      now replace (S i + j)%nat with (i + S j)%nat by lia. }
    exists (enc :: encs). cbn [length seq combine map all_some fst snd]. rewrite Ha, H1, H3. split; [reflexivity|].
    intros c. cbn [write_elems pconcat]. eapply pencodes_bind; [|apply H4].
    assert (E1 : pencodes (elem_write (object_ops M E id args) cfg i e) c c enc).
    { unfold elem_write. rewrite Hp. apply pencodes_stream. cbn [object_ops k_write]. now rewrite Ha. }
    apply write_elem_at in E1. unfold aligned in E1. now rewrite Hc in E1.
Qed.

Lemma objects_packed : forall M F ok fin H K E id args cfg, parts_wire M F ok fin H K ->
  a_packed cfg = true -> a_check cfg = false ->
  forall es i, (forall j e, nth_error es j = Some e -> exists ps, args E (i + j)%nat = Some ps /\ ok true id ps e) ->
  exists ls, all_some (map (fun ie => match args E (fst ie) with Some ps => parts F true id ps (snd ie) | None => None end)
                          (combine (seq i (length es)) es)) = Some ls /\
    cells_ok (concat ls) /\ labelled (K true id) (concat ls) /\ (es = [] -> ls = []) /\
    (forall x st, H id x st -> exists x', init_elems (object_ops M E id args) i es x = (x', Ok tt) /\
       H id x' (init_state st (concat ls))) /\
    (forall x st, H id x st -> goods st -> exists x',
       pencodes (write_elems (object_ops M E id args) cfg i es) (Some x) (Some x') (run_out st (concat ls))).
Proof.
  intros M F ok fin H K E id args cfg [_ HQ] Hp Hc. induction es as [|e es IH]; intros i Hes.
  - exists []. split; [reflexivity|]. split; [intros p c []|]. split; [intros p c []|]. split; [reflexivity|]. split.
    + intros x st Hx. exists x. split; [reflexivity|exact Hx].
    + intros x st Hx _. exists x. apply pencodes_ret.
  - destruct (Hes 0%nat e eq_refl) as (ps & Ha & Hok). rewrite Nat.add_0_r in Ha.
    destruct (HQ true id ps e Hok) as (l & H1 & H2 & H2' & Hw & Hi). specialize (Hi eq_refl).
    destruct (IH (S i)) as (ls & H3 & H4 & H4' & _ & Hi' & Hw').
    { intros j e' Hj. destruct (Hes (S j) e' Hj) as (ps' & Ha' & Hok'). exists ps'. split; [|exact Hok'].
      now replace (S i + j)%nat with (i + S j)%nat by lia. }
    exists (l :: ls). cbn [length seq combine map all_some fst snd concat]. rewrite Ha, H1, H3. split; [reflexivity|].
    split; [intros p c Hin; apply in_app_or in Hin as [Hin|Hin]; [now apply (H2 p)|now apply (H4 p)]|].
    split; [intros p c Hin; apply in_app_or in Hin as [Hin|Hin]; [now apply H2'|now apply H4']|].
    split; [discriminate|]. split.
    + intros x st Hx. destruct (Hi x st Hx) as (x1 & E1 & Hx1). destruct (Hi' x1 _ Hx1) as (x2 & E2 & Hx2).
      exists x2. rewrite init_state_app. split; [|exact Hx2]. cbn [init_elems object_ops k_init]. rewrite Ha, E1. exact E2.
    + intros x st Hx Hg. destruct (Hw x st Hx Hg) as (x1 & E1 & Hx1).
      destruct (Hw' x1 _ Hx1 (run_goods l st Hg)) as (x2 & E2). exists x2.
      eapply pencodes_ext; [intros p; symmetry; apply run_out_app|]. cbn [write_elems]. eapply pencodes_bind; [|exact E2].
      assert (E3 : pencodes (elem_write (object_ops M E id args) cfg i e) (Some x) (Some x1) (run_out st l)).
      { unfold elem_write. rewrite Hp. apply pencodes_on_packed. cbn [object_ops k_pwrite]. now rewrite Ha. }
      apply write_elem_at in E3. unfold aligned in E3. now rewrite Hc in E3.
Qed.

Lemma labelled_uniform : forall K l, labelled K l -> uniform l.
Proof.
  intros K l H p. exists (K p). apply Forall_forall. intros c Hc. apply (H p c). now apply column_in.
Qed.

Lemma agree_self : forall f E, agree f E E.
Proof.
  intros f E. split; [reflexivity|]. split.
  - destruct (f_type f) as [[b|s g w]|id args]; cbn; auto.
  - destruct (f_array f) as [[[l|] p]|]; auto.
Qed.

Lemma array_bits_eq : forall cfg encs p, a_check cfg = false ->
  array_bits cfg (map pfix encs) p = papp (pfix (length_bits cfg (length encs))) (pfix (concat encs)) p.
Proof. intros cfg encs p H. rewrite (array_bits_plain cfg encs p H). reflexivity. Qed.

Lemma array_wire : forall M F ok fin H K E f len packed pk es,
  plain_wires M F ok -> parts_wire M F ok fin H K -> f_array f = Some (len, packed) ->
  valid_content ok fin pk E f (VArr es) ->
  exists enc, array_format F E f len (packed || pk) es = Some enc /\
    encodes_at (write_field_array M E f len (packed || pk) es) enc.
Proof.
  intros M F ok fin H K E f len packed pk es HP HQ Hf Hv. unfold valid_content in Hv. rewrite Hf in Hv.
  destruct Hv as (es' & He & Hl & Hv). injection He as <-.
  set (pk' := packed || pk) in *.
  destruct (config_ok E E f len packed pk' _ (agree_self f E) Hf Hl) as (cfg & C1 & _ & Cp & Cc & Ch & Cl).
  unfold array_format, write_field_array. rewrite C1, (count_length _ _ _ _ _ C1 Ch), Cl.
  destruct (f_type f) as [t|id args] eqn:Ht.
  - destruct Hv as (Hc & Hb & Hes & Hi). destruct (builtin_of E t) as [b|] eqn:Eb; [|congruence].
    rewrite (codec_ok E t b Hc Eb). destruct pk'.
    + specialize (Hi eq_refl). pose proof (Hi b Eb) as Hil.
      assert (Hcells : exists l, all_some (map (cell_of true E t) es) = Some l /\ map c_bits l = map (enc_of b) es /\
        map c_size l = map (size_of (vtraits b)) es /\ map c_num l = map (t_as (vtraits b)) es /\
        forallb c_counted l = true).
      { clear Hl Cl Ch. induction Hes as [|v es Hv Hes IH]; [exists []; auto|].
        destruct IH as (l & I1 & I2 & I3 & I4 & I5).
        destruct (element_cell true E t b v Hv Eb Hil) as (c & J1 & J2 & J3 & J4 & J5 & J6 & _).
        exists (c :: l). cbn [map all_some forallb]. rewrite J1, I1, I2, I3, I4, I5, J2, J3, <- J5.
        assert (size_of (vtraits b) v = c_size c) as -> by (unfold size_of; now rewrite J6). auto. }
      destruct Hcells as (l & L1 & L2 & L3 & L4 & L5). rewrite L1. eexists. split; [reflexivity|].
      assert (Hel : Forall (fun v => element_ok (vtraits b) (enc_of b v) v) es).
      { eapply Forall_impl; [|exact Hes]. intros v Hv. destruct (basic_element E t b v Hv Eb) as (e & -> & H1 & H2).
        now apply vtraits_ok. }
      assert (Hnum : Forall (numbered (vtraits b)) es).
      { eapply Forall_impl; [|exact Hes]. intros v Hv. destruct (basic_element E t b v Hv Eb) as (e & -> & H1 & H2).
        apply vtraits_number; auto. }
      assert (Hsz : Forall (sized (vtraits b)) es).
      { eapply Forall_impl; [|exact Hes]. intros v Hv. destruct (basic_element E t b v Hv Eb) as (e & -> & H1 & H2).
        now apply vtraits_sized. }
      destruct es as [|v0 es0].
      { destruct l; [|discriminate]. eapply encodes_at_ext; [|apply (array_empty (trait_ops (vtraits b)) cfg Ch)].
        intros p. unfold array_bits. cbn [map pconcat items_bits length]. reflexivity. }
      destruct (packed_trait_array (vtraits b) (enc_of b) cfg (v0 :: es0) _ Cp Ch
        (width_delta_width _ _) Hel Hnum Hsz) as (encs & Hlen & [Hw _] & Hd).
      eapply encodes_at_ext; [|exact Hw]. intros p. rewrite (array_bits_eq cfg encs p Cc), Hlen.
      apply papp_ext; [reflexivity|]. intros q. unfold pfix. rewrite (Hd ltac:(discriminate)).
      etransitivity; [|symmetry; apply (items_single l q)].
      unfold pieces, delta_wire. rewrite L5, L3, L4. cbn [andb map]. rewrite delta_bits_width.
      cbn [map] in L2, L3, L4. destruct (packs _ _).
      * unfold packed_wire. rewrite L2. cbn [hd concat app]. now rewrite <- ?app_assoc.
      * unfold plain_wire. destruct l as [|c l]; [discriminate|]. cbn [map] in L2. injection L2 as -> ->.
        cbn [concat]. reflexivity.
    + assert (Hbits : all_some (map (basic_bits E t) es) = Some (map (enc_of b) es)).
      { apply all_some_map. eapply Forall_impl; [|exact Hes]. intros v Hv.
        destruct (basic_element E t b v Hv Eb) as (e & -> & H1 & H2). unfold basic_bits. rewrite type_in_eq, Eb.
        now apply element_bits. }
      rewrite Hbits. eexists. split; [reflexivity|].
      assert (Hw : encodes_at (write_array (trait_ops (vtraits b)) cfg es) (array_bits cfg (map pfix (map (enc_of b) es)))).
      { rewrite map_map. eapply (proj1 (plain_array_roundtrip _ cfg es _ Cp Ch _)). }
      eapply encodes_at_ext; [|exact Hw]. intros p. rewrite (array_bits_eq cfg _ p Cc), map_length. reflexivity.
      Unshelve.
      generalize 0%nat. clear - Hes Eb. induction Hes as [|v l Hv _ IH]; intros i; [exact I|].
      cbn [map elements_ok]. split; [|apply IH]. cbn [trait_ops k_write k_read].
      destruct (basic_element E t b v Hv Eb) as (e & -> & H1 & H2). apply roundtrips_pfix. now apply vtraits_ok.
  - destruct Hv as (Hes & Hfin).
    rewrite arguments_ok_true by (intros i e Hi; destruct (Hes i e Hi) as (ps & Hps & _); eauto).
    unfold indexed. destruct pk'.
    + destruct (objects_packed M F ok fin H K E id args cfg HQ Cp Cc es 0 Hes) as (ls & L1 & L2 & L3 & L4 & Li & Lw).
      rewrite L1. eexists. split; [reflexivity|].
      destruct (proj1 HQ id (Hfin eq_refl)) as (x0 & Hc0 & Hx0). destruct (Li x0 _ Hx0) as (x1 & Hi1 & Hx1).
      assert (G : goods (init_state (fun _ => d_empty) (concat ls))).
      { apply freshs_goods, init_freshs. intros p. apply fresh_empty. }
      destruct (Lw x1 _ Hx1 G) as (x2 & Hw2).
      eapply encodes_at_ext.
      2: { eapply write_array_at with (c := Some x1) (c' := Some x2) (enc := run_out (init_state (fun _ => d_empty) (concat ls)) (concat ls)).
           - exact Ch.
           - intros ->. rewrite (L4 eq_refl). reflexivity.
           - intros _. rewrite Cp. exists x0, x1. split; [|split; [exact Hi1|reflexivity]].
             cbn [object_ops k_create]. now rewrite Hc0.
           - intros _. exact Hw2. }
      intros p. apply papp_ext; [reflexivity|]. intros q. apply items_run; [exact L2|]. exact (labelled_uniform _ _ L3).
    + destruct (objects_plain M F ok E id args cfg HP Cp Cc es 0 Hes) as (encs & L1 & Lw).
      rewrite L1. eexists. split; [reflexivity|].
      eapply write_array_at with (c := None) (c' := None).
      * exact Ch.
      * intros ->. cbn in L1. injection L1 as <-. reflexivity.
      * intros _. now rewrite Cp.
      * intros _. apply Lw.
Qed.

(** ** Fields outside packed arrays *)

Lemma slot_of_nth : forall i slots, slot_of i slots = nth_slot i slots.
Proof.
  unfold slot_of, nth_slot. induction i as [|i IH]; intros [|s slots]; try reflexivity. cbn [nth_error nth]. apply IH.
Qed.

Lemma content_wire : forall M F ok fin H K E f v, plain_wires M F ok -> parts_wire M F ok fin H K ->
  valid_content ok fin false E f v ->
  exists enc, content_format F E f v = Some enc /\ encodes_at (write_content M E f v) enc.
Proof.
  intros M F ok fin H K E f v HP HQ Hv. unfold content_format, write_content.
  destruct (f_array f) as [[len packed]|] eqn:Hf.
  - pose proof Hv as Hv0. unfold valid_content in Hv0. rewrite Hf in Hv0. destruct Hv0 as (es & -> & _ & _).
    destruct (array_wire M F ok fin H K E f len packed false es HP HQ Hf Hv) as (enc & H1 & H2).
    rewrite orb_false_r in H1, H2. eauto.
  - unfold valid_content in Hv. rewrite Hf in Hv. destruct (f_type f) as [t|id args].
    + destruct Hv as [Hv _]. destruct (basic_wire E t v Hv) as (bs & H1 & H2). rewrite H1. eexists.
      split; [reflexivity|]. now apply encodes_pfix.
    + destruct Hv as (ps & -> & Hok). now apply HP.
Qed.

Lemma field_wire : forall M F ok fin H K E f slot, plain_wires M F ok -> parts_wire M F ok fin H K ->
  valid_field ok fin false E f slot ->
  exists enc, field_format F E f slot = Some enc /\ encodes_at (write_field M E f slot) enc.
Proof.
  intros M F ok fin H K E f slot HP HQ (_ & stored & Hin & Hv). unfold field_format, write_field.
  change (present E f) with (included E f). rewrite Hin. destruct stored.
  2: { eexists. split; [reflexivity|apply encodes_at_ret]. }
  destruct (align_opt_at (f_align f)) as [A1 _]. change (align_format (f_align f)) with (align_bits (f_align f)).
  destruct slot as [v|].
  - destruct (content_wire M F ok fin H K E f v HP HQ Hv) as (enc & H1 & H2). rewrite H1.
    destruct (f_optional f); (eexists; split; [reflexivity|]).
    + eapply encodes_at_bind; [exact A1|]. eapply encodes_at_bind; [apply bool_at|exact H2].
    + eapply encodes_at_bind; [exact A1|exact H2].
  - rewrite Hv. eexists. split; [reflexivity|]. eapply encodes_at_bind; [exact A1|].
    eapply encodes_at_ext; [|eapply encodes_at_bind; [apply bool_at|apply encodes_at_ret]]. apply papp_nil_r.
Qed.

Lemma fields_wire : forall M F ok fin H K ps slots, plain_wires M F ok -> parts_wire M F ok fin H K ->
  forall fs k, (forall i f, nth_error fs i = Some f ->
     valid_field ok fin false (mkE ps slots) f (nth_slot (k + i) slots)) ->
  exists encs, all_some (map (fun x => field_format F (mkE ps slots) (snd x) (slot_of (fst x) slots))
                          (combine (seq k (length fs)) fs)) = Some encs /\
    encodes_at (write_fields M (mkE ps slots) k fs) (pconcat encs).
Proof.
  intros M F ok fin H K ps slots HP HQ. induction fs as [|f fs IH]; intros k Hv.
  - exists []. split; [reflexivity|apply encodes_at_ret].
  - pose proof (Hv 0%nat f eq_refl) as Hf. rewrite Nat.add_0_r in Hf.
    destruct (field_wire M F ok fin H K _ f _ HP HQ Hf) as (enc & H1 & H2).
    destruct (IH (S k)) as (encs & H3 & H4).
    { intros i g Hg. replace (S k + i)%nat with (k + S i)%nat by lia. now apply Hv. }
    exists (enc :: encs). cbn [length seq combine map all_some fst snd]. rewrite slot_of_nth, H1, H3.
    split; [reflexivity|]. cbn [write_fields pconcat e_slots]. eapply encodes_at_bind; [exact H2|exact H4].
Qed.

(** ** Branches *)

Lemma select_branch_gen : forall sel default cases i, select sel i cases default =
  match find (fun x => match fst (snd x) with Some l => l =? sel | None => false end)
          (combine (seq i (length (branches cases))) (branches cases)) with
  | Some (j, (_, f)) => Some (j, f)
  | None => option_map (fun f => ((i + length (branches cases))%nat, f)) default
  end.
Proof.
  intros sel default. induction cases as [|[conds [f|]] cases IH]; intros i.
  - cbn. rewrite Nat.add_0_r. now destruct default.
  - cbn [select branches flat_map snd app length seq combine find fst]. fold (branches cases).
    destruct conds as [|c conds]; cbn [hd_error].
    + rewrite IH. destruct (find _ _) as [[j [o g]]|]; [reflexivity|]. destruct default; [|reflexivity]. cbn. do 2 f_equal. lia.
    + rewrite (Z.eqb_sym c sel). destruct (sel =? c); [reflexivity|].
      rewrite IH. destruct (find _ _) as [[j [o g]]|]; [reflexivity|]. destruct default; [|reflexivity]. cbn. do 2 f_equal. lia.
  - cbn [select branches flat_map snd app]. fold (branches cases). apply IH.
Qed.
Lemma select_eq : forall sel cases default, select sel 0 cases default = branch sel cases default.
Proof. intros. rewrite select_branch_gen. reflexivity. Qed.

Lemma branches_length : forall cases, length (branches cases) = length (choice_fields cases None).
Proof.
  unfold choice_fields, branches. intros cases. rewrite app_nil_r.
  induction cases as [|[conds [f|]] cases IH]; cbn; [reflexivity|now rewrite IH|exact IH].
Qed.
Lemma choice_fields_length : forall cases default, length (choice_fields cases default) =
  (length (branches cases) + match default with Some _ => 1 | None => 0 end)%nat.
Proof.
  intros cases default. rewrite branches_length. unfold choice_fields. rewrite !app_length. destruct default; cbn; lia.
Qed.

Lemma member_eq : forall tag fs, member tag fs =
  match (if tag <? 1 then None else nth_error fs (Z.to_nat (tag - 1))) with
  | Some f => Some (Z.to_nat (tag - 1), f) | None => None end.
Proof.
  intros tag fs. unfold member. replace (tag <=? 0) with (tag <? 1) by lia. destruct (tag <? 1); [reflexivity|].
  now destruct (nth_error fs (Z.to_nat (tag - 1))).
Qed.

(** ** Objects outside packed arrays *)

Lemma def_wire : forall S n M F H K id d ps v, plain_wires M F (valid S n) ->
  parts_wire M F (valid S n) (finite S n) H K -> nth_error S id = Some d -> valid S (Datatypes.S n) false id ps v ->
  exists enc, def_format F d ps v = Some enc /\ encodes_at (marshal_def M d ps v) enc.
Proof.
  intros S n M F H K id d ps v HP HQ Hd Hv. cbn [valid] in Hv. destruct Hv as (d' & Hd' & Hv).
  rewrite Hd in Hd'. injection Hd' as <-.
  destruct d as [t|fs|selector cases default|fs]; cbn [marshal_def def_format].
  - destruct Hv as [Hv _]. destruct (basic_wire (mkE [] []) t v Hv) as (bs & H1 & H2). rewrite H1. eexists.
    split; [reflexivity|]. now apply encodes_pfix.
  - destruct Hv as (slots & -> & _ & Hv).
    destruct (fields_wire M F (valid S n) (finite S n) H K ps slots HP HQ fs 0 Hv) as (encs & H1 & H2).
    unfold indexed. rewrite H1. eexists. split; [reflexivity|exact H2].
  - destruct Hv as (slots & sel & -> & _ & Hsel & _ & Hv). rewrite Hsel, <- select_eq.
    destruct (select sel 0 cases default) as [[i f]|].
    + destruct Hv as [_ Hv]. rewrite slot_of_nth. eapply field_wire; eassumption.
    + eexists. split; [reflexivity|apply encodes_at_ret].
  - destruct Hv as (_ & tag & slots & -> & _ & Ht & Hv). destruct (varsize_bits tag Ht) as (bs & B1 & B2 & _).
    rewrite B1, member_eq. destruct (if tag <? 1 then None else nth_error fs (Z.to_nat (tag - 1))) as [f|].
    + destruct Hv as [_ Hv]. rewrite slot_of_nth.
      destruct (field_wire M F _ _ H K _ f _ HP HQ Hv) as (enc & H1 & H2). rewrite H1. eexists. split; [reflexivity|].
      eapply encodes_at_bind; [apply encodes_pfix, B2|exact H2].
    + eexists. split; [reflexivity|]. eapply encodes_at_bind; [apply encodes_pfix, B2|apply encodes_at_ret].
Qed.
