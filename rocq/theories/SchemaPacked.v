(** Packed fields: their contexts, given those of the types they refer to. *)

Require Import ZArith List Bool Lia ZifyBool ZifyNat.
From Verif Require Import Bits Stream Spec PosSpec Scalars Traits TraitSpec Delta DeltaSpec DeltaFacts PosFacts
  Array ArraySpec ArrayFacts Schema SchemaSpec SchemaFacts SchemaPlain.
Import ListNotations.
Open Scope Z_scope.

(** ** Runs of steps *)

Definition obind_opt {Y Z} (g : Y -> option Z) (o : option Y) : option Z :=
  match o with Some y => g y | None => None end.

Lemma syncs_sim : forall {Y Z N N'} (h : N -> N') (g : Y -> option Z)
    (step : Z -> N -> N -> N -> N -> Prop) (step' : Y -> N' -> N' -> N' -> N' -> Prop) l a b,
  (forall y z a b a' b', In (Some y) l -> g y = Some z -> step z a b a' b' -> step' y (h a) (h b) (h a') (h b')) ->
  (forall y a b, In (Some y) l -> g y = None -> step' y (h a) (h b) (h a) (h b)) ->
  syncs step a b (map (obind_opt g) l) -> syncs step' (h a) (h b) l.
Proof.
  intros Y Z N N' h g step step'. induction l as [|[y|] l IH]; intros a b H1 H2 H; cbn in *; [exact I| |].
  - destruct (g y) as [z|] eqn:Eg; cbn in H.
    + destruct H as (a' & b' & Hs & H). exists (h a'), (h b'). split; [eapply H1; eauto|].
      apply IH; [intros; eapply H1; eauto|intros; eapply H2; eauto|exact H].
    + exists (h a), (h b). split; [eapply H2; eauto|].
      apply IH; [intros; eapply H1; eauto|intros; eapply H2; eauto|exact H].
  - apply IH; [intros; eapply H1; eauto|intros; eapply H2; eauto|exact H].
Qed.

Lemma inits_sim : forall {Y Z N N'} (h : N -> N') (g : Y -> option Z)
    (step : Z -> N -> N -> Prop) (step' : Y -> N' -> N' -> Prop) l a b,
  (forall y z a a', In (Some y) l -> g y = Some z -> step z a a' -> step' y (h a) (h a')) ->
  (forall y a, In (Some y) l -> g y = None -> step' y (h a) (h a)) ->
  inits step a (map (obind_opt g) l) b -> inits step' (h a) l (h b).
Proof.
  intros Y Z N N' h g step step'. induction l as [|[y|] l IH]; intros a b H1 H2 H; cbn in *; [now rewrite H| |].
  - destruct (g y) as [z|] eqn:Eg; cbn in H.
    + destruct H as (a' & Hs & H). exists (h a'). split; [eapply H1; eauto|].
      apply IH; [intros; eapply H1; eauto|intros; eapply H2; eauto|exact H].
    + exists (h a). split; [eapply H2; eauto|].
      apply IH; [intros; eapply H1; eauto|intros; eapply H2; eauto|exact H].
  - apply IH; [intros; eapply H1; eauto|intros; eapply H2; eauto|exact H].
Qed.

Lemma syncs_const : forall {X N} (step : X -> N -> N -> N -> N -> Prop) a b l,
  (forall x, In (Some x) l -> step x a b a b) -> syncs step a b l.
Proof.
  intros X N step a b. induction l as [|[x|] l IH]; intros H; cbn; [exact I| |].
  - exists a, b. split; [apply H; now left|]. apply IH. intros y Hy. apply H. now right.
  - apply IH. intros y Hy. apply H. now right.
Qed.
Lemma inits_const : forall {X N} (step : X -> N -> N -> Prop) a l,
  (forall x, In (Some x) l -> step x a a) -> inits step a l a.
Proof.
  intros X N step a. induction l as [|[x|] l IH]; intros H; cbn; [reflexivity| |].
  - exists a. split; [apply H; now left|]. apply IH. intros y Hy. apply H. now right.
  - apply IH. intros y Hy. apply H. now right.
Qed.

(** ** Delta contexts shared by elements with different codecs *)

Definition tv := (traits value * value)%type.
Definition hetero : traits tv :=
  mkTraits false (vtraits BBool, VInt 0) (fun p => t_size (fst p) (snd p)) rpanic
    (fun p => t_write (fst p) (snd p)) (fun p => t_as (fst p) (snd p)) (fun _ => (vtraits BBool, VInt 0)).

Definition tv_ok (p : tv) : Prop :=
  (exists bs, element_ok (fst p) bs (snd p)) /\ number_ok (fst p) (snd p) /\ sized (fst p) (snd p).

Fixpoint somes {A} (l : list (option A)) : list A :=
  match l with [] => [] | Some x :: l' => x :: somes l' | None :: l' => somes l' end.

Definition d_step (p : tv) (cw cr cw' cr' : dctx) : Prop :=
  exists enc, pencodes (d_write (fst p) (snd p)) cw cw' enc /\ pdecodes (d_read (fst p)) cr cr' enc (snd p).
Definition d_istep (p : tv) (c c' : dctx) : Prop := d_init (fst p) (snd p) c = Ok c'.

Lemma delta_syncs : forall l cw cr, Forall (fun o => forall p, o = Some p -> tv_ok p) l ->
  0 <= d_max cw -> in_step cw cr (map (t_as hetero) (somes l)) -> syncs d_step cw cr l.
Proof.
  induction l as [|[[T v]|] l IH]; intros cw cr Hl Hm Hs; cbn in *; [exact I| |].
  - apply Forall_cons_iff in Hl as [H1 H2]. destruct (H1 _ eq_refl) as ([bs He] & Hn & Hz). cbn [fst snd] in *.
    destruct (delta_step T cw cr bs v _ Hm He (proj1 Hn) Hs) as [Hw Hr].
    rewrite (read_back_same T cw v Hn) in Hr.
    exists (next_ctx T cw v), (next_rctx T cw cr v). split; [eexists; split; [exact Hw|exact Hr]|].
    apply IH; [exact H2|now rewrite next_max|]. now apply step_in_step; [exact (proj1 Hn)|].
  - apply Forall_cons_iff in Hl as [_ H2]. now apply IH.
Qed.

Lemma delta_inits_all : forall l c c', d_init_all hetero (somes l) c = Ok c' -> inits d_istep c l c'.
Proof.
  induction l as [|[[T v]|] l IH]; intros c c' H; cbn in *.
  - now injection H as <-.
  - change (d_init hetero (T, v) c) with (d_init T v c) in H.
    destruct (d_init T v c) as [c1| | |] eqn:E; try discriminate. exists c1. split; [exact E|]. now apply IH.
  - now apply IH.
Qed.

Lemma somes_forall : forall {A} (P : A -> Prop) l, Forall (fun o => forall p, o = Some p -> P p) l -> Forall P (somes l).
Proof.
  intros A P. induction l as [|[x|] l IH]; intros H; cbn; [constructor| |]; apply Forall_cons_iff in H as [H1 H2].
  - constructor; [now apply H1|now apply IH].
  - now apply IH.
Qed.

Lemma delta_contexts : forall l, Forall (fun o => forall p, o = Some p -> tv_ok p) l -> forall inited : bool,
  exists cw, (if inited then inits d_istep d_empty l cw else cw = d_empty) /\ syncs d_step cw d_empty l.
Proof.
  intros l Hl inited. destruct inited.
  - pose proof (somes_forall tv_ok l Hl) as Hf.
    assert (Hsz : Forall (sized hetero) (somes l)).
    { eapply Forall_impl; [|exact Hf]. intros p (_ & _ & H). exact H. }
    assert (Hnm : Forall (numbered hetero) (somes l)).
    { eapply Forall_impl; [|exact Hf]. intros p (_ & [H _] & _). exact H. }
    assert (Hc : exists c, d_init_all hetero (somes l) d_empty = Ok c).
    { destruct (somes l) as [|e es]; [now exists d_empty|]. eexists. now apply init_all. }
    destruct Hc as [c Hc]. destruct (init_in_step hetero (somes l) c Hsz Hnm Hc) as [Hs Hm].
    exists c. split; [now apply delta_inits_all|]. now apply delta_syncs.
  - exists d_empty. split; [reflexivity|]. apply delta_syncs; [exact Hl|cbn; lia|].
    left. repeat split; cbn; discriminate.
Qed.

(** ** Contents *)

Definition occurrence := (env * env * value)%type.    (* writer's view, reader's view *)
Definition c_step (Ms : methods -> Prop) (f : field) (z : occurrence) (cw cr cw' cr' : node) : Prop :=
  exists enc, forall M, Ms M ->
    pencodes (pwrite_content M (fst (fst z)) f (snd z)) cw cw' enc /\
    pdecodes (pread_content M (snd (fst z)) f) cr cr' enc (snd z).
Definition c_init (Ms : methods -> Prop) (f : field) (z : occurrence) (c c' : node) : Prop :=
  forall M, Ms M -> init_field M (fst (fst z)) f (Some (snd z)) c = (c', Ok tt).
Definition c_ok ok fin (f : field) (z : occurrence) : Prop :=
  included (fst (fst z)) f = Some true /\ valid_content ok fin true (fst (fst z)) f (snd z) /\
  agree f (fst (fst z)) (snd (fst z)).

Definition contexts {X} (create : node -> Prop) (ok : X -> Prop)
    (istep : X -> node -> node -> Prop) (step : X -> node -> node -> node -> node -> Prop) : Prop :=
  exists c0, create c0 /\ forall zs, Forall (fun o => forall z, o = Some z -> ok z) zs -> forall inited : bool,
    exists cw, (if inited then inits istep c0 zs cw else cw = c0) /\ syncs step cw c0 zs.

Lemma forall_in : forall {X} (P : X -> Prop) l, Forall (fun o => forall z, o = Some z -> P z) l ->
  forall x, In (Some x) l -> P x.
Proof. intros X P l H x Hin. rewrite Forall_forall in H. now apply (H (Some x)). Qed.

(** The context that create_field makes. *)
Definition field_context (Ms : methods -> Prop) (f : field) (c0 : node) : Prop :=
  forall M, Ms M -> forall c ch, create_field M f (Node c ch) = (Node c (ch ++ [c0]), Ok tt).

Lemma content_packed : forall (Ms : methods -> Prop) ok (fin : nat -> Prop) f,
  plain_ok Ms ok -> packed_ok Ms ok fin ->
  (f_array f = None -> match f_type f with TRef id _ => fin id | TBasic _ => True end) ->
  contexts (field_context Ms f) (c_ok ok fin f) (c_init Ms f) (c_step Ms f).
Proof.
  intros Ms ok fin f HP HQ Hfin. unfold contexts, field_context, create_field.
  destruct (f_array f) as [[len packed]|] eqn:Hf.
  - (* an array *)
    exists (Node None []). split; [reflexivity|]. intros zs Hzs inited. exists (Node None []). split.
    + destruct inited; [|reflexivity]. apply inits_const. intros [[E E'] v] _ M _. unfold init_field. now rewrite Hf.
    + apply syncs_const. intros [[E E'] v] Hin. destruct (forall_in _ _ Hzs _ Hin) as (_ & Hv & Ha). cbn [fst snd] in *.
      pose proof Hv as Hv0. unfold valid_content in Hv0. rewrite Hf in Hv0. destruct Hv0 as (es & -> & _).
      destruct (array_content Ms ok fin E E' f len packed true es HP HQ Ha Hf Hv) as (enc & H). rewrite orb_true_r in H.
      exists enc. intros M HM. destruct (H M HM) as [H1 H2]. unfold pwrite_content, pread_content. cbn [fst snd]. rewrite Hf. split.
      * now apply pencodes_stream.
      * eapply pdecodes_map; [apply pdecodes_stream, H2|reflexivity].
  - specialize (Hfin eq_refl). destruct (f_type f) as [t|id args] eqn:Ht.
    + destruct (packable t) eqn:Hpk.
      * (* delta packed *)
        exists (Node (Some d_empty) []). split; [reflexivity|]. intros zs Hzs inited.
        set (g := fun z : occurrence => match codec_of (fst (fst z)) t with Ok T => Some (T, snd z) | _ => None end).
        assert (Hg : forall z, In (Some z) zs -> exists T, codec_of (fst (fst z)) t = Ok T /\
                     codec_of (snd (fst z)) t = Ok T /\ tv_ok (T, snd z)).
        { intros [[E E'] v] Hin. destruct (forall_in _ _ Hzs _ Hin) as (_ & Hv & Ha). cbn [fst snd] in *.
          unfold valid_content in Hv. rewrite Hf, Ht in Hv. destruct Hv as [Hv Hc]. specialize (Hc eq_refl Hpk).
          destruct Hv as (b & e & Hb & Hwf & He & ->). exists (vtraits b).
          rewrite (codec_of_same E E' t) by (destruct Ha as (_ & Hs & _); now rewrite Ht in Hs).
          rewrite (codec_ok E t b Hc Hb). split; [reflexivity|]. split; [reflexivity|]. split; [|split].
          - eexists. now apply vtraits_ok.
          - apply vtraits_number; try assumption. now apply (packable_integral E t).
          - now apply vtraits_sized. }
        destruct (delta_contexts (map (obind_opt g) zs)) with (inited := inited) as (cw & Hi & Hs).
        { apply Forall_forall. intros o Ho p ->. apply in_map_iff in Ho as (o' & Ho & Hin).
          destruct o' as [z|]; [|discriminate]. cbn in Ho. destruct (Hg z Hin) as (T & H1 & _ & H3).
          unfold g in Ho. rewrite H1 in Ho. injection Ho as <-. exact H3. }
        exists (Node (Some cw) []). split.
        -- destruct inited; [|now rewrite Hi].
           apply (inits_sim (fun c => Node (Some c) []) g d_istep (c_init Ms f) zs d_empty cw); [| |exact Hi].
           ++ intros z [T v] a a' Hin Hgz Hd M _. destruct (Hg z Hin) as (T' & H1 & _ & _).
              destruct (forall_in _ _ Hzs _ Hin) as (Hinc & _). unfold g in Hgz. rewrite H1 in Hgz. injection Hgz as <- <-.
              unfold init_field. rewrite Hf, Ht, Hpk, Hinc. unfold init_delta. rewrite H1. cbn [obind].
              unfold d_istep in Hd. cbn [fst snd] in Hd. now rewrite Hd.
           ++ intros z a Hin Hgz. destruct (Hg z Hin) as (T' & H1 & _). unfold g in Hgz. rewrite H1 in Hgz. discriminate.
        -- apply (syncs_sim (fun c => Node (Some c) []) g d_step (c_step Ms f) zs cw d_empty); [| |exact Hs].
           ++ intros z [T v] a b a' b' Hin Hgz (enc & Hw & Hr). destruct (Hg z Hin) as (T' & H1 & H2 & _).
              unfold g in Hgz. rewrite H1 in Hgz. injection Hgz as <- <-. cbn [fst snd] in *.
              exists enc. intros M _. unfold pwrite_content, pread_content. rewrite Hf, Ht, Hpk, H1, H2. split.
              ** intros w Hw0. unfold on_delta. now rewrite (Hw w Hw0).
              ** intros pos rest. unfold on_delta. now rewrite (Hr pos rest).
           ++ intros z a b Hin Hgz. destruct (Hg z Hin) as (T' & H1 & _). unfold g in Hgz. rewrite H1 in Hgz. discriminate.
      * (* not packable *)
        exists (Node None []). split; [reflexivity|]. intros zs Hzs inited. exists (Node None []). split.
        -- destruct inited; [|reflexivity]. apply inits_const. intros [[E E'] v] _ M _. unfold init_field.
           now rewrite Hf, Ht, Hpk.
        -- apply syncs_const. intros [[E E'] v] Hin. destruct (forall_in _ _ Hzs _ Hin) as (_ & Hv & Ha). cbn [fst snd] in *.
           unfold valid_content in Hv. rewrite Hf, Ht in Hv. destruct Hv as [Hv _].
           destruct Ha as (_ & Hs & _). rewrite Ht in Hs.
           destruct (basic_roundtrip E E' t v Hv Hs) as (bs & H1 & H2). exists (pfix bs). intros M _.
           unfold pwrite_content, pread_content. cbn [fst snd]. rewrite Hf, Ht, Hpk. split.
           ++ now apply pencodes_stream, encodes_pfix.
           ++ now apply pdecodes_stream, decodes_pfix.
    + (* a user-defined type *)
      destruct (HQ id Hfin) as (n0 & Hc & Hx). exists n0. split.
      { intros M HM c ch. now rewrite (Hc M HM). }
      intros zs Hzs inited.
      set (g := fun z : occurrence => match args (fst (fst z)) 0%nat with Some ps => Some (ps, snd z) | None => None end).
      assert (Hg : forall z, In (Some z) zs -> exists ps, args (fst (fst z)) 0%nat = Some ps /\
                   args (snd (fst z)) 0%nat = Some ps /\ ok true id ps (snd z)).
      { intros [[E E'] v] Hin. destruct (forall_in _ _ Hzs _ Hin) as (_ & Hv & Ha). cbn [fst snd] in *.
        unfold valid_content in Hv. rewrite Hf, Ht in Hv. destruct Hv as (ps & Hps & Hv). exists ps.
        destruct Ha as (_ & Hs & _). rewrite Ht in Hs. cbn in Hs. rewrite <- Hs. auto. }
      destruct (Hx (map (obind_opt g) zs)) with (inited := inited) as (nw & Hi & Hs).
      { apply Forall_forall. intros o Ho p ->. apply in_map_iff in Ho as (o' & Ho & Hin).
        destruct o' as [z|]; [|discriminate]. cbn in Ho. destruct (Hg z Hin) as (ps & H1 & _ & H3).
        unfold g in Ho. rewrite H1 in Ho. injection Ho as <-. exact H3. }
      exists nw. split.
      * destruct inited; [|exact Hi].
        apply (inits_sim (fun c => c) g (obj_init Ms id) (c_init Ms f) zs n0 nw); [| |exact Hi].
        -- intros z [ps v] a a' Hin Hgz Hd M HM. destruct (Hg z Hin) as (ps' & H1 & _ & _).
           destruct (forall_in _ _ Hzs _ Hin) as (Hinc & _). unfold g in Hgz. rewrite H1 in Hgz. injection Hgz as <- <-.
           unfold init_field. rewrite Hf, Ht, Hinc, H1. exact (Hd M HM).
        -- intros z a Hin Hgz. destruct (Hg z Hin) as (T' & H1 & _). unfold g in Hgz. rewrite H1 in Hgz. discriminate.
      * apply (syncs_sim (fun c => c) g (obj_step Ms id) (c_step Ms f) zs nw n0); [| |exact Hs].
        -- intros z [ps v] a b a' b' Hin Hgz (enc & H). destruct (Hg z Hin) as (ps' & H1 & H2 & _).
           unfold g in Hgz. rewrite H1 in Hgz. injection Hgz as <- <-. cbn [fst snd] in *.
           exists enc. intros M HM. unfold pwrite_content, pread_content. rewrite Hf, Ht, H1, H2. exact (H M HM).
        -- intros z a b Hin Hgz. destruct (Hg z Hin) as (T' & H1 & _). unfold g in Hgz. rewrite H1 in Hgz. discriminate.
Qed.

(** ** Fields *)

Definition slot_occurrence := (env * env * option value)%type.
Definition f_step (Ms : methods -> Prop) (f : field) (y : slot_occurrence) (cw cr cw' cr' : node) : Prop :=
  exists enc, forall M, Ms M ->
    pencodes (pwrite_field M (fst (fst y)) f (snd y)) cw cw' enc /\
    pdecodes (pread_field M (snd (fst y)) f) cr cr' enc (snd y).
Definition f_init (Ms : methods -> Prop) (f : field) (y : slot_occurrence) (c c' : node) : Prop :=
  forall M, Ms M -> init_field M (fst (fst y)) f (snd y) c = (c', Ok tt).
Definition f_ok ok fin (f : field) (y : slot_occurrence) : Prop :=
  valid_field ok fin true (fst (fst y)) f (snd y) /\ agree f (fst (fst y)) (snd (fst y)).

Lemma field_packed : forall (Ms : methods -> Prop) ok (fin : nat -> Prop) f,
  plain_ok Ms ok -> packed_ok Ms ok fin ->
  (f_array f = None -> match f_type f with TRef id _ => fin id | TBasic _ => True end) ->
  contexts (field_context Ms f) (f_ok ok fin f) (f_init Ms f) (f_step Ms f).
Proof.
  intros Ms ok fin f HP HQ Hfin. destruct (content_packed Ms ok fin f HP HQ Hfin) as (c0 & Hc & Hx).
  exists c0. split; [exact Hc|]. intros ys Hys inited.
  set (g := fun y : slot_occurrence => match included (fst (fst y)) f, snd y with
                                       | Some true, Some v => Some (fst y, v) | _, _ => None end).
  destruct (Hx (map (obind_opt g) ys)) with (inited := inited) as (cw & Hi & Hs).
  { apply Forall_forall. intros o Ho z ->. apply in_map_iff in Ho as (o' & Ho & Hin).
    destruct o' as [[[E E'] slot]|]; [|discriminate]. unfold obind_opt, g in Ho. cbn [fst snd] in Ho.
    destruct (forall_in _ _ Hys _ Hin) as ((_ & stored & Hst & Hv) & Ha). cbn [fst snd] in *. rewrite Hst in Ho.
    destruct stored; [|discriminate]. destruct slot as [v|]; [|discriminate]. injection Ho as <-.
    split; [exact Hst|]. split; [exact Hv|exact Ha]. }
  exists cw. split.
  - destruct inited; [|exact Hi].
    apply (inits_sim (fun c => c) g (c_init Ms f) (f_init Ms f) ys c0 cw); [| |exact Hi].
    + intros [[E E'] slot] z a a' Hin Hgz Hd. unfold g in Hgz. cbn [fst snd] in *.
      destruct (included E f) as [[|]|]; try discriminate. destruct slot as [v|]; [|discriminate].
      injection Hgz as <-. exact Hd.
    + intros [[E E'] slot] a Hin Hgz M HM.
      destruct (forall_in _ _ Hys _ Hin) as ((_ & stored & Hst & Hv) & Ha). cbn [fst snd] in *.
      unfold g in Hgz. cbn [fst snd] in Hgz. rewrite Hst in Hgz. unfold init_field. rewrite Hst.
      destruct (f_array f); [reflexivity|].
      destruct stored.
      * destruct slot as [v|]; [discriminate|]. rewrite Hv.
        destruct (f_type f) as [t|id args]; [|reflexivity]. destruct (packable t); reflexivity.
      * destruct (f_type f) as [t|id args]; [|reflexivity]. destruct (packable t); reflexivity.
  - apply (syncs_sim (fun c => c) g (c_step Ms f) (f_step Ms f) ys cw c0); [| |exact Hs].
    + intros [[E E'] slot] z a b a' b' Hin Hgz (enc & H).
      destruct (forall_in _ _ Hys _ Hin) as ((_ & stored & Hst & Hv) & Ha). cbn [fst snd] in *.
      unfold g in Hgz. cbn [fst snd] in Hgz. rewrite Hst in Hgz. destruct stored; [|discriminate].
      destruct slot as [v|]; [|discriminate]. injection Hgz as <-. cbn [fst snd] in *.
      destruct (align_opt_at (f_align f)) as [A1 A2]. destruct (bool_at true) as [B1 B2].
      unfold f_step, pwrite_field, pread_field. cbn [fst snd]. rewrite <- (proj1 Ha), Hst. destruct (f_optional f).
      * exists (papp (pfix [true]) (papp (align_bits (f_align f)) enc)). intros M HM. destruct (H M HM) as [H1 H2]. cbn [fst snd] in *. split.
        -- eapply pencodes_bind; [apply pencodes_stream, B1|]. eapply pencodes_bind; [apply pencodes_stream, A1|exact H1].
        -- eapply pdecodes_bind; [apply pdecodes_stream, B2|]. cbn.
           eapply pdecodes_bind; [apply pdecodes_stream, A2|]. eapply pdecodes_map; [exact H2|reflexivity].
      * exists (papp (align_bits (f_align f)) enc). intros M HM. destruct (H M HM) as [H1 H2]. cbn [fst snd] in *. split.
        -- eapply pencodes_bind; [apply pencodes_stream, A1|exact H1].
        -- eapply pdecodes_bind; [apply pdecodes_stream, A2|]. eapply pdecodes_map; [exact H2|reflexivity].
    + intros [[E E'] slot] a b Hin Hgz.
      destruct (forall_in _ _ Hys _ Hin) as ((_ & stored & Hst & Hv) & Ha). cbn [fst snd] in *.
      unfold g in Hgz. cbn [fst snd] in Hgz. rewrite Hst in Hgz.
      unfold f_step, pwrite_field, pread_field. cbn [fst snd]. rewrite <- (proj1 Ha), Hst. destruct stored.
      * destruct slot as [v|]; [discriminate|]. rewrite Hv.
        exists (papp (pfix [false]) pnil). intros M HM. destruct (bool_at false) as [B1 B2]. split.
        -- eapply pencodes_bind; [apply pencodes_stream, B1|apply pencodes_ret].
        -- eapply pdecodes_bind; [apply pdecodes_stream, B2|]. cbn. apply pdecodes_ret.
      * subst slot. exists pnil. intros M HM. split; [apply pencodes_ret|apply pdecodes_ret].
Qed.
