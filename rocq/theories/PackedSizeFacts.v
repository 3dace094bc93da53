(** The packed size of generated types. *)

Require Import ZArith List Bool Lia ZifyBool ZifyNat.
From Verif Require Import Bits BitsFacts Stream StreamFacts Spec PosSpec Scalars Float16 Traits TraitSpec TraitThms Delta DeltaSpec DeltaFacts
  SizeFacts PosFacts Array ArraySpec Schema SchemaSpec SchemaFacts SchemaPlain SchemaPacked SchemaObjects SchemaThms SchemaSize
  PackedSize PackedSizeSpec.
Import ListNotations.
Open Scope Z_scope.
Open Scope prog_scope.

(** ** Contexts whose numbers are small *)

Inductive sane : node -> Prop :=
| sane_node : forall c ch, (forall c', c = Some c' -> 0 <= d_max c' <= 64) -> Forall sane ch -> sane (Node c ch).

Lemma sane_inv : forall c ch, sane (Node c ch) -> (forall c', c = Some c' -> 0 <= d_max c' <= 64) /\ Forall sane ch.
Proof. intros c ch H. inversion H. auto. Qed.

Lemma forget_inv : forall c ch n, alike (Node c ch) n -> exists c' ch', n = Node c' ch' /\
  option_map forget_ctx c = option_map forget_ctx c' /\ map forget ch = map forget ch'.
Proof.
  intros c ch [c' ch'] H. unfold alike in H. cbn [forget] in H. exists c', ch'. split; [reflexivity|]. split; congruence.
Qed.

Lemma map_nth_alike : forall ch ch' i x, map forget ch = map forget ch' -> nth_error ch i = Some x ->
  exists y, nth_error ch' i = Some y /\ alike x y.
Proof.
  intros ch ch' i x H Hx. pose proof (map_nth_error forget i ch Hx) as H1. rewrite H in H1.
  destruct (nth_error ch' i) as [y|] eqn:E.
  - exists y. split; [reflexivity|]. rewrite (map_nth_error forget i ch' E) in H1. unfold alike. congruence.
  - apply nth_error_None in E. assert (nth_error (map forget ch') i <> None) by congruence.
    apply nth_error_Some in H0. rewrite map_length in H0. lia.
Qed.

Lemma update_alike : forall ch ch' i x y, map forget ch = map forget ch' -> alike x y ->
  map forget (update i x ch) = map forget (update i y ch').
Proof.
  induction ch as [|a ch IH]; intros [|b ch'] i x y H Hxy; cbn in H; try discriminate; [destruct i; reflexivity|].
  injection H as H1 H2. destruct i as [|i]; cbn [update map].
  - now rewrite Hxy, H2.
  - rewrite H1. f_equal. now apply IH.
Qed.

Lemma update_sane : forall ch i x, Forall sane ch -> sane x -> Forall sane (update i x ch).
Proof.
  induction ch as [|a ch IH]; intros i x H Hx; [destruct i; constructor|].
  inversion H; subst. destruct i; cbn [update]; constructor; auto.
Qed.
Lemma nth_sane : forall ch i x, Forall sane ch -> nth_error ch i = Some x -> sane x.
Proof. intros ch i x H Hx. rewrite Forall_forall in H. apply H. now apply nth_error_In in Hx. Qed.

(** ** Prediction: [p] returns the position where [m] stops *)

Definition predicts (m : prog (node * wst) unit) (p : Z -> prog node Z) : Prop :=
  forall x y w x' w', alike x y -> sane x -> wfaults w = [] -> m (x, w) = ((x', w'), Ok tt) ->
  exists y', p (Z.of_nat (length (wbits w))) y = (y', Ok (Z.of_nat (length (wbits w')))) /\
    alike x' y' /\ sane x' /\ wfaults w' = [].

Lemma predicts_bind : forall m1 m2 p1 p2, predicts m1 p1 -> predicts m2 p2 ->
  predicts (m1 ;;s m2) (fun pos => pos' <-s p1 pos; p2 pos').
Proof.
  intros m1 m2 p1 p2 H1 H2 x y w x' w' Ha Hs Hw H. unfold sbind in H.
  destruct (m1 (x, w)) as [[x1 w1] [[]|e| |]] eqn:E1; try discriminate.
  destruct (H1 x y w x1 w1 Ha Hs Hw E1) as (y1 & E2 & Ha1 & Hs1 & Hw1).
  destruct (H2 x1 y1 w1 x' w' Ha1 Hs1 Hw1 H) as (y' & E3 & Ha2 & Hs2 & Hw2).
  exists y'. unfold sbind. rewrite E2, E3. auto.
Qed.

Lemma predicts_ret : predicts (sret tt) (fun pos => sret pos).
Proof. intros x y w x' w' Ha Hs Hw H. injection H as <- <-. exists y. auto. Qed.

(** A piece of code that uses only the stream. *)
Lemma predicts_stream : forall m enc (p : Z -> outcome Z), encodes_at m enc ->
  (forall pos, p (Z.of_nat pos) = Ok (Z.of_nat (pos + length (enc pos)))) ->
  predicts (on_stream m) (fun pos => lift (p pos)).
Proof.
  intros m enc p He Hp x y w x' w' Ha Hs Hw H. unfold on_stream in H. rewrite (He w Hw) in H. injection H as <- <-.
  exists y. unfold lift. rewrite Hp. cbn [wbits]. rewrite app_length. auto.
Qed.

Lemma predicts_child : forall i m p, predicts m p -> predicts (on_child i m) (fun pos => child i (p pos)).
Proof.
  intros i m p Hp [c ch] y w x' w' Ha Hs Hw H. destruct (forget_inv c ch y Ha) as (c' & ch' & -> & Hc & Hch).
  destruct (sane_inv c ch Hs) as [Hs1 Hs2]. unfold on_child in H.
  destruct (nth_error ch i) as [a|] eqn:Ei; [|discriminate].
  destruct (m (a, w)) as [[a' w1] o] eqn:Em. injection H as <- <- ->.
  destruct (map_nth_alike ch ch' i a Hch Ei) as (b & Eb & Hab).
  destruct (Hp a b w a' w1 Hab (nth_sane ch i a Hs2 Ei) Hw Em) as (b' & E & Hab' & Hsa & Hw').
  exists (Node c' (update i b' ch')). unfold child, run_node, on_child, at_node. rewrite Eb. cbn [fst]. rewrite E.
  split; [reflexivity|]. split; [|split; [|exact Hw']].
  - unfold alike. cbn [forget]. rewrite Hc. f_equal. now apply update_alike.
  - constructor; [exact Hs1|]. now apply update_sane.
Qed.

(** ** The delta context *)

Lemma forget_ctx_fields : forall c c', forget_ctx c = forget_ctx c' -> d_max c = d_max c' /\ d_packed c = d_packed c' /\
  d_started c = d_started c' /\ forget_ctx (finishInit (set_started c)) = forget_ctx (finishInit (set_started c')) /\
  d_packed (finishInit (set_started c)) = d_packed (finishInit (set_started c')).
Proof.
  intros [p m u f n k s] [p' m' u' f' n' k' s'] H. unfold forget_ctx in H.
  cbn [d_max d_unpacked d_first d_num d_packed d_started d_prev] in *. injection H as -> -> -> -> -> ->.
  repeat split; unfold finishInit, set_started, set_packed, deltaBitsize, forget_ctx;
  cbn [d_max d_unpacked d_first d_num d_packed d_started d_prev];
  destruct k'; try reflexivity; destruct (_ <=? _); reflexivity.
Qed.

Lemma forget_set_prev : forall p c, forget_ctx (set_prev p c) = forget_ctx c.
Proof. reflexivity. Qed.

Lemma finish_max : forall c, d_max (finishInit (set_started c)) = d_max c.
Proof. intros c. destruct (finishInit_fields (set_started c)) as (_ & H & _). exact H. Qed.

Lemma delta_predicted : forall (T : traits value) v enc, encodes (t_write T v) enc -> t_size T v = Ok (Z.of_nat (length enc)) ->
  predicts (on_delta (d_write T v)) (fun pos => d <-s delta_size T v; sret (pos + d)).
Proof.
  intros T v enc He Hsz [[c|] ch] y w x' w' Ha Hs Hw H; [|discriminate].
  destruct (forget_inv _ ch y Ha) as ([c2|] & ch' & -> & Hc & Hch); [|discriminate Hc]. cbn [option_map] in Hc.
  assert (Hc' : forget_ctx c = forget_ctx c2) by congruence. clear Hc.
  destruct (sane_inv _ ch Hs) as [Hs1 Hs2]. specialize (Hs1 c eq_refl).
  destruct (forget_ctx_fields c c2 Hc') as (Hmax & Hpk & Hst & Hfin & Hfpk).
  unfold on_delta in H. destruct (d_write T v (c, w)) as [[c' w1] o] eqn:Ew. injection H as <- <- ->.
  assert (Main : exists c2', d_bitsize T v c2 = (c2', Ok (Z.of_nat (length (wbits w1)) - Z.of_nat (length (wbits w)))) /\
    forget_ctx c' = forget_ctx c2' /\ 0 <= d_max c' <= 64 /\ wfaults w1 = []).
  { unfold d_write in Ew. unfold sbind at 1 in Ew. cbn [get_ctx fst] in Ew. unfold d_bitsize. rewrite <- Hst, <- Hpk, <- Hmax.
    destruct (d_started c); cbn [negb] in *.
    - destruct (d_packed c); cbn [negb] in *.
      + destruct (0 <? d_max c) eqn:E0.
        * destruct (d_prev c) as [p|]; [|discriminate].
          unfold sbind, on_stream, on_ctx, write_bits in Ew. rewrite (encodes_put _ w Hw) in Ew. injection Ew as <- <-.
          exists c2. cbn [wbits wfaults]. rewrite app_length, bits_of_length. unfold to_u. rewrite Z.mod_small by (change (2 ^ 8) with 256; lia).
          split; [f_equal; f_equal; lia|]. rewrite forget_set_prev. auto.
        * injection Ew as <- <-. exists c2. split; [f_equal; f_equal; lia|]. auto.
      + unfold writeUnpacked, sbind, on_ctx, on_stream in Ew. rewrite (He w Hw) in Ew. injection Ew as <- <-.
        exists c2. cbn [wbits wfaults]. rewrite app_length, Hsz. split; [f_equal; f_equal; lia|]. rewrite forget_set_prev. auto.
    - unfold sbind, on_ctx, get_ctx, on_stream in Ew. cbn [fst] in Ew. unfold WriteDescriptor, wbind, write_bool in Ew.
      rewrite (encodes_put _ w Hw) in Ew. unfold writeUnpacked, sbind, on_ctx, on_stream in Ew.
      exists (finishInit (set_started c2)). rewrite finishInit_idem, Hsz, <- Hfpk.
      destruct (d_packed (finishInit (set_started c))).
      + unfold write_bits in Ew. rewrite (encodes_put _ (mkW (wbits w ++ [true]) []) eq_refl) in Ew.
        rewrite He in Ew by reflexivity. assert (E1 := f_equal (fun z => fst (fst z)) Ew); assert (E2 := f_equal (fun z => snd (fst z)) Ew); cbn [fst snd] in E1, E2; subst c' w1. cbn [wbits wfaults]. rewrite !app_length, bits_of_length.
        split; [f_equal; f_equal; unfold maxBitNumberBits; cbn [length]; lia|]. rewrite forget_set_prev. split; [exact Hfin|].
        cbn [set_prev d_max]. rewrite finish_max. auto.
      + unfold wret in Ew. rewrite He in Ew by reflexivity. assert (E1 := f_equal (fun z => fst (fst z)) Ew); assert (E2 := f_equal (fun z => snd (fst z)) Ew); cbn [fst snd] in E1, E2; subst c' w1. cbn [wbits wfaults]. rewrite !app_length.
        split; [f_equal; f_equal; cbn [length]; lia|]. rewrite forget_set_prev. split; [exact Hfin|].
        cbn [set_prev d_max]. rewrite finish_max. auto. }
  destruct Main as (c2' & Hb & Hf & Hm & Hw1).
  exists (Node (Some c2') ch'). unfold sbind, delta_size. rewrite Hb. cbn [sret]. unfold sret.
  split; [f_equal; f_equal; lia|]. split; [|split; [|exact Hw1]].
  - unfold alike. cbn [forget option_map]. now rewrite Hf, Hch.
  - constructor; [|exact Hs2]. intros c0 H0. injection H0 as <-. exact Hm.
Qed.

Lemma vtraits_size : forall b e, wf_builtin b -> in_range b e -> size_right b e ->
  exists enc, encodes (t_write (vtraits b) (inj b e)) enc /\ t_size (vtraits b) (inj b e) = Ok (Z.of_nat (length enc)).
Proof.
  intros b e Hwf He Hr. destruct (vtraits_ok b e Hwf He) as [H1 _]. exists (enc_of b (inj b e)). split; [exact H1|].
  unfold enc_of. unfold vtraits at 1. cbn [t_size]. unfold vtraits. cbn [t_write]. rewrite proj_inj.
  exact (proj2 (builtin_size_right b e Hwf He) Hr).
Qed.

(** ** Fields *)

Definition objects_predicted (M : methods) (P : sizer) (ok ok' : nat -> list value -> value -> Prop) : Prop :=
  forall id ps v, ok id ps v -> ok' id ps v ->
  predicts (m_pmarshal M id ps v) (fun pos => d <-s pass_node (P id ps v pos); sret (pos + d)).

Lemma predicts_ext : forall m p p', predicts m p -> (forall pos y, p pos y = p' pos y) -> predicts m p'.
Proof.
  intros m p p' H E x y w x' w' Ha Hs Hw Hm. destruct (H x y w x' w' Ha Hs Hw Hm) as (y' & H1 & H2).
  exists y'. now rewrite <- E.
Qed.

Lemma content_predicted : forall M P okv okf (ok' : nat -> list value -> value -> Prop) E f v,
  objects_predicted M P (okv true) ok' -> valid_content okv okf true E f v ->
  f_array f = None ->
  match f_type f with
  | TBasic t => sizable_basic E t v
  | TRef id args => forall ps, args E 0%nat = Some ps -> ok' id ps v
  end ->
  predicts (pwrite_content M E f v) (fun pos => d <-s psize_content P E f v pos; sret (pos + d)).
Proof.
  intros M P okv okf ok' E f v HO Hv Harr Hz. unfold valid_content in Hv. rewrite Harr in Hv.
  unfold pwrite_content, psize_content. rewrite Harr. destruct (f_type f) as [t|id args].
  - destruct Hv as [Hb Hc]. unfold sizable_basic in Hz. destruct (packable t) eqn:Ep.
    + specialize (Hc eq_refl eq_refl). destruct Hb as (b & e & Eb & Hwf & He & ->).
      rewrite (codec_ok E t b Hc Eb). destruct (vtraits_size b e Hwf He (Hz b e Eb eq_refl)) as (enc & H1 & H2).
      exact (delta_predicted _ _ enc H1 H2).
    + destruct (basic_roundtrip E E t v Hb) as (bs & H1 & _).
      { destruct t; cbn; auto. }
      pose proof (size_basic_right E t v (pfix bs) Hb Hz (encodes_pfix _ _ H1)) as Hs.
      eapply predicts_ext.
      * apply (predicts_stream (write_basic E t v) (pfix bs) (fun pos => obind (size_basic E t v) (fun d => Ok (pos + d)))).
        -- apply encodes_pfix, H1.
        -- intros pos. rewrite (Hs pos). cbn [obind]. f_equal. lia.
      * intros pos y. unfold sbind, lift, sret. now destruct (size_basic E t v).
  - destruct Hv as (ps & Ha & Hok). rewrite Ha. exact (HO id ps v Hok (Hz ps Ha)).
Qed.

Lemma align_predicted : forall n, predicts (on_stream (walign_opt n)) (fun pos => lift (align_size pos n)).
Proof.
  intros n. apply (predicts_stream _ (align_bits n)); [|intros pos; apply align_size_right].
  exact (proj1 (align_opt_at n)).
Qed.

Lemma marker_predicted : forall b, predicts (on_stream (WriteBool b)) (fun pos => sret (pos + 1)).
Proof.
  intros b. apply (predicts_stream (WriteBool b) (pfix [b]) (fun pos => Ok (pos + 1))).
  - exact (proj1 (bool_at b)).
  - intros pos. unfold pfix. cbn [length]. f_equal. lia.
Qed.

Lemma sbind_assoc : forall {X A B} (m : prog X A) (f : A -> prog X B) {C} (g : B -> prog X C) s,
  (x <-s (y <-s m; f y); g x) s = (y <-s m; x <-s f y; g x) s.
Proof. intros. unfold sbind. destruct (m s) as [s1 [a|e| |]]; reflexivity. Qed.

Lemma field_predicted : forall M P okv okf (ok' : nat -> list value -> value -> Prop) E f slot,
  objects_predicted M P (okv true) ok' -> valid_field okv okf true E f slot -> sizable_field ok' E f slot ->
  predicts (pwrite_field M E f slot) (fun pos => psize_field P E f slot pos).
Proof.
  intros M P okv okf ok' E f slot HO (_ & stored & Hi & Hv) (Harr & Hinc & Hal & Hz).
  rewrite Hinc in Hi. injection Hi as <-. unfold pwrite_field, psize_field. rewrite Hinc.
  destruct (f_optional f) eqn:Eo.
  - rewrite (Hal eq_refl). destruct slot as [v|].
    + eapply predicts_ext.
      * apply predicts_bind; [apply marker_predicted|].
        apply predicts_bind; [apply (align_predicted 0)|]. exact (content_predicted M P okv okf ok' E f v HO Hv Harr (Hz v eq_refl)).
      * reflexivity.
    + eapply predicts_ext; [apply predicts_bind; [apply marker_predicted|apply predicts_ret]|]. reflexivity.
  - destruct slot as [v|]; [|discriminate Hv]. apply predicts_bind; [apply align_predicted|].
    exact (content_predicted M P okv okf ok' E f v HO Hv Harr (Hz v eq_refl)).
Qed.

Lemma fields_predicted : forall M P okv okf (ok' : nat -> list value -> value -> Prop) E,
  objects_predicted M P (okv true) ok' -> forall fs i,
  (forall j f, nth_error fs j = Some f -> valid_field okv okf true E f (nth_slot (i + j) (e_slots E))) ->
  (forall j f, nth_error fs j = Some f -> sizable_field ok' E f (nth_slot (i + j) (e_slots E))) ->
  predicts (pwrite_fields M E i fs) (fun pos => psize_fields P E i fs pos).
Proof.
  intros M P okv okf ok' E HO. induction fs as [|f fs IH]; intros i Hv Hz; [apply predicts_ret|].
  cbn [pwrite_fields psize_fields]. apply predicts_bind.
  - apply predicts_child. specialize (Hv 0%nat f eq_refl). specialize (Hz 0%nat f eq_refl). rewrite Nat.add_0_r in *.
    eapply field_predicted; eauto.
  - apply IH; intros j g Hg.
    + specialize (Hv (S j) g Hg). now rewrite Nat.add_succ_r in Hv.
    + specialize (Hz (S j) g Hg). now rewrite Nat.add_succ_r in Hz.
Qed.

(** ** Objects *)

Lemma predicts_sub : forall m (p : Z -> prog node Z), predicts m p ->
  predicts m (fun pos => d <-s (e <-s p pos; sret (e - pos)); sret (pos + d)).
Proof.
  intros m p H. apply (predicts_ext m p); [exact H|]. intros pos y. unfold sbind, sret.
  destruct (p pos y) as [y' [e|e| |]]; try reflexivity. f_equal. f_equal. lia.
Qed.

Lemma pass_with : forall {A} (m : prog node A) y, pass_node (with_node m) y = m y.
Proof. intros A m y. unfold pass_node, with_node. now destruct (m y). Qed.

Lemma sbind_pass : forall {A B} (m : prog node A) (f : A -> prog node B) y,
  (x <-s pass_node (with_node m); f x) y = (x <-s m; f x) y.
Proof. intros. unfold sbind. now rewrite pass_with. Qed.

Lemma nothing_predicted : predicts (sret tt) (fun pos => d <-s sret 0; sret (pos + d)).
Proof.
  apply (predicts_ext _ (fun pos => sret pos)); [apply predicts_ret|]. intros pos y. unfold sbind, sret. now rewrite Z.add_0_r.
Qed.

Lemma select_branch_gen : forall sel default cases pre k f, forallb (fun c => negb (matches sel c)) pre = true ->
  select sel (length (filter with_field pre)) cases default = Some (k, f) -> branch_of sel (pre ++ cases) default k f.
Proof.
  intros sel default. induction cases as [|[conds [g|]] cases IH]; intros pre k f Hp H; cbn [select] in H.
  - destruct default as [g|]; [|discriminate]. injection H as <- <-. rewrite app_nil_r. now apply branch_default.
  - destruct conds as [|c conds].
    + cbn iota in H. change (pre ++ ([], Some g) :: cases) with (pre ++ [([], Some g)] ++ cases). rewrite app_assoc. apply IH.
      * rewrite forallb_app, Hp. reflexivity.
      * rewrite filter_app, app_length. cbn [filter with_field is_some snd length]. now rewrite Nat.add_1_r.
    + destruct (sel =? c) eqn:E.
      * injection H as <- <-. apply Z.eqb_eq in E. subst c. now apply (branch_case _ _ _ pre (sel :: conds) g cases).
      * change (pre ++ (c :: conds, Some g) :: cases) with (pre ++ [(c :: conds, Some g)] ++ cases). rewrite app_assoc. apply IH.
        -- rewrite forallb_app, Hp. cbn [forallb]. unfold matches. cbn [with_field is_some snd fst]. now rewrite E.
        -- rewrite filter_app, app_length. cbn [filter with_field is_some snd length]. now rewrite Nat.add_1_r.
  - change (pre ++ (conds, None) :: cases) with (pre ++ [(conds, None)] ++ cases). rewrite app_assoc. apply IH.
    + rewrite forallb_app, Hp. reflexivity.
    + rewrite filter_app, app_length. cbn [filter with_field is_some snd length]. now rewrite Nat.add_0_r.
Qed.
Lemma select_branch : forall sel cases default k f, select sel 0 cases default = Some (k, f) -> branch_of sel cases default k f.
Proof. intros sel cases default k f H. exact (select_branch_gen sel default cases [] k f eq_refl H). Qed.

Theorem all_predicted : forall S fuel n,
  objects_predicted (run S fuel) (ZserioBitSizePacked S fuel) (valid S n true) (sizable S n).
Proof.
  intros S fuel. induction fuel as [|fuel IH]; intros n id ps v Hv Hz.
  { intros x y w x' w' _ _ _ H. discriminate H. }
  destruct n as [|n]; [contradiction|]. specialize (IH n).
  cbn [valid] in Hv. destruct Hv as (d & Ed & Hv). cbn [sizable] in Hz. rewrite Ed in Hz.
  cbn [run m_pmarshal ZserioBitSizePacked]. unfold of_def. rewrite Ed. unfold pmarshal_def, psize_def.
  destruct d as [t|fs|selector cases default|fs].
  - destruct Hv as [(b & e & Eb & Hwf & He & ->) Hc]. destruct (Hc eq_refl) as [Hc1 _].
    rewrite (codec_ok _ t b Hc1 Eb).
    destruct (vtraits_size b e Hwf He (Hz b e Eb eq_refl)) as (enc & H1 & H2).
    apply (predicts_ext _ _ _ (delta_predicted _ _ enc H1 H2)). intros pos y. now rewrite sbind_pass.
  - destruct Hv as (slots & -> & Hl & Hv).
    assert (H : predicts (pwrite_fields (run S fuel) (mkE ps slots) 0 fs)
                  (fun pos => psize_fields (ZserioBitSizePacked S fuel) (mkE ps slots) 0 fs pos)).
    { apply (fields_predicted _ _ (valid S n) (finite S n) (sizable S n)); [exact IH|exact Hv|exact Hz]. }
    destruct fs as [|f fs].
    + apply nothing_predicted.
    + apply (predicts_ext _ _ _ (predicts_sub _ _ H)). intros pos y. now rewrite sbind_pass.
  - destruct Hv as (slots & sel & -> & Hl & Hsel & Hcases & Hv). specialize (Hcases eq_refl).
    destruct cases as [|c0 cases]; [now contradiction Hcases|]. cbn [has_cases]. rewrite Hsel.
    set (cs := c0 :: cases) in *. clearbody cs.
    destruct (select sel 0 cs default) as [[i f]|] eqn:Es.
    + destruct Hv as [Ho Hv].
      pose proof (Hz sel i f Hsel (select_branch sel cs default i f Es)) as Hz'.
      assert (H : predicts (on_child i (pwrite_field (run S fuel) (mkE ps slots) f (nth_slot i slots)))
                    (fun pos => child i (psize_field (ZserioBitSizePacked S fuel) (mkE ps slots) f (nth_slot i slots) pos))).
      { apply predicts_child. apply (field_predicted _ _ (valid S n) (finite S n) (sizable S n)); [exact IH|exact Hv|exact Hz']. }
      apply (predicts_ext _ _ _ (predicts_sub _ _ H)). intros pos y. now rewrite sbind_pass.
    + apply (predicts_ext _ _ _ nothing_predicted). intros pos y. now rewrite sbind_pass.
  - destruct Hv as [Hv _]. discriminate Hv.
Qed.

(** ** Contexts that the program makes *)

(** The operation keeps contexts sane, whatever its result. *)
Definition tidy {A} (m : prog node A) : Prop := forall n, sane n -> sane (fst (m n)).

Lemma tidy_bind : forall {A B} (m : prog node A) (f : A -> prog node B), tidy m -> (forall a, tidy (f a)) ->
  tidy (x <-s m; f x).
Proof.
  intros A B m f Hm Hf n Hn. unfold sbind. specialize (Hm n Hn). destruct (m n) as [n1 [a|e| |]]; cbn [fst] in *; auto.
  now apply Hf.
Qed.
Lemma tidy_ret : forall {A} (a : A), tidy (sret a).
Proof. intros A a n Hn. exact Hn. Qed.
Lemma tidy_lift : forall {A} (o : outcome A), tidy (lift o).
Proof. intros A o n Hn. exact Hn. Qed.

Lemma tidy_child : forall {A} i (m : prog node A), tidy m -> tidy (child i m).
Proof.
  intros A i m Hm [c ch] Hn. destruct (sane_inv c ch Hn) as [H1 H2]. unfold child, run_node, on_child, at_node.
  destruct (nth_error ch i) as [x|] eqn:Ex; [|exact Hn]. cbn [fst]. specialize (Hm x (nth_sane ch i x H2 Ex)).
  destruct (m x) as [x' o]. cbn [fst] in *. constructor; [exact H1|]. now apply update_sane.
Qed.

Lemma absDiff_range : forall a b, 0 <= absDiff a b < 2 ^ 64.
Proof.
  intros a b. unfold absDiff, u64, to_u. destruct (b <? a); apply Z.mod_pos_bound; apply Z.pow_pos_nonneg; lia.
Qed.
Lemma d_init_max : forall {A} (T : traits A) e c c', d_init T e c = Ok c' -> 0 <= d_max c <= 64 -> 0 <= d_max c' <= 64.
Proof.
  intros A T e c c' H Hc. unfold d_init in H. destruct (t_size T e); try discriminate.
  destruct (d_prev c) as [p|]; [|injection H as <-; exact Hc].
  destruct (d_max c <=? maxBitNumberLimit); [|injection H as <-; exact Hc].
  destruct (d_max c <? len64 (absDiff (t_as T e) p)); injection H as <-; cbn [d_max]; [|exact Hc].
  pose proof (absDiff_range (t_as T e) p) as Hr. split; [apply len64_nonneg|]. apply len64_le; lia.
Qed.

Lemma tidy_init_delta : forall E t v, tidy (init_delta E t v).
Proof.
  intros E t v [[c|] ch] Hn; [|exact Hn]. unfold init_delta.
  destruct (codec_of E t) as [T|e| |]; cbn [obind]; try exact Hn.
  destruct (d_init T v c) as [c'|e| |] eqn:Ei; try exact Hn. cbn [fst].
  destruct (sane_inv _ _ Hn) as [H1 H2]. constructor; [|exact H2]. intros c0 H0. injection H0 as <-.
  apply (d_init_max T v c c' Ei). now apply H1.
Qed.

Definition tidy_methods (M : methods) : Prop :=
  (forall id, tidy (m_create M id)) /\ (forall id ps v, tidy (m_init M id ps v)).

Lemma tidy_create_field : forall M f, tidy_methods M -> tidy (create_field M f).
Proof.
  intros M f [HM _] [c ch] Hn. destruct (sane_inv _ _ Hn) as [H1 H2]. unfold create_field.
  assert (Add : forall n', sane n' -> sane (Node c (ch ++ [n']))).
  { intros n' Hn'. constructor; [exact H1|]. apply Forall_app. split; [exact H2|]. constructor; [exact Hn'|constructor]. }
  assert (Empty : forall o : option dctx, o = None \/ o = Some d_empty -> sane (Node o [])).
  { intros o Ho. constructor; [|constructor]. intros c' ->. destruct Ho as [Ho|Ho]; [discriminate|]. injection Ho as ->.
    cbn [d_empty d_max]. lia. }
  destruct (f_array f); [apply Add, Empty; now left|].
  destruct (f_type f) as [t|id args]; [apply Add, Empty; destruct (packable t); auto|].
  pose proof (HM id (Node None []) (Empty None (or_introl eq_refl))) as H. destruct (m_create M id (Node None [])) as [n' o].
  cbn [fst] in *. now apply Add.
Qed.
Lemma tidy_create_fields : forall M fs, tidy_methods M -> tidy (create_fields M fs).
Proof.
  intros M fs HM. induction fs as [|f fs IH]; [apply tidy_ret|]. cbn [create_fields]. apply tidy_bind; [now apply tidy_create_field|].
  intros _. exact IH.
Qed.

Lemma tidy_init_field : forall M E f slot, tidy_methods M -> tidy (init_field M E f slot).
Proof.
  intros M E f slot [_ HM]. unfold init_field.
  destruct (f_array f); [destruct (f_type f); apply tidy_ret|].
  destruct (f_type f) as [t|id args].
  - destruct (packable t); [|apply tidy_ret]. destruct (included E f) as [[|]|]; [|apply tidy_ret|apply tidy_lift].
    destruct slot as [v|]; [apply tidy_init_delta|]. destruct (f_optional f); [apply tidy_ret|apply tidy_lift].
  - destruct (included E f) as [[|]|]; [|apply tidy_ret|apply tidy_lift].
    destruct slot as [v|]; [destruct (args E 0%nat); [apply HM|apply tidy_lift]|].
    destruct (f_optional f); [apply tidy_ret|apply tidy_lift].
Qed.
Lemma tidy_init_fields : forall M E fs i, tidy_methods M -> tidy (init_fields M E i fs).
Proof.
  intros M E fs. induction fs as [|f fs IH]; intros i HM; [apply tidy_ret|]. cbn [init_fields].
  apply tidy_bind; [apply tidy_child; now apply tidy_init_field|]. intros _. now apply IH.
Qed.

Lemma tidy_run : forall S fuel, tidy_methods (run S fuel).
Proof.
  intros S fuel. induction fuel as [|fuel IH]; [split; intros; intros n Hn; exact Hn|].
  cbn [run]. split; cbn [m_create m_init].
  - intros id. unfold of_def. destruct (nth_error S id) as [d|]; [|apply tidy_lift]. unfold create_def. destruct d.
    + intros [c ch] Hn. cbn [fst]. destruct (sane_inv _ _ Hn) as [_ H2]. constructor; [|exact H2].
      intros c' H. injection H as <-. cbn [d_empty d_max]. lia.
    + now apply tidy_create_fields.
    + now apply tidy_create_fields.
    + now apply tidy_create_fields.
  - intros id ps v. unfold of_def. destruct (nth_error S id) as [d|]; [|apply tidy_lift]. unfold init_def. destruct d as [t|fs|selector cases default|fs].
    + apply tidy_init_delta.
    + destruct v; try apply tidy_lift. now apply tidy_init_fields.
    + destruct v; try apply tidy_lift. destruct (has_cases cases); [|apply tidy_ret]. destruct (selector ps) as [sel|]; [|apply tidy_lift].
      destruct (select sel 0 cases default) as [[i f]|]; [|apply tidy_ret].
      destruct (i <? length (choice_fields cases None))%nat; [apply tidy_child; now apply tidy_init_field|now apply tidy_create_field].
    + destruct v; first [apply tidy_lift | apply tidy_ret].
Qed.

Lemma prepared_sane : forall S fuel id n, prepared S fuel id n -> sane n.
Proof.
  intros S fuel id n H. destruct (tidy_run S fuel) as [H1 H2].
  induction H as [n H|n n' ps v Hp IH H].
  - pose proof (H1 id (Node None [])) as Hs. rewrite H in Hs. apply Hs. constructor; [discriminate|constructor].
  - pose proof (H2 id ps v n IH) as Hs. now rewrite H in Hs.
Qed.

(** ** The theorems *)

Lemma predicted_some : forall (p : prog (option node) Z) pos y y' e, (d <-s pass_node p; sret (pos + d)) y = (y', Ok e) ->
  (forall n, exists n', fst (p (Some n)) = Some n') -> p (Some y) = (Some y', Ok (e - pos)).
Proof.
  intros p pos y y' e H Hn. unfold sbind, pass_node, sret in H. destruct (Hn y) as [n' En].
  destruct (p (Some y)) as [[n|] o]; cbn [fst] in En; [|discriminate].
  destruct o as [d|x| |]; try discriminate. injection H as <- <-. f_equal. f_equal. lia.
Qed.

Lemma with_node_some : forall {A} (m : prog node A) n, exists n', fst (with_node m (Some n)) = Some n'.
Proof. intros A m n. unfold with_node. destruct (m n) as [n' o]. now exists n'. Qed.

Lemma sizer_some : forall S fuel id ps v pos n, exists n', fst (ZserioBitSizePacked S fuel id ps v pos (Some n)) = Some n'.
Proof.
  intros S [|fuel] id ps v pos n; [now exists n|]. cbn [ZserioBitSizePacked]. unfold of_def.
  assert (L : forall o : outcome Z, exists n', fst (lift o (Some n)) = Some n') by (intros o; now exists n).
  assert (R : forall z : Z, exists n', fst (sret z (Some n)) = Some n') by (intros z; now exists n).
  destruct (nth_error S id) as [d|]; [|apply L]. unfold psize_def. destruct d as [t|fs|selector cases default|fs].
  - destruct (codec_of _ t); try apply L. apply with_node_some.
  - destruct fs; destruct v; try apply L; try apply R. apply with_node_some.
  - destruct v; try apply L. destruct (has_cases cases); [|apply R]. destruct (selector ps); [|apply L]. apply with_node_some.
  - destruct v; first [apply L | apply R].
Qed.

Theorem packed_size_exact : forall S fuel n id ps v c c' w w', valid S n true id ps v -> sizable S n id ps v ->
  prepared S fuel id c -> wfaults w = [] -> m_pmarshal (run S fuel) id ps v (c, w) = ((c', w'), Ok tt) ->
  snd (ZserioBitSizePacked S fuel id ps v (Z.of_nat (length (wbits w))) (Some c)) =
    Ok (Z.of_nat (length (wbits w')) - Z.of_nat (length (wbits w))).
Proof.
  intros S fuel n id ps v c c' w w' Hv Hz Hp Hw H.
  destruct (all_predicted S fuel n id ps v Hv Hz c c w c' w' eq_refl (prepared_sane _ _ _ _ Hp) Hw H) as (y' & E & _).
  apply predicted_some in E; [now rewrite E|]. apply sizer_some.
Qed.

Lemma sequence_predicted : forall S fuel n id xs, Forall (fun x => valid S n true id (fst x) (snd x)) xs ->
  Forall (fun x => sizable S n id (fst x) (snd x)) xs -> forall x y w x' w', alike x y -> sane x -> wfaults w = [] ->
  write_packed S fuel id xs (x, w) = ((x', w'), Ok tt) ->
  exists y', sizes_packed S fuel id xs (Z.of_nat (length (wbits w))) (Some y) =
    (Some y', Ok (Z.of_nat (length (wbits w')) - Z.of_nat (length (wbits w)))) /\ alike x' y'.
Proof.
  intros S fuel n id. induction xs as [|[ps v] xs IH]; intros Hv Hz x y w x' w' Ha Hs Hw H; cbn [write_packed sizes_packed] in *.
  - injection H as <- <-. exists y. split; [|exact Ha]. unfold sret. f_equal. f_equal. lia.
  - unfold sbind at 1 in H. destruct (m_pmarshal (run S fuel) id ps v (x, w)) as [[x1 w1] [[]|e| |]] eqn:E1; try discriminate.
    inversion Hv as [|? ? Hv1 Hv2]; subst. inversion Hz as [|? ? Hz1 Hz2]; subst. cbn [fst snd] in *.
    destruct (all_predicted S fuel n id ps v Hv1 Hz1 x y w x1 w1 Ha Hs Hw E1) as (y1 & E & Ha1 & Hs1 & Hw1).
    apply predicted_some in E; [|apply sizer_some].
    destruct (IH Hv2 Hz2 x1 y1 w1 x' w' Ha1 Hs1 Hw1 H) as (y' & E2 & Ha2).
    exists y'. split; [|exact Ha2]. unfold sbind. rewrite E.
    replace (Z.of_nat (length (wbits w)) + (Z.of_nat (length (wbits w1)) - Z.of_nat (length (wbits w))))
      with (Z.of_nat (length (wbits w1))) by lia.
    rewrite E2. unfold sret. f_equal. f_equal. lia.
Qed.

Theorem packed_sizes_exact : forall S fuel n id xs c c' w w',
  Forall (fun x => valid S n true id (fst x) (snd x)) xs -> Forall (fun x => sizable S n id (fst x) (snd x)) xs ->
  prepared S fuel id c -> wfaults w = [] -> write_packed S fuel id xs (c, w) = ((c', w'), Ok tt) ->
  snd (sizes_packed S fuel id xs (Z.of_nat (length (wbits w))) (Some c)) =
    Ok (Z.of_nat (length (wbits w')) - Z.of_nat (length (wbits w))).
Proof.
  intros S fuel n id xs c c' w w' Hv Hz Hp Hw H.
  destruct (sequence_predicted S fuel n id xs Hv Hz c c w c' w' eq_refl (prepared_sane _ _ _ _ Hp) Hw H) as (y' & E & _).
  now rewrite E.
Qed.

(** ** Where the prediction fails *)

(** A field is counted whether it is stored or not. *)
Theorem condition_ignored : forall P E f slot pos c n,
  psize_field P E (mkF (f_type f) (f_array f) (f_optional f) c (f_align f) (f_cast f)) slot pos n = psize_field P E f slot pos n.
Proof. reflexivity. Qed.

(** A nonempty array of objects, other than unions and types without fields, always
    panics. *)
Definition needs_context (d : def) : Prop :=
  match d with
  | DScalar _ => True
  | DStruct fs => fs <> []
  | DChoice _ cases _ => cases <> []
  | DUnion _ => False
  end.

Lemma nil_context : forall S fuel id d ps v pos, nth_error S id = Some d -> needs_context d ->
  snd (ZserioBitSizePacked S (Datatypes.S fuel) id ps v pos None) = Panic.
Proof.
  intros S fuel id d ps v pos Hd Hn. cbn [ZserioBitSizePacked]. unfold of_def. rewrite Hd. unfold psize_def.
  destruct d as [t|fs|selector cases default|fs]; cbn in Hn.
  - destruct (codec_of _ t); reflexivity.
  - destruct fs as [|f fs]; [now contradiction Hn|]. destruct v; reflexivity.
  - destruct cases as [|c0 cases]; [now contradiction Hn|]. cbn [has_cases]. destruct v; try reflexivity. destruct (selector ps); reflexivity.
  - contradiction.
Qed.

Theorem object_array_panics : forall S fuel E f len packed id args d es n pos,
  f_array f = Some (len, packed) -> f_type f = TRef id args -> nth_error S id = Some d -> needs_context d ->
  (len = None -> Z.of_nat (length es) < 2 ^ 27) -> es <> [] ->
  snd (psize_content (ZserioBitSizePacked S (Datatypes.S fuel)) E f (VArr es) pos n) = Panic.
Proof.
  intros S fuel E f len packed id args d es n pos Ha Ht Hd Hn Hlen Hes. unfold psize_content. rewrite Ha. unfold lift. cbn [snd].
  unfold psize_array. destruct (array_config E len packed) as [cfg|] eqn:Ec; [|reflexivity]. rewrite Ht.
  destruct (arguments_ok E args (length es)); [|reflexivity]. unfold object_array_bitsize_packed.
  assert (Hl : exists d0, length_size cfg (length es) = Ok d0).
  { unfold length_size. unfold array_config in Ec. destruct len as [l|].
    - destruct (l E) as [m|]; [|discriminate]. injection Ec as <-. now exists 0.
    - injection Ec as <-. cbn [a_auto]. apply signed_fits; try (unfold limit; lia); specialize (Hlen eq_refl).
      + unfold in_s. change (2 ^ (64 - 1)) with (2 ^ 63). lia.
      + unfold MinInt64. lia.
      + change (2 ^ scap 4 4) with (2 ^ 28). lia. }
  destruct Hl as [d0 ->]. cbn [obind]. destruct es as [|e es]; [now contradiction Hes|]. cbn [fresh_sizes].
  destruct (args E 0%nat) as [ps|]; [|reflexivity].
  pose proof (nil_context S fuel id d ps e (pos + d0) Hd Hn) as H.
  destruct (ZserioBitSizePacked S (Datatypes.S fuel) id ps e (pos + d0) None) as [n' o]. cbn [snd] in H. now rewrite H.
Qed.

Theorem union_packs_nothing : forall S fuel id fs ps tag slots pos w c, nth_error S id = Some (DUnion fs) ->
  m_pmarshal (run S (Datatypes.S fuel)) id ps (VRec tag slots) (c, w) = ((c, w), Ok tt) /\
  forall context, ZserioBitSizePacked S (Datatypes.S fuel) id ps (VRec tag slots) pos context = (context, Ok 0).
Proof.
  intros S fuel id fs ps tag slots pos w c H. split; [|intros context]; cbn [run m_pmarshal ZserioBitSizePacked]; unfold of_def; rewrite H; reflexivity.
Qed.

Theorem builtin_array_size : forall P E f len packed t es n pos T, f_array f = Some (len, packed) -> f_type f = TBasic t -> codec_of E t = Ok T ->
  (len = None -> Z.of_nat (length es) < 2 ^ 27) ->
  snd (psize_content P E f (VArr es) pos n) =
    match len with
    | Some l => match l E with
                | Some _ => if f_cast f && negb (Nat.eqb (length es) 0) then Panic else Ok 0
                | None => Panic
                end
    | None => if f_cast f && negb (Nat.eqb (length es) 0) then Panic else Ok 8
    end.
Proof.
  intros P E f len packed t es n pos T Ha Ht HT Hlen. unfold psize_content. rewrite Ha. unfold lift. cbn [snd]. unfold psize_array, array_config.
  destruct len as [l|].
  - destruct (l E) as [m|]; [|reflexivity]. rewrite Ht, HT. cbn [obind]. unfold array_bitsize_packed, length_size. cbn [a_auto].
    destruct (f_cast f); [|reflexivity]. destruct es; reflexivity.
  - rewrite Ht, HT. cbn [obind]. unfold array_bitsize_packed, length_size. cbn [a_auto]. destruct (f_cast f); [|reflexivity].
    destruct es as [|e es]; [reflexivity|].
    assert (Hl : exists d0, SignedBitSize (Z.of_nat (length (e :: es))) 4 = Ok d0).
    { apply signed_fits; try (unfold limit; lia); specialize (Hlen eq_refl).
      + unfold in_s. change (2 ^ (64 - 1)) with (2 ^ 63). lia.
      + unfold MinInt64. lia.
      + change (2 ^ scap 4 4) with (2 ^ 28). lia. }
    destruct Hl as [d0 ->]. reflexivity.
Qed.
