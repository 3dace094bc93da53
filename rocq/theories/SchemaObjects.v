(** Round trip of structs, choices, unions, enums and bitmasks. *)

Require Import ZArith List Bool Lia ZifyBool ZifyNat.
From Verif Require Import Bits Stream Spec PosSpec Scalars Traits TraitSpec Delta DeltaSpec DeltaFacts PosFacts
  Array ArraySpec ArrayFacts Schema SchemaSpec SchemaFacts SchemaPlain SchemaPacked.
Import ListNotations.
Open Scope Z_scope.

(** ** Lists of fields *)

Lemma before_app : forall done rest, before (length done) (done ++ rest) = done ++ repeat None (length rest).
Proof.
  intros done rest. unfold before. rewrite firstn_app, firstn_all, Nat.sub_diag, app_length, firstn_O, app_nil_r.
  do 2 f_equal. lia.
Qed.

Lemma nth_slot_app : forall done s rest, nth_slot (length done) (done ++ s :: rest) = s.
Proof. intros. unfold nth_slot. rewrite app_nth2, Nat.sub_diag by lia. reflexivity. Qed.

Lemma none_repeat : forall slots, no_field slots -> slots = repeat None (length slots).
Proof.
  induction slots as [|s slots IH]; intros H; [reflexivity|]. cbn. f_equal.
  - exact (H 0%nat).
  - apply IH. intros j. exact (H (S j)).
Qed.

Lemma only_field_before : forall i slots, only_field i slots -> (i < length slots)%nat ->
  before i slots = repeat None (length slots).
Proof.
  unfold before. induction i as [|i IH]; intros [|s slots] H Hi; cbn in *; try lia.
  - reflexivity.
  - pose proof (H 0%nat ltac:(lia)) as H0. cbn in H0. subst s. f_equal. apply IH; [|lia].
    intros j Hj. exact (H (S j) ltac:(lia)).
Qed.

Lemma only_field_eq : forall i slots, only_field i slots -> (i < length slots)%nat ->
  only (length slots) i (nth_slot i slots) = slots.
Proof.
  unfold only. induction i as [|i IH]; intros [|s slots] H Hi; cbn in *; try lia.
  - f_equal. symmetry. apply none_repeat. intros j. exact (H (S j) ltac:(lia)).
  - pose proof (H 0%nat ltac:(lia)) as H0. cbn in H0. subst s. f_equal. apply IH; [|lia].
    intros j Hj. exact (H (S j) ltac:(lia)).
Qed.

Lemma select_nth_gen : forall sel default cases pre k i f, length pre = k ->
  select sel k cases default = Some (i, f) -> nth_error (pre ++ choice_fields cases default) i = Some f.
Proof.
  intros sel default. unfold choice_fields. induction cases as [|[conds [f0|]] cases IH]; intros pre k i f Hk H; cbn in *.
  - destruct default as [d|]; [|discriminate]. injection H as <- <-. subst k. now rewrite nth_error_app2, Nat.sub_diag by lia.
  - destruct (match conds with [] => false | c :: _ => sel =? c end).
    + injection H as <- <-. subst k. rewrite nth_error_app2, Nat.sub_diag by lia. reflexivity.
    + specialize (IH (pre ++ [f0]) (S k) i f). rewrite app_length, <- app_assoc in IH. cbn in IH.
      apply IH; [lia|exact H].
  - now apply (IH pre k i f).
Qed.
Lemma select_nth : forall sel cases default i f,
  select sel 0 cases default = Some (i, f) -> nth_error (choice_fields cases default) i = Some f.
Proof. intros sel cases default i f H. apply (select_nth_gen sel default cases [] 0 i f eq_refl H). Qed.

(** ** Without packing *)

Lemma struct_plain : forall (Ms : methods -> Prop) ok fin ps slots, plain_ok Ms ok -> packed_ok Ms ok fin ->
  forall fs done rest, slots = done ++ rest -> length rest = length fs ->
  (forall i f, nth_error fs i = Some f ->
     valid_field ok fin false (mkE ps slots) f (nth_slot (length done + i) slots) /\
     agree f (mkE ps slots) (mkE ps (before (length done + i) slots))) ->
  exists contents, length contents = length fs /\
  (forall i f v c, nth_error fs i = Some f -> nth_slot (length done + i) slots = Some v -> nth_error contents i = Some c ->
     forall M, Ms M -> roundtrips_at (write_content M (mkE ps slots) f v)
       (read_content M (mkE ps (before (length done + i) slots)) f) c v) /\
  forall M, Ms M ->
    roundtrips_at (write_fields M (mkE ps slots) (length done) fs) (read_fields M ps done fs)
      (struct_layout (mkE ps slots) (length done) fs contents) slots.
Proof.
  intros Ms ok fin ps slots HP HQ. induction fs as [|f fs IH]; intros done rest Hs Hl Hf.
  - destruct rest; [|discriminate]. rewrite app_nil_r in Hs. subst slots. exists []. split; [reflexivity|].
    split; [intros [|i] f v c Hi; discriminate|]. intros M _.
    split; [apply encodes_at_ret|apply decodes_at_ret].
  - destruct rest as [|s rest]; [discriminate|]. destruct (Hf 0%nat f eq_refl) as [Hv Ha]. rewrite Nat.add_0_r in Hv, Ha.
    destruct (field_content Ms ok fin _ _ f _ HP HQ Ha Hv) as (c1 & Hc1 & H1).
    assert (El : length (done ++ [s]) = S (length done)) by (rewrite app_length; cbn; lia).
    destruct (IH (done ++ [s]) rest) as (cs & Hcl & Hcs & H2).
    { rewrite Hs, <- app_assoc. reflexivity. }
    { now injection Hl. }
    { intros i f' Hi. rewrite El. specialize (Hf (S i) f' Hi).
      now replace (S (length done) + i)%nat with (length done + S i)%nat by lia. }
    rewrite El in *. exists (c1 :: cs). split; [cbn; now rewrite Hcl|]. split.
    { intros [|i] f' v c Hi Hsl Hc; cbn in Hi, Hc.
      - injection Hi as <-. injection Hc as <-. rewrite Nat.add_0_r in *. now apply Hc1.
      - replace (length done + S i)%nat with (S (length done) + i)%nat in * by lia. now apply Hcs with (i := i). }
    intros M HM. destruct (H1 M HM) as [W1 R1]. destruct (H2 M HM) as [W2 R2].
    cbn [write_fields read_fields struct_layout e_slots]. split.
    + eapply encodes_at_bind; [exact W1|exact W2].
    + assert (Eb : before (length done) slots = done ++ repeat None (length (f :: fs))).
      { rewrite Hs, before_app. now rewrite Hl. }
      rewrite Eb in R1. eapply decodes_at_bind; [exact R1|].
      assert (En : nth_slot (length done) slots = s) by (rewrite Hs; apply nth_slot_app).
      rewrite En. exact R2.
Qed.

Lemma def_plain : forall (Ms : methods -> Prop) S n id ps v d, causal S -> plain_ok Ms (valid S n) ->
  packed_ok Ms (valid S n) (finite S n) -> nth_error S id = Some d -> valid S (Datatypes.S n) false id ps v ->
  exists enc, forall M, Ms M -> roundtrips_at (marshal_def M d ps v) (unmarshal_def M d ps) enc v.
Proof.
  intros Ms S n id ps v d HC HP HQ Hd Hv. cbn [valid] in Hv. destruct Hv as (d' & Hd' & Hv).
  rewrite Hd in Hd'. injection Hd' as <-. pose proof (HC id d) as Hca.
  destruct d as [t|fs|selector cases default|fs]; cbn [marshal_def unmarshal_def].
  - destruct Hv as [Hv _]. destruct (basic_roundtrip _ (mkE [] []) t v Hv) as (bs & H).
    { destruct t; cbn; reflexivity || exact I. }
    exists (pfix bs). intros M _. now apply roundtrips_pfix.
  - destruct Hv as (slots & -> & Hl & Hf).
    destruct (struct_plain Ms _ _ ps slots HP HQ fs [] slots eq_refl Hl) as (contents & _ & _ & H).
    { intros i f Hi. split; [now apply Hf|]. apply (Hca i f Hd Hi). cbn.
      assert (i < length fs)%nat by (apply nth_error_Some; congruence). lia. }
    eexists. intros M HM. destruct (H M HM) as [H1 H2]. split; [exact H1|].
    eapply decodes_at_map; [exact H2|reflexivity].
  - destruct Hv as (slots & sel & -> & Hl & Hsel & _ & Hf). rewrite Hsel, <- Hl.
    destruct (select sel 0 cases default) as [[i f]|] eqn:Es.
    + destruct Hf as [Ho Hf]. pose proof (select_nth _ _ _ _ _ Es) as Hn.
      assert (Hi : (i < length slots)%nat) by (rewrite Hl; apply nth_error_Some; congruence).
      pose proof (Hca i f Hd Hn ps slots Hi) as Ha. rewrite (only_field_before i slots Ho Hi) in Ha.
      destruct (field_plain Ms _ _ _ _ f _ HP HQ Ha Hf) as (enc & H). exists enc. intros M HM. destruct (H M HM) as [H1 H2].
      split; [exact H1|]. eapply decodes_at_map; [exact H2|]. now rewrite only_field_eq.
    + exists pnil. intros M _. split; [apply encodes_at_ret|]. rewrite <- (none_repeat slots Hf). apply decodes_at_ret.
  - destruct Hv as (_ & tag & slots & -> & Hl & Ht & Hf). pose proof (varsize_output tag Ht) as Hvs.
    apply roundtrips_pfix in Hvs. destruct Hvs as [V1 V2].
    rewrite <- Hl. destruct (if tag <? 1 then None else nth_error fs (Z.to_nat (tag - 1))) as [f|] eqn:Es.
    + destruct Hf as [Ho Hf]. set (i := Z.to_nat (tag - 1)) in *.
      assert (Hn : nth_error fs i = Some f) by (destruct (tag <? 1); [discriminate|exact Es]).
      assert (Hi : (i < length slots)%nat) by (rewrite Hl; apply nth_error_Some; congruence).
      pose proof (Hca i f Hd Hn ps slots Hi) as Ha. rewrite (only_field_before i slots Ho Hi) in Ha.
      destruct (field_plain Ms _ _ _ _ f _ HP HQ Ha Hf) as (enc & H). eexists. intros M HM. destruct (H M HM) as [H1 H2].
      split.
      * eapply encodes_at_bind; [exact V1|exact H1].
      * eapply decodes_at_bind; [exact V2|]. fold i. rewrite Es.
        eapply decodes_at_map; [exact H2|]. now rewrite only_field_eq.
    + eexists. intros M _. split.
      * eapply encodes_at_bind; [exact V1|apply encodes_at_ret].
      * eapply decodes_at_bind; [exact V2|]. rewrite Es. rewrite <- (none_repeat slots Hf). apply decodes_at_ret.
Qed.

(** ** Children *)

Lemma update_app : forall {A} (pre : list A) a a' rest, update (length pre) a' (pre ++ a :: rest) = pre ++ a' :: rest.
Proof. induction pre as [|x pre IH]; intros a a' rest; [reflexivity|]. cbn. now rewrite IH. Qed.
Lemma nth_error_mid : forall {A} (pre : list A) a rest, nth_error (pre ++ a :: rest) (length pre) = Some a.
Proof. intros. rewrite nth_error_app2, Nat.sub_diag by lia. reflexivity. Qed.

Lemma on_child_write : forall pre a rest c (m : prog (node * wst) unit) a' enc,
  pencodes m a a' enc ->
  pencodes (on_child (length pre) m) (Node c (pre ++ a :: rest)) (Node c (pre ++ a' :: rest)) enc.
Proof. intros pre a rest c m a' enc H w Hw. unfold on_child. rewrite nth_error_mid, (H w Hw), update_app. reflexivity. Qed.
Lemma on_child_read : forall {A} pre a rest c (m : prog (node * rst) A) a' enc x,
  pdecodes m a a' enc x ->
  pdecodes (on_child (length pre) m) (Node c (pre ++ a :: rest)) (Node c (pre ++ a' :: rest)) enc x.
Proof. intros A pre a rest c m a' enc x H pos r. unfold on_child. rewrite nth_error_mid, H, update_app. reflexivity. Qed.
Lemma child_init : forall pre a rest c (m : prog node unit) a',
  m a = (a', Ok tt) -> child (length pre) m (Node c (pre ++ a :: rest)) = (Node c (pre ++ a' :: rest), Ok tt).
Proof.
  intros pre a rest c m a' H. unfold child, run_node, on_child, at_node. rewrite nth_error_mid. cbn [fst].
  rewrite H, update_app. reflexivity.
Qed.

(** The contexts of the fields: [ys i] are the occurrences of field [i]. *)
Fixpoint kids_inits (Ms : methods -> Prop) (inited : nat -> bool) (ys : nat -> list (option slot_occurrence))
    (i : nat) (fs : list field) (c0s cws : list node) : Prop :=
  match fs, c0s, cws with
  | [], [], [] => True
  | f :: fs', c0 :: c0s', cw :: cws' =>
      (if inited i then inits (f_init Ms f) c0 (ys i) cw else cw = c0) /\ kids_inits Ms inited ys (S i) fs' c0s' cws'
  | _, _, _ => False
  end.
Fixpoint kids_syncs (Ms : methods -> Prop) (ys : nat -> list (option slot_occurrence))
    (i : nat) (fs : list field) (cws crs : list node) : Prop :=
  match fs, cws, crs with
  | [], [], [] => True
  | f :: fs', cw :: cws', cr :: crs' =>
      syncs (f_step Ms f) cw cr (ys i) /\ kids_syncs Ms ys (S i) fs' cws' crs'
  | _, _, _ => False
  end.

Lemma kids_contexts : forall (Ms : methods -> Prop) ok (fin : nat -> Prop), plain_ok Ms ok -> packed_ok Ms ok fin ->
  forall fs i,
  (forall f, In f fs -> f_array f = None -> match f_type f with TRef id _ => fin id | TBasic _ => True end) ->
  exists c0s,
    (forall M, Ms M -> forall c ch, create_fields M fs (Node c ch) = (Node c (ch ++ c0s), Ok tt)) /\
    forall ys inited,
    (forall j f, nth_error fs j = Some f -> Forall (fun o => forall y, o = Some y -> f_ok ok fin f y) (ys (i + j)%nat)) ->
    exists cws, kids_inits Ms inited ys i fs c0s cws /\ kids_syncs Ms ys i fs cws c0s.
Proof.
  intros Ms ok fin HP HQ. induction fs as [|f fs IH]; intros i Hfin.
  - exists []. split.
    + intros M _ c ch. cbn. now rewrite app_nil_r.
    + intros ys inited _. exists []. split; exact I.
  - destruct (field_packed Ms ok fin f HP HQ (Hfin f (or_introl eq_refl))) as (c0 & Hc & Hx).
    destruct (IH (S i) (fun f' H => Hfin f' (or_intror H))) as (c0s & Hcs & Hxs).
    exists (c0 :: c0s). split.
    + intros M HM c ch. cbn [create_fields]. unfold sbind. rewrite (Hc M HM), (Hcs M HM), <- app_assoc. reflexivity.
    + intros ys inited Hys.
      destruct (Hx (ys i)) with (inited := inited i) as (cw & H1 & H2).
      { specialize (Hys 0%nat f eq_refl). now rewrite Nat.add_0_r in Hys. }
      destruct (Hxs ys inited) as (cws & H3 & H4).
      { intros j f' Hj. specialize (Hys (S j) f' Hj). now replace (S i + j)%nat with (i + S j)%nat by lia. }
      exists (cw :: cws). cbn. auto.
Qed.

(** ** Packed structs *)

Lemma struct_init : forall (Ms : methods -> Prop) (inited : nat -> bool) ps slots (ys : nat -> list (option slot_occurrence))
    fs i c0s cws c pre tail, length pre = i -> (forall j, inited j = true) ->
  kids_inits Ms inited (fun j => Some (mkE ps slots, mkE ps (before j slots), nth_slot j slots) :: ys j) i fs c0s cws ->
  exists c1s, (forall M, Ms M -> init_fields M (mkE ps slots) i fs (Node c (pre ++ c0s ++ tail)) =
                (Node c (pre ++ c1s ++ tail), Ok tt)) /\
    kids_inits Ms inited ys i fs c1s cws.
Proof.
  intros Ms inited ps slots ys. induction fs as [|f fs IH]; intros i [|c0 c0s] [|cw cws] c pre tail Hp Hin H; cbn in H; try contradiction.
  - exists []. split; [reflexivity|exact I].
  - rewrite Hin in H. destruct H as [(c1 & H1 & H2) H3].
    destruct (IH (S i) c0s cws c (pre ++ [c1]) tail ltac:(rewrite app_length; cbn; lia) Hin H3) as (c1s & H4 & H5).
    exists (c1 :: c1s). split.
    + intros M HM. cbn [init_fields]. unfold sbind. subst i.
      change ((c0 :: c0s) ++ tail) with (c0 :: (c0s ++ tail)). rewrite (child_init pre c0 _ c _ c1 (H1 M HM)).
      specialize (H4 M HM). rewrite <- !app_assoc in H4. exact H4.
    + cbn. rewrite Hin. auto.
Qed.

Lemma struct_sync : forall (Ms : methods -> Prop) ps slots (ys : nat -> list (option slot_occurrence))
    fs done rest cws crs cw cr wpre rpre wtail rtail,
  length wpre = length done -> length rpre = length done -> slots = done ++ rest -> length rest = length fs ->
  kids_syncs Ms (fun j => Some (mkE ps slots, mkE ps (before j slots), nth_slot j slots) :: ys j) (length done) fs cws crs ->
  exists cws' crs' enc, (forall M, Ms M ->
      pencodes (pwrite_fields M (mkE ps slots) (length done) fs) (Node cw (wpre ++ cws ++ wtail)) (Node cw (wpre ++ cws' ++ wtail)) enc /\
      pdecodes (pread_fields M ps done fs) (Node cr (rpre ++ crs ++ rtail)) (Node cr (rpre ++ crs' ++ rtail)) enc slots) /\
    kids_syncs Ms ys (length done) fs cws' crs'.
Proof.
  intros Ms ps slots ys. induction fs as [|f fs IH]; intros done rest [|a cws] [|b crs] cw cr wpre rpre wtail rtail Hw Hr Hs Hl H;
    cbn in H; try contradiction.
  - exists [], [], pnil. destruct rest; [|discriminate]. rewrite app_nil_r in Hs. subst slots. split; [|exact I].
    intros M _. split; [apply pencodes_ret|apply pdecodes_ret].
  - destruct rest as [|s rest]; [discriminate|]. destruct H as [(a' & b' & (e1 & H1) & H2) H3].
    assert (El : length (done ++ [s]) = S (length done)) by (rewrite app_length; cbn; lia).
    destruct (IH (done ++ [s]) rest cws crs cw cr (wpre ++ [a']) (rpre ++ [b']) wtail rtail) as (cws' & crs' & e2 & H4 & H5).
    { rewrite !app_length. cbn. lia. }
    { rewrite !app_length. cbn. lia. }
    { rewrite Hs, <- app_assoc. reflexivity. }
    { now injection Hl. }
    { rewrite El. exact H3. }
    rewrite El in H4, H5.
    exists (a' :: cws'), (b' :: crs'), (papp e1 e2). split.
    + intros M HM. destruct (H1 M HM) as [W1 R1]. destruct (H4 M HM) as [W2 R2]. cbn [fst snd] in W1, R1.
      cbn [pwrite_fields pread_fields e_slots]. split.
      * eapply pencodes_bind with (c1 := Node cw (wpre ++ a' :: cws ++ wtail)).
        -- rewrite <- Hw at 1. apply (on_child_write wpre a (cws ++ wtail)). exact W1.
        -- rewrite <- !app_assoc in W2. exact W2.
      * assert (Eb : before (length done) slots = done ++ repeat None (length (f :: fs))).
        { rewrite Hs, before_app. now rewrite Hl. }
        rewrite Eb in R1.
        assert (En : nth_slot (length done) slots = s) by (rewrite Hs; apply nth_slot_app).
        eapply pdecodes_bind with (c1 := Node cr (rpre ++ b' :: crs ++ rtail)) (a := nth_slot (length done) slots).
        -- rewrite <- Hr at 1. apply (on_child_read rpre b (crs ++ rtail)). exact R1.
        -- rewrite En. rewrite <- !app_assoc in R2. exact R2.
    + cbn. auto.
Qed.

(** ** Packed choices: only child [k] is touched *)

Definition at_k (k : nat) (y : slot_occurrence) (j : nat) : option slot_occurrence := if (j =? k)%nat then Some y else None.

Lemma kids_inits_skip : forall (Ms : methods -> Prop) inited k y ys fs i c0s cws,
  ((k < i)%nat \/ inited k = false) ->
  kids_inits Ms inited (fun j => at_k k y j :: ys j) i fs c0s cws -> kids_inits Ms inited ys i fs c0s cws.
Proof.
  intros Ms inited k y ys. induction fs as [|f fs IH]; intros i [|c0 c0s] [|cw cws] Hk H; cbn in *; try contradiction; [exact I|].
  destruct H as [H1 H2]. split.
  - unfold at_k in H1. destruct (i =? k)%nat eqn:E.
    + destruct Hk as [Hk|Hk]; [lia|]. assert (i = k) by lia. subst i. rewrite Hk in *. exact H1.
    + exact H1.
  - apply (IH (S i) c0s cws); [lia|exact H2].
Qed.
Lemma kids_syncs_skip : forall (Ms : methods -> Prop) k y ys fs i cws crs, (k < i)%nat ->
  kids_syncs Ms (fun j => at_k k y j :: ys j) i fs cws crs -> kids_syncs Ms ys i fs cws crs.
Proof.
  intros Ms k y ys. induction fs as [|f fs IH]; intros i [|c0 c0s] [|cw cws] Hk H; cbn in *; try contradiction; [exact I|].
  destruct H as [H1 H2]. unfold at_k in H1. replace (i =? k)%nat with false in H1 by lia. split; [exact H1|].
  apply (IH (S i)); [lia|exact H2].
Qed.

Lemma choice_init : forall (Ms : methods -> Prop) inited k E E' f slot ys fs i c0s cws c pre tail,
  length pre = i -> (i <= k)%nat -> nth_error fs (k - i) = Some f -> inited k = true ->
  kids_inits Ms inited (fun j => at_k k (E, E', slot) j :: ys j) i fs c0s cws ->
  exists c1s, (forall M, Ms M -> child k (init_field M E f slot) (Node c (pre ++ c0s ++ tail)) =
                (Node c (pre ++ c1s ++ tail), Ok tt)) /\
    kids_inits Ms inited ys i fs c1s cws.
Proof.
  intros Ms inited k E E' f slot ys. induction fs as [|f0 fs IH]; intros i [|c0 c0s] [|cw cws] c pre tail Hp Hk Hn Hin H; cbn in H; try contradiction.
  - destruct (k - i)%nat; discriminate.
  - destruct H as [H1 H2]. unfold at_k in H1. destruct (i =? k)%nat eqn:E0.
    + assert (Hik : i = k) by lia. replace (k - i)%nat with 0%nat in Hn by lia. cbn in Hn. injection Hn as ->.
      rewrite Hik, Hin in H1. destruct H1 as (c1 & H1 & H3). exists (c1 :: c0s). split.
      * intros M HM. rewrite <- Hik, <- Hp. cbn [app]. apply child_init. exact (H1 M HM).
      * cbn. rewrite Hik, Hin. split; [exact H3|]. rewrite <- Hik.
        eapply kids_inits_skip; [|exact H2]. left. lia.
    + assert (Hlt : (i < k)%nat) by lia. replace (k - i)%nat with (S (k - S i)) in Hn by lia. cbn in Hn.
      destruct (IH (S i) c0s cws c (pre ++ [c0]) tail ltac:(rewrite app_length; cbn; lia) Hlt Hn Hin H2) as (c1s & H3 & H4).
      exists (c0 :: c1s). split.
      * intros M HM. specialize (H3 M HM). rewrite <- !app_assoc in H3. exact H3.
      * cbn. split; [exact H1|exact H4].
Qed.

Lemma choice_sync : forall (Ms : methods -> Prop) k E E' f slot ys fs i cws crs cw cr wpre rpre wtail rtail,
  length wpre = i -> length rpre = i -> (i <= k)%nat -> nth_error fs (k - i) = Some f ->
  kids_syncs Ms (fun j => at_k k (E, E', slot) j :: ys j) i fs cws crs ->
  exists cws' crs' enc, (forall M, Ms M ->
      pencodes (on_child k (pwrite_field M E f slot)) (Node cw (wpre ++ cws ++ wtail)) (Node cw (wpre ++ cws' ++ wtail)) enc /\
      pdecodes (on_child k (pread_field M E' f)) (Node cr (rpre ++ crs ++ rtail)) (Node cr (rpre ++ crs' ++ rtail)) enc slot) /\
    kids_syncs Ms ys i fs cws' crs'.
Proof.
  intros Ms k E E' f slot ys. induction fs as [|f0 fs IH]; intros i [|a cws] [|b crs] cw cr wpre rpre wtail rtail Hw Hr Hk Hn H;
    cbn in H; try contradiction.
  - destruct (k - i)%nat; discriminate.
  - destruct H as [H1 H2]. unfold at_k in H1. destruct (i =? k)%nat eqn:E0.
    + assert (Hik : i = k) by lia. replace (k - i)%nat with 0%nat in Hn by lia. cbn in Hn. injection Hn as ->.
      destruct H1 as (a' & b' & (enc & H1) & H3). exists (a' :: cws), (b' :: crs), enc. split.
      * intros M HM. destruct (H1 M HM) as [W R]. cbn [fst snd] in W, R. cbn [app]. split.
        -- rewrite <- Hik, <- Hw. now apply on_child_write.
        -- rewrite <- Hik, <- Hr. now apply on_child_read.
      * cbn. split; [exact H3|]. eapply kids_syncs_skip; [|exact H2]. lia.
    + assert (Hlt : (i < k)%nat) by lia. replace (k - i)%nat with (S (k - S i)) in Hn by lia. cbn in Hn.
      destruct (IH (S i) cws crs cw cr (wpre ++ [a]) (rpre ++ [b]) wtail rtail ltac:(rewrite app_length; cbn; lia)
        ltac:(rewrite app_length; cbn; lia) Hlt Hn H2) as (cws' & crs' & enc & H3 & H4).
      exists (a :: cws'), (b :: crs'), enc. split.
      * intros M HM. specialize (H3 M HM). rewrite <- !app_assoc in H3. exact H3.
      * cbn. split; [exact H1|exact H4].
Qed.

(** ** Packed objects *)

Definition def_step (Ms : methods -> Prop) (d : def) (x : list value * value) (nw nr nw' nr' : node) : Prop :=
  exists enc, forall M, Ms M ->
    pencodes (pmarshal_def M d (fst x) (snd x)) nw nw' enc /\
    pdecodes (punmarshal_def M d (fst x)) nr nr' enc (snd x).
Definition def_init (Ms : methods -> Prop) (d : def) (x : list value * value) (n n' : node) : Prop :=
  forall M, Ms M -> init_def M d (fst x) (snd x) n = (n', Ok tt).

Lemma kids_inits_ext : forall (Ms : methods -> Prop) inited ys ys' fs i c0s cws,
  (forall j f c0 cw, inits (f_init Ms f) c0 (ys j) cw -> inits (f_init Ms f) c0 (ys' j) cw) ->
  kids_inits Ms inited ys i fs c0s cws -> kids_inits Ms inited ys' i fs c0s cws.
Proof.
  intros Ms inited ys ys'. induction fs as [|f fs IH]; intros i [|c0 c0s] [|cw cws] He H; cbn in *; try contradiction; [exact I|].
  destruct H as [H1 H2]. split; [|now apply IH]. destruct (inited i); [now apply He|exact H1].
Qed.
Lemma kids_syncs_ext : forall (Ms : methods -> Prop) ys ys' fs i cws crs,
  (forall j f cw cr, syncs (f_step Ms f) cw cr (ys j) -> syncs (f_step Ms f) cw cr (ys' j)) ->
  kids_syncs Ms ys i fs cws crs -> kids_syncs Ms ys' i fs cws crs.
Proof.
  intros Ms ys ys'. induction fs as [|f fs IH]; intros i [|c0 c0s] [|cw cws] He H; cbn in *; try contradiction; [exact I|].
  destruct H as [H1 H2]. split; [|now apply IH]. now apply He.
Qed.
Lemma kids_inits_nil : forall (Ms : methods -> Prop) inited fs i c0s cws,
  kids_inits Ms inited (fun _ => []) i fs c0s cws -> cws = c0s.
Proof.
  intros Ms inited. induction fs as [|f fs IH]; intros i [|c0 c0s] [|cw cws] H; cbn in *; try contradiction; [reflexivity|].
  destruct H as [H1 H2]. rewrite (IH _ _ _ H2). f_equal. destruct (inited i); exact H1.
Qed.
Lemma kids_inits_off : forall (Ms : methods -> Prop) inited ys fs i c0s cws, (forall j, inited j = false) ->
  kids_inits Ms inited ys i fs c0s cws -> cws = c0s.
Proof.
  intros Ms inited ys. induction fs as [|f fs IH]; intros i [|c0 c0s] [|cw cws] Hi H; cbn in *; try contradiction; [reflexivity|].
  destruct H as [H1 H2]. rewrite Hi in H1. now rewrite (IH _ _ _ Hi H2), H1.
Qed.

(** *** Structs *)

Definition slots_of (v : value) : list (option value) := match v with VRec _ s => s | _ => [] end.
Definition occ (x : list value * value) (j : nat) : slot_occurrence :=
  (mkE (fst x) (slots_of (snd x)), mkE (fst x) (before j (slots_of (snd x))), nth_slot j (slots_of (snd x))).

Lemma structs_inits : forall (Ms : methods -> Prop) fs xs c0s cws,
  (forall x, In (Some x) xs -> exists slots, snd x = VRec 0 slots) ->
  kids_inits Ms (fun _ => true) (fun j => map (option_map (fun x => occ x j)) xs) 0 fs c0s cws ->
  inits (def_init Ms (DStruct fs)) (Node None c0s) xs (Node None cws).
Proof.
  intros Ms fs. induction xs as [|[x|] xs IH]; intros c0s cws Hx H; cbn [inits].
  - now rewrite (kids_inits_nil _ _ _ _ _ _ H).
  - destruct (Hx x (or_introl eq_refl)) as [slots Hs]. destruct x as [ps v]. cbn in Hs. subst v.
    pose proof (struct_init Ms (fun _ => true) ps slots (fun j => map (option_map (fun x => occ x j)) xs) fs 0 c0s cws None [] []
      eq_refl (fun _ => eq_refl) H) as (c1s & H1 & H2).
    exists (Node None c1s). split.
    + intros M HM. specialize (H1 M HM). cbn [app] in H1. rewrite !app_nil_r in H1. exact H1.
    + apply IH; [|exact H2]. intros x' Hi. apply Hx. now right.
  - apply IH; [intros x' Hi; apply Hx; now right|]. eapply kids_inits_ext; [|exact H]. intros j f c0 cw Hi. exact Hi.
Qed.

Lemma structs_syncs : forall (Ms : methods -> Prop) fs xs cws crs,
  (forall x, In (Some x) xs -> exists slots, snd x = VRec 0 slots /\ length slots = length fs) ->
  kids_syncs Ms (fun j => map (option_map (fun x => occ x j)) xs) 0 fs cws crs ->
  syncs (def_step Ms (DStruct fs)) (Node None cws) (Node None crs) xs.
Proof.
  intros Ms fs. induction xs as [|[x|] xs IH]; intros cws crs Hx H; cbn [syncs].
  - exact I.
  - destruct (Hx x (or_introl eq_refl)) as (slots & Hs & Hl). destruct x as [ps v]. cbn in Hs. subst v.
    destruct (struct_sync Ms ps slots (fun j => map (option_map (fun x => occ x j)) xs) fs [] slots cws crs None None [] [] [] []
      eq_refl eq_refl eq_refl Hl H) as (cws' & crs' & enc & H1 & H2).
    exists (Node None cws'), (Node None crs'). split.
    + exists enc. intros M HM. specialize (H1 M HM). cbn [app] in H1. rewrite !app_nil_r in H1. destruct H1 as [W R].
      split; [exact W|]. cbn [punmarshal_def fst snd]. eapply pdecodes_map; [exact R|reflexivity].
    + apply IH; [|exact H2]. intros x' Hi. apply Hx. now right.
  - apply IH; [intros x' Hi; apply Hx; now right|]. eapply kids_syncs_ext; [|exact H]. intros j f c0 cw Hi. exact Hi.
Qed.

(** *** Choices *)

Definition branch (selector : list value -> option Z) cases default (x : list value * value) : option (nat * field) :=
  match selector (fst x) with Some sel => select sel 0 cases default | None => None end.
Definition choice_occ selector cases default (x : list value * value) (j : nat) : option slot_occurrence :=
  match branch selector cases default x with Some (k, _) => at_k k (occ x k) j | None => None end.

Definition choice_like (selector : list value -> option Z) cases default (x : list value * value) : Prop :=
  has_cases cases = true /\ exists slots sel, snd x = VRec 0 slots /\ length slots = length (choice_fields cases default) /\
    selector (fst x) = Some sel /\
    match select sel 0 cases default with Some (i, f) => only_field i slots | None => no_field slots end.

Lemma choices_inits : forall (Ms : methods -> Prop) selector cases default,
  (forall f, In f (choice_fields cases default) -> exists c, field_context Ms f c) ->
  forall xs c0s cws tail, (forall x, In (Some x) xs -> choice_like selector cases default x) ->
  kids_inits Ms (fun j => (j <? length (choice_fields cases None))%nat)
    (fun j => map (obind_opt (fun x => choice_occ selector cases default x j)) xs) 0 (choice_fields cases default) c0s cws ->
  exists tail', inits (def_init Ms (DChoice selector cases default)) (Node None (c0s ++ tail)) xs (Node None (cws ++ tail')).
Proof.
  intros Ms selector cases default Hc. induction xs as [|[x|] xs IH]; intros c0s cws tail Hx H; cbn [inits].
  - exists tail. now rewrite (kids_inits_nil _ _ _ _ _ _ H).
  - destruct (Hx x (or_introl eq_refl)) as (Hcase & slots & sel & Hs & Hl & Hsel & Ho). destruct x as [ps v]. cbn in Hs, Hsel. subst v.
    cbn [map obind_opt] in H. unfold choice_occ at 1, branch in H. cbn [fst snd] in H. rewrite Hsel in H.
    assert (Hx' : forall x, In (Some x) xs -> choice_like selector cases default x) by (intros x' Hi; apply Hx; now right).
    destruct (select sel 0 cases default) as [[k f]|] eqn:Es.
    + pose proof (select_nth _ _ _ _ _ Es) as Hn.
      destruct (k <? length (choice_fields cases None))%nat eqn:Hk.
      * destruct (choice_init Ms _ k (mkE ps slots) (mkE ps (before k slots)) f (nth_slot k slots)
          (fun j => map (obind_opt (fun x => choice_occ selector cases default x j)) xs) (choice_fields cases default)
          0 c0s cws None [] tail eq_refl ltac:(lia) ltac:(now rewrite Nat.sub_0_r) Hk H) as (c1s & H1 & H2).
        destruct (IH c1s cws tail Hx' H2) as (tail' & H3). exists tail', (Node None (c1s ++ tail)). split; [|exact H3].
        intros M HM. cbn [init_def fst snd]. rewrite Hcase, Hsel, Es, Hk. exact (H1 M HM).
      * apply kids_inits_skip in H; [|now right].
        destruct (Hc f (nth_error_In _ _ Hn)) as [c1 Hc1].
        destruct (IH c0s cws (tail ++ [c1]) Hx' H) as (tail' & H3). exists tail', (Node None (c0s ++ tail ++ [c1])). split; [|exact H3].
        intros M HM. cbn [init_def fst snd]. rewrite Hcase, Hsel, Es, Hk. rewrite (Hc1 M HM), <- app_assoc. reflexivity.
    + destruct (IH c0s cws tail Hx') as (tail' & H3).
      { eapply kids_inits_ext; [|exact H]. intros j f c0 cw Hi. exact Hi. }
      exists tail', (Node None (c0s ++ tail)). split; [|exact H3].
      intros M HM. cbn [init_def fst snd]. rewrite Hcase, Hsel, Es. reflexivity.
  - apply IH; [intros x' Hi; apply Hx; now right|]. eapply kids_inits_ext; [|exact H]. intros j f c0 cw Hi. exact Hi.
Qed.

Lemma choices_syncs : forall (Ms : methods -> Prop) selector cases default xs cws crs tail,
  (forall x, In (Some x) xs -> choice_like selector cases default x) ->
  kids_syncs Ms (fun j => map (obind_opt (fun x => choice_occ selector cases default x j)) xs) 0 (choice_fields cases default) cws crs ->
  syncs (def_step Ms (DChoice selector cases default)) (Node None (cws ++ tail)) (Node None crs) xs.
Proof.
  intros Ms selector cases default. induction xs as [|[x|] xs IH]; intros cws crs tail Hx H; cbn [syncs].
  - exact I.
  - destruct (Hx x (or_introl eq_refl)) as (Hcase & slots & sel & Hs & Hl & Hsel & Ho). destruct x as [ps v]. cbn in Hs, Hsel. subst v.
    cbn [map obind_opt] in H. unfold choice_occ at 1, branch in H. cbn [fst snd] in H. rewrite Hsel in H.
    assert (Hx' : forall x, In (Some x) xs -> choice_like selector cases default x) by (intros x' Hi; apply Hx; now right).
    destruct (select sel 0 cases default) as [[k f]|] eqn:Es.
    + pose proof (select_nth _ _ _ _ _ Es) as Hn.
      assert (Hi : (k < length slots)%nat) by (rewrite Hl; apply nth_error_Some; congruence).
      destruct (choice_sync Ms k (mkE ps slots) (mkE ps (before k slots)) f (nth_slot k slots)
          (fun j => map (obind_opt (fun x => choice_occ selector cases default x j)) xs) (choice_fields cases default)
          0 cws crs None None [] [] tail [] eq_refl eq_refl ltac:(lia) ltac:(now rewrite Nat.sub_0_r) H)
        as (cws' & crs' & enc & H1 & H2).
      exists (Node None (cws' ++ tail)), (Node None crs'). split; [|now apply IH].
      exists enc. intros M HM. destruct (H1 M HM) as [W R]. cbn [app] in W, R. rewrite !app_nil_r in R.
      cbn [pmarshal_def punmarshal_def fst snd]. rewrite Hcase, Hsel, Es. split; [exact W|].
      rewrite (only_field_before k slots Ho Hi) in R. rewrite <- Hl.
      eapply pdecodes_map; [exact R|]. now rewrite only_field_eq.
    + exists (Node None (cws ++ tail)), (Node None crs). split.
      * exists pnil. intros M HM. cbn [pmarshal_def punmarshal_def fst snd]. rewrite Hcase, Hsel, Es.
        split; [apply pencodes_ret|]. rewrite <- Hl, <- (none_repeat slots Ho). apply pdecodes_ret.
      * apply IH; [exact Hx'|]. eapply kids_syncs_ext; [|exact H]. intros j f c0 cw Hi. exact Hi.
  - apply IH; [intros x' Hi; apply Hx; now right|]. eapply kids_syncs_ext; [|exact H]. intros j f c0 cw Hi. exact Hi.
Qed.

(** *** Enums and bitmasks *)

Lemma scalar_contexts : forall (Ms : methods -> Prop) t xs,
  (forall x, In (Some x) xs -> basic_value (mkE [] []) t (snd x) /\ has_codec (mkE [] []) t /\ integral (mkE [] []) t) ->
  forall inited : bool, exists nw,
    (if inited then inits (def_init Ms (DScalar t)) (Node (Some d_empty) []) xs nw else nw = Node (Some d_empty) []) /\
    syncs (def_step Ms (DScalar t)) nw (Node (Some d_empty) []) xs.
Proof.
  intros Ms t xs Hx inited.
  set (g := fun x : list value * value =>
    match codec_of (mkE [] []) t with Ok T => Some (T, snd x) | _ => None end).
  assert (Hg : forall x, In (Some x) xs -> exists b e, codec_of (mkE [] []) t = Ok (vtraits b) /\ wf_builtin b /\ in_range b e /\
      integer_like b /\ snd x = inj b e).
  { intros x Hi. destruct (Hx x Hi) as ((b & e & Hb & Hw & Hr & He) & Hcod & Hint).
    exists b, e. split; [now apply codec_ok|]. auto. }
  destruct (delta_contexts (map (obind_opt g) xs)) with (inited := inited) as (cw & H1 & H2).
  { apply Forall_forall. intros o Ho p Hp. apply in_map_iff in Ho as ([x|] & Hox & Hin); [|cbn in Hox; congruence].
    destruct (Hg x Hin) as (b & e & Hc & Hw & Hr & Hin' & Hv). unfold obind_opt, g in Hox. rewrite Hc in Hox.
    rewrite <- Hox in Hp. injection Hp as <-. unfold tv_ok. cbn [fst snd]. rewrite Hv.
    split; [exists (enc_of b (inj b e)); now apply vtraits_ok|]. split; [now apply vtraits_number|now apply vtraits_sized]. }
  exists (Node (Some cw) []). split.
  - destruct inited; [|now rewrite H1].
    eapply (inits_sim (fun c => Node (Some c) [])) with (g := g); [| |exact H1].
    + intros y [T v] a a' Hi Hgy Hs M HM. destruct (Hg y Hi) as (b & e & Hc & _). unfold g in Hgy. rewrite Hc in Hgy. injection Hgy as <- <-.
      cbn [init_def init_delta]. rewrite Hc. cbn [obind]. unfold d_istep in Hs. cbn [fst snd] in Hs. now rewrite Hs.
    + intros y a Hi Hgy. destruct (Hg y Hi) as (b & e & Hc & _). unfold g in Hgy. rewrite Hc in Hgy. discriminate.
  - eapply (syncs_sim (fun c => Node (Some c) [])) with (g := g); [| |exact H2].
    + intros y [T v] a b a' b' Hi Hgy (enc & W & R). destruct (Hg y Hi) as (bt & e & Hc & _). unfold g in Hgy. rewrite Hc in Hgy. injection Hgy as <- <-.
      cbn [fst snd] in W, R. exists enc. intros M HM. cbn [pmarshal_def punmarshal_def]. rewrite Hc. split.
      * intros w Hw. unfold on_delta. now rewrite (W w Hw).
      * intros pos rest. unfold on_delta. now rewrite R.
    + intros y a b Hi Hgy. destruct (Hg y Hi) as (bt & e & Hc & _). unfold g in Hgy. rewrite Hc in Hgy. discriminate.
Qed.

(** *** Any definition *)

Lemma def_packed : forall (Ms : methods -> Prop) S n id d, causal S -> plain_ok Ms (valid S n) ->
  packed_ok Ms (valid S n) (finite S n) -> nth_error S id = Some d -> finite S (Datatypes.S n) id ->
  exists n0, (forall M, Ms M -> create_def M d (Node None []) = (n0, Ok tt)) /\
    forall xs, Forall (fun o => forall x, o = Some x -> valid S (Datatypes.S n) true id (fst x) (snd x)) xs ->
    forall inited : bool, exists nw,
      (if inited then inits (def_init Ms d) n0 xs nw else nw = n0) /\ syncs (def_step Ms d) nw n0 xs.
Proof.
  intros Ms S n id d HC HP HQ Hd Hfin. cbn [finite] in Hfin. destruct Hfin as (d' & Hd' & Hfin). rewrite Hd in Hd'. injection Hd' as <-.
  destruct d as [t|fs|selector cases default|fs]; cbn [create_def].
  - exists (Node (Some d_empty) []). split; [reflexivity|]. intros xs Hxs inited. apply scalar_contexts.
    intros x Hi. pose proof (forall_in _ xs Hxs x Hi) as Hv. cbn [valid] in Hv. destruct Hv as (d' & Hd' & Hv).
    rewrite Hd in Hd'. injection Hd' as <-. destruct Hv as [Hv1 Hv2]. split; [exact Hv1|now apply Hv2].
  - destruct (kids_contexts Ms _ _ HP HQ fs 0%nat Hfin) as (c0s & Hc & Hk). exists (Node None c0s). split.
    { intros M HM. exact (Hc M HM None []). }
    intros xs Hxs inited.
    assert (Hsh : forall x, In (Some x) xs -> exists slots, snd x = VRec 0 slots /\ length slots = length fs /\
        forall i f, nth_error fs i = Some f -> valid_field (valid S n) (finite S n) true (mkE (fst x) slots) f (nth_slot i slots)).
    { intros x Hi. pose proof (forall_in _ xs Hxs x Hi) as Hv. cbn [valid] in Hv. destruct Hv as (d' & Hd' & Hv).
      rewrite Hd in Hd'. injection Hd' as <-. exact Hv. }
    destruct (Hk (fun j => map (option_map (fun x => occ x j)) xs) (fun _ => inited)) as (cws & H1 & H2).
    { intros j f Hj. apply Forall_forall. intros o Ho y Hy. apply in_map_iff in Ho as ([x|] & Hox & Hin); [|cbn in Hox; congruence].
      cbn in Hox. rewrite <- Hox in Hy. injection Hy as <-. destruct (Hsh x Hin) as (slots & Hs & Hl & Hf).
      unfold f_ok, occ. cbn [fst snd]. rewrite Hs. cbn [slots_of]. split; [now apply Hf|].
      apply (HC id (DStruct fs) j f Hd Hj). assert (j < length fs)%nat by (apply nth_error_Some; congruence). lia. }
    exists (Node None cws). split.
    + destruct inited.
      * apply structs_inits; [|exact H1]. intros x Hi. destruct (Hsh x Hi) as (slots & Hs & _). now exists slots.
      * now rewrite (kids_inits_off _ _ _ _ _ _ _ (fun _ => eq_refl) H1).
    + apply structs_syncs; [|exact H2]. intros x Hi. destruct (Hsh x Hi) as (slots & Hs & Hl & _). now exists slots.
  - destruct (kids_contexts Ms _ _ HP HQ (choice_fields cases default) 0%nat Hfin) as (c0s & Hc & Hk). exists (Node None c0s). split.
    { intros M HM. exact (Hc M HM None []). }
    intros xs Hxs inited.
    assert (Hsh : forall x, In (Some x) xs -> choice_like selector cases default x /\
        forall k f, branch selector cases default x = Some (k, f) ->
          valid_field (valid S n) (finite S n) true (mkE (fst x) (slots_of (snd x))) f (nth_slot k (slots_of (snd x)))).
    { intros x Hi. pose proof (forall_in _ xs Hxs x Hi) as Hv. cbn [valid] in Hv. destruct Hv as (d' & Hd' & Hv).
      rewrite Hd in Hd'. injection Hd' as <-. destruct Hv as (slots & sel & Hs & Hl & Hsel & Hcs & Hf). split.
      - split; [destruct cases; [now destruct (Hcs eq_refl)|reflexivity]|]. exists slots, sel. repeat split; try assumption.
        destruct (select sel 0 cases default) as [[i f]|]; [apply Hf|exact Hf].
      - intros k f Hb. unfold branch in Hb. rewrite Hsel in Hb. rewrite Hb in Hf. rewrite Hs. cbn [slots_of]. apply Hf. }
    destruct (Hk (fun j => map (obind_opt (fun x => choice_occ selector cases default x j)) xs)
      (fun j => if inited then (j <? length (choice_fields cases None))%nat else false)) as (cws & H1 & H2).
    { intros j f Hj. apply Forall_forall. intros o Ho y Hy. apply in_map_iff in Ho as ([x|] & Hox & Hin); [|cbn in Hox; congruence].
      cbn [obind_opt] in Hox. destruct (Hsh x Hin) as [Hlike Hvf]. destruct Hlike as (_ & slots & sel & Hs & Hl & Hsel & _).
      unfold choice_occ in Hox. destruct (branch selector cases default x) as [[k f']|] eqn:Eb; [|congruence].
      unfold at_k in Hox. destruct (0 + j =? k)%nat eqn:Ejk; [|congruence]. assert (k = j) by lia. subst k.
      rewrite <- Hox in Hy. injection Hy as <-.
      assert (f' = f).
      { unfold branch in Eb. rewrite Hsel in Eb. apply select_nth in Eb. congruence. }
      subst f'. unfold f_ok, occ. cbn [fst snd]. specialize (Hvf j f eq_refl). rewrite Hs in *. cbn [slots_of] in *. split; [exact Hvf|].
      apply (HC id (DChoice selector cases default) j f Hd Hj).
      assert (j < length (choice_fields cases default))%nat by (apply nth_error_Some; congruence). lia. }
    destruct inited.
    + destruct (choices_inits Ms selector cases default) with (xs := xs) (c0s := c0s) (cws := cws) (tail := @nil node) as (tail & H3).
      { intros f Hi. destruct (field_packed Ms _ _ f HP HQ (Hfin f Hi)) as (c & Hcc & _). now exists c. }
      { intros x Hi. apply (Hsh x Hi). }
      { exact H1. }
      rewrite app_nil_r in H3. exists (Node None (cws ++ tail)). split; [exact H3|].
      apply choices_syncs; [|exact H2]. intros x Hi. apply (Hsh x Hi).
    + exists (Node None cws). split; [now rewrite (kids_inits_off _ _ _ _ _ _ _ (fun _ => eq_refl) H1)|].
      pose proof (choices_syncs Ms selector cases default xs cws c0s []) as H3. rewrite app_nil_r in H3.
      apply H3; [|exact H2]. intros x Hi. apply (Hsh x Hi).
  - destruct (kids_contexts Ms _ _ HP HQ fs 0%nat Hfin) as (c0s & Hc & Hk). exists (Node None c0s). split.
    { intros M HM. exact (Hc M HM None []). }
    intros xs Hxs inited.
    assert (Hno : forall x, In (Some x) xs -> False).
    { intros x Hi. pose proof (forall_in _ xs Hxs x Hi) as Hv. cbn [valid] in Hv. destruct Hv as (d' & Hd' & Hv).
      rewrite Hd in Hd'. injection Hd' as <-. destruct Hv as [Hv _]. discriminate. }
    exists (Node None c0s). split.
    + destruct inited; [|reflexivity]. apply inits_const. intros x Hi. now destruct (Hno x Hi).
    + apply syncs_const. intros x Hi. now destruct (Hno x Hi).
Qed.

(** ** Any type of a schema *)

(** The methods with at least [n] levels. *)
Definition levels (S : schema) (n : nat) (M : methods) : Prop := exists f, (n <= f)%nat /\ M = run S f.

Lemma levels_down : forall S n M, levels S (Datatypes.S n) M ->
  exists f, M = run S (Datatypes.S f) /\ levels S n (run S f).
Proof.
  intros S n M (f & Hf & ->). destruct f as [|f]; [lia|]. exists f. split; [reflexivity|]. exists f. split; [lia|reflexivity].
Qed.

Lemma syncs_impl : forall {X N} (step step' : X -> N -> N -> N -> N -> Prop) l a b,
  (forall x a b a' b', step x a b a' b' -> step' x a b a' b') -> syncs step a b l -> syncs step' a b l.
Proof.
  intros X N step step'. induction l as [|[x|] l IH]; intros a b H Hs; cbn in *; [exact I| |].
  - destruct Hs as (a' & b' & H1 & H2). exists a', b'. auto.
  - auto.
Qed.
Lemma inits_impl : forall {X N} (step step' : X -> N -> N -> Prop) l a b,
  (forall x a a', step x a a' -> step' x a a') -> inits step a l b -> inits step' a l b.
Proof.
  intros X N step step'. induction l as [|[x|] l IH]; intros a b H Hs; cbn in *; [exact Hs| |].
  - destruct Hs as (a' & H1 & H2). exists a'. auto.
  - auto.
Qed.

Lemma levels_ok : forall S, causal S -> forall n,
  plain_ok (levels S n) (valid S n) /\ packed_ok (levels S n) (valid S n) (finite S n).
Proof.
  intros S HC. induction n as [|n [HP HQ]]; split.
  - intros id ps v H. destruct H.
  - intros id H. destruct H.
  - intros id ps v Hv. pose proof Hv as (d & Hd & _).
    destruct (def_plain _ S n id ps v d HC HP HQ Hd Hv) as (enc & H). exists enc. intros M HM.
    destruct (levels_down S n M HM) as (f & -> & Hf). cbn [run m_marshal m_unmarshal]. unfold of_def. rewrite Hd. now apply H.
  - intros id Hfin. pose proof Hfin as (d & Hd & _).
    destruct (def_packed _ S n id d HC HP HQ Hd Hfin) as (n0 & Hc & H). exists n0. split.
    + intros M HM. destruct (levels_down S n M HM) as (f & -> & Hf). cbn [run m_create]. unfold of_def. rewrite Hd. now apply Hc.
    + intros xs Hxs inited. destruct (H xs Hxs inited) as (nw & H1 & H2). exists nw. split.
      * destruct inited; [|exact H1]. eapply inits_impl; [|exact H1]. intros x a a' Hx M HM.
        destruct (levels_down S n M HM) as (f & -> & Hf). cbn [run m_init]. unfold of_def. rewrite Hd. now apply Hx.
      * eapply syncs_impl; [|exact H2]. intros x a b a' b' (enc & Hx). exists enc. intros M HM.
        destruct (levels_down S n M HM) as (f & -> & Hf). cbn [run m_pmarshal m_punmarshal]. unfold of_def. rewrite Hd. now apply Hx.
Qed.

(** Writing and reading back any value of any type. *)
Theorem schema_roundtrip : forall S n id ps v, causal S -> valid S n false id ps v ->
  exists enc, forall fuel, (n <= fuel)%nat ->
    roundtrips_at (MarshalZserio S fuel id ps v) (UnmarshalZserio S fuel id ps) enc v.
Proof.
  intros S n id ps v HC Hv. destruct (proj1 (levels_ok S HC n) id ps v Hv) as (enc & H). exists enc.
  intros fuel Hf. apply H. exists fuel. split; [exact Hf|reflexivity].
Qed.
