(** Theorems about the generated types: layout, choices, unions. *)

Require Import ZArith List Bool Lia ZifyBool ZifyNat.
From Verif Require Import Bits Stream Spec PosSpec Scalars Traits TraitSpec Delta DeltaSpec DeltaFacts PosFacts
  Array ArraySpec ArrayFacts Schema SchemaSpec SchemaFacts SchemaPlain SchemaPacked SchemaObjects.
Import ListNotations.
Open Scope Z_scope.

Lemma levels_run : forall S n fuel, (n <= fuel)%nat -> levels S n (run S fuel).
Proof. intros S n fuel H. exists fuel. split; [exact H|reflexivity]. Qed.

(** ** Structs *)

Theorem struct_bits : forall S n id fs ps slots, causal S -> nth_error S id = Some (DStruct fs) ->
  valid S (Datatypes.S n) false id ps (VRec 0 slots) ->
  exists contents, length contents = length fs /\
  (forall i f v c, nth_error fs i = Some f -> nth_slot i slots = Some v -> nth_error contents i = Some c ->
     forall fuel, (n <= fuel)%nat ->
     roundtrips_at (write_content (run S fuel) (mkE ps slots) f v) (read_content (run S fuel) (mkE ps (before i slots)) f) c v) /\
  forall fuel, (n < fuel)%nat ->
    roundtrips_at (MarshalZserio S fuel id ps (VRec 0 slots)) (UnmarshalZserio S fuel id ps)
      (struct_layout (mkE ps slots) 0 fs contents) (VRec 0 slots).
Proof.
  intros S n id fs ps slots HC Hd Hv. cbn [valid] in Hv. destruct Hv as (d' & Hd' & Hv).
  rewrite Hd in Hd'. injection Hd' as <-. destruct Hv as (slots' & He & Hl & Hf). injection He as <-.
  destruct (levels_ok S HC n) as [HP HQ].
  destruct (struct_plain _ _ _ ps slots HP HQ fs [] slots eq_refl Hl) as (contents & Hcl & Hcs & H).
  { intros i f Hi. split; [now apply Hf|]. apply (HC id _ i f Hd Hi). cbn.
    assert (i < length fs)%nat by (apply nth_error_Some; congruence). lia. }
  exists contents. split; [exact Hcl|]. split.
  - intros i f v c Hi Hs Hc fuel Hfu. apply (Hcs i f v c Hi Hs Hc). now apply levels_run.
  - intros fuel Hfu. destruct fuel as [|fuel]; [lia|]. unfold MarshalZserio, UnmarshalZserio. cbn [run m_marshal m_unmarshal].
    unfold of_def. rewrite Hd. cbn [marshal_def unmarshal_def].
    destruct (H (run S fuel) (levels_run S n fuel ltac:(lia))) as [H1 H2]. split; [exact H1|].
    eapply decodes_at_map; [exact H2|reflexivity].
Qed.

(** ** Choices *)

Lemma select_branch : forall sel default cases i k f, select sel i cases default = Some (k, f) ->
  exists k', k = (i + k')%nat /\ branch_of sel cases default k' f.
Proof.
  intros sel default. induction cases as [|[conds [f0|]] cases IH]; intros i k f H; cbn in H.
  - destruct default as [d|]; [|discriminate]. injection H as <- <-. exists 0%nat. split; [lia|].
    now apply (branch_default sel [] (Some d) d).
  - destruct (match conds with [] => false | c :: _ => sel =? c end) eqn:Em.
    + injection H as <- <-. exists 0%nat. split; [lia|].
      apply (branch_case sel _ default [] conds f0 cases eq_refl eq_refl).
      destruct conds as [|c conds]; [discriminate|]. cbn. f_equal. lia.
    + destruct (IH (S i) k f H) as (k' & -> & Hb). exists (S k'). split; [lia|].
      inversion Hb as [pre conds' f' post Hp Hn Hh Hk|f' Hd Hn Hk]; subst.
      * apply (branch_case sel _ default ((conds, Some f0) :: pre) conds' f post); [reflexivity| |exact Hh].
        cbn [forallb]. unfold matches at 1. cbn [with_field fst snd is_some andb]. now rewrite Em, Hn.
      * apply (branch_default sel ((conds, Some f0) :: cases) (Some f) f eq_refl).
        cbn [forallb]. unfold matches at 1. cbn [with_field fst snd is_some andb]. now rewrite Em, Hn.
  - destruct (IH i k f H) as (k' & -> & Hb). exists k'. split; [reflexivity|].
    inversion Hb as [pre conds' f' post Hp Hn Hh Hk|f' Hd Hn Hk]; subst.
    + apply (branch_case sel _ default ((conds, None) :: pre) conds' f post); [reflexivity|exact Hn|exact Hh].
    + now apply (branch_default sel ((conds, None) :: cases) (Some f) f eq_refl).
Qed.

Lemma select_none : forall sel default cases i, select sel i cases default = None ->
  default = None /\ forallb (fun c => negb (matches sel c)) cases = true.
Proof.
  intros sel default. induction cases as [|[conds [f0|]] cases IH]; intros i H; cbn in H.
  - destruct default; [discriminate|]. now split.
  - destruct (match conds with [] => false | c :: _ => sel =? c end) eqn:Em; [discriminate|].
    destruct (IH (S i) H) as [H1 H2]. split; [exact H1|]. cbn [forallb]. unfold matches at 1.
    cbn [with_field fst snd is_some andb]. now rewrite Em, H2.
  - destruct (IH i H) as [H1 H2]. split; [exact H1|exact H2].
Qed.

Lemma branch_unique_gen : forall sel default cases k f, branch_of sel cases default k f ->
  forall i, select sel i cases default = Some ((i + k)%nat, f).
Proof.
  intros sel default. induction cases as [|[conds [f0|]] cases IH]; intros k f Hb i.
  - inversion Hb as [pre conds' f' post Hp Hn Hh Hk|f' Hd Hn Hk]; subst.
    + destruct pre; discriminate.
    + cbn. now rewrite Nat.add_0_r.
  - cbn [select]. inversion Hb as [pre conds' f' post Hp Hn Hh Hk|f' Hd Hn Hk]; subst.
    + destruct pre as [|c pre].
      * injection Hp as <- <- <-. destruct conds as [|c conds]; [discriminate|]. cbn in Hh. injection Hh as ->.
        rewrite Z.eqb_refl. cbn. now rewrite Nat.add_0_r.
      * injection Hp as <- ->. cbn [forallb] in Hn. apply andb_prop in Hn as [Hn1 Hn2]. unfold matches in Hn1.
        cbn [with_field fst snd is_some andb] in Hn1. destruct (match conds with [] => false | c :: _ => sel =? c end); [discriminate|].
        rewrite (IH (length (filter with_field pre)) f) by now apply (branch_case sel _ default pre conds' f post).
        cbn [filter with_field snd is_some length]. do 2 f_equal. lia.
    + cbn [forallb] in Hn. apply andb_prop in Hn as [Hn1 Hn2]. unfold matches in Hn1.
      cbn [with_field fst snd is_some andb] in Hn1. destruct (match conds with [] => false | c :: _ => sel =? c end); [discriminate|].
      rewrite (IH (length (filter with_field cases)) f) by now apply branch_default.
      cbn [filter with_field snd is_some length]. do 2 f_equal. lia.
  - cbn [select]. inversion Hb as [pre conds' f' post Hp Hn Hh Hk|f' Hd Hn Hk]; subst.
    + destruct pre as [|c pre]; [discriminate|]. injection Hp as <- ->.
      rewrite (IH (length (filter with_field pre)) f) by now apply (branch_case sel _ default pre conds' f post).
      reflexivity.
    + rewrite (IH (length (filter with_field cases)) f) by now apply branch_default. reflexivity.
Qed.
Lemma branch_select : forall sel cases default k f,
  branch_of sel cases default k f <-> select sel 0 cases default = Some (k, f).
Proof.
  intros sel cases default k f. split.
  - intros H. exact (branch_unique_gen sel default cases k f H 0%nat).
  - intros H. now destruct (select_branch _ _ _ _ _ _ H) as (k' & -> & Hb).
Qed.

Theorem choice_bits : forall S n id selector cases default ps slots sel k f, causal S ->
  nth_error S id = Some (DChoice selector cases default) -> selector ps = Some sel -> branch_of sel cases default k f ->
  valid S (Datatypes.S n) false id ps (VRec 0 slots) ->
  exists c, (forall v, nth_slot k slots = Some v -> forall fuel, (n <= fuel)%nat ->
     roundtrips_at (write_content (run S fuel) (mkE ps slots) f v) (read_content (run S fuel) (mkE ps (before k slots)) f) c v) /\
  forall fuel, (n < fuel)%nat ->
    roundtrips_at (MarshalZserio S fuel id ps (VRec 0 slots)) (UnmarshalZserio S fuel id ps)
      (field_layout (mkE ps slots) f (nth_slot k slots) c) (VRec 0 slots).
Proof.
  intros S n id selector cases default ps slots sel k f HC Hd Hsel Hb Hv. cbn [valid] in Hv. destruct Hv as (d' & Hd' & Hv).
  rewrite Hd in Hd'. injection Hd' as <-. destruct Hv as (slots' & sel' & He & Hl & Hsel' & _ & Hf). injection He as <-.
  rewrite Hsel in Hsel'. injection Hsel' as <-. apply branch_select in Hb. rewrite Hb in Hf. destruct Hf as [Ho Hf].
  destruct (levels_ok S HC n) as [HP HQ]. pose proof (select_nth _ _ _ _ _ Hb) as Hn.
  assert (Hi : (k < length slots)%nat) by (rewrite Hl; apply nth_error_Some; congruence).
  pose proof (HC id _ k f Hd Hn ps slots Hi) as Ha.
  destruct (field_content _ _ _ _ _ f _ HP HQ Ha Hf) as (c & Hc & H). exists c. split.
  - intros v Hs fuel Hfu. apply (Hc v Hs). now apply levels_run.
  - intros fuel Hfu. destruct fuel as [|fuel]; [lia|]. unfold MarshalZserio, UnmarshalZserio. cbn [run m_marshal m_unmarshal].
    unfold of_def. rewrite Hd. cbn [marshal_def unmarshal_def]. rewrite Hsel, Hb, <- Hl.
    rewrite (only_field_before k slots Ho Hi) in H.
    destruct (H (run S fuel) (levels_run S n fuel ltac:(lia))) as [H1 H2]. split; [exact H1|].
    eapply decodes_at_map; [exact H2|]. now rewrite only_field_eq.
Qed.

(** No branch: no bits. *)
Theorem choice_empty : forall S id selector cases default ps sel fuel tag slots,
  nth_error S id = Some (DChoice selector cases default) -> selector ps = Some sel ->
  (forall k f, ~ branch_of sel cases default k f) ->
  encodes (MarshalZserio S (Datatypes.S fuel) id ps (VRec tag slots)) [] /\
  decodes (UnmarshalZserio S (Datatypes.S fuel) id ps) [] (VRec 0 (repeat None (length (choice_fields cases default)))).
Proof.
  intros S id selector cases default ps sel fuel tag slots Hd Hsel Hno.
  unfold MarshalZserio, UnmarshalZserio. cbn [run m_marshal m_unmarshal]. unfold of_def. rewrite Hd.
  cbn [marshal_def unmarshal_def]. rewrite Hsel. destruct (select sel 0 cases default) as [[k f]|] eqn:Es.
  - apply branch_select in Es. now destruct (Hno k f).
  - split.
    + intros [wb wf] Hw. cbn in *. subst wf. unfold wret. now rewrite app_nil_r.
    + intros pos rest. unfold rret. cbn. now rewrite Nat.add_0_r.
Qed.

(** ** Unions *)

Theorem union_bits : forall S n id fs ps tag slots f, causal S -> nth_error S id = Some (DUnion fs) ->
  1 <= tag <= MaxVarsize -> nth_error fs (Z.to_nat (tag - 1)) = Some f ->
  valid S (Datatypes.S n) false id ps (VRec tag slots) ->
  exists c, (forall v, nth_slot (Z.to_nat (tag - 1)) slots = Some v -> forall fuel, (n <= fuel)%nat ->
     roundtrips_at (write_content (run S fuel) (mkE ps slots) f v)
       (read_content (run S fuel) (mkE ps (before (Z.to_nat (tag - 1)) slots)) f) c v) /\
  forall fuel, (n < fuel)%nat ->
    roundtrips_at (MarshalZserio S fuel id ps (VRec tag slots)) (UnmarshalZserio S fuel id ps)
      (papp (pfix (output (WriteVarsize tag))) (field_layout (mkE ps slots) f (nth_slot (Z.to_nat (tag - 1)) slots) c))
      (VRec tag slots).
Proof.
  intros S n id fs ps tag slots f HC Hd Ht Hn Hv. cbn [valid] in Hv. destruct Hv as (d' & Hd' & Hv).
  rewrite Hd in Hd'. injection Hd' as <-. destruct Hv as (_ & tag' & slots' & He & Hl & _ & Hf). injection He as <- <-.
  replace (tag <? 1) with false in Hf by lia. rewrite Hn in Hf. destruct Hf as [Ho Hf].
  set (k := Z.to_nat (tag - 1)) in *. destruct (levels_ok S HC n) as [HP HQ].
  assert (Hi : (k < length slots)%nat) by (rewrite Hl; apply nth_error_Some; congruence).
  pose proof (HC id _ k f Hd Hn ps slots Hi) as Ha.
  destruct (field_content _ _ _ _ _ f _ HP HQ Ha Hf) as (c & Hc & H). exists c. split.
  - intros v Hs fuel Hfu. apply (Hc v Hs). now apply levels_run.
  - intros fuel Hfu. destruct fuel as [|fuel]; [lia|]. unfold MarshalZserio, UnmarshalZserio. cbn [run m_marshal m_unmarshal].
    unfold of_def. rewrite Hd. cbn [marshal_def unmarshal_def]. fold k. replace (tag <? 1) with false by lia. rewrite Hn.
    rewrite (only_field_before k slots Ho Hi), Hl in H.
    destruct (H (run S fuel) (levels_run S n fuel ltac:(lia))) as [H1 H2].
    pose proof (varsize_output tag ltac:(lia)) as Hvs. apply roundtrips_pfix in Hvs. destruct Hvs as [V1 V2]. split.
    + eapply encodes_at_bind; [exact V1|exact H1].
    + eapply decodes_at_bind; [exact V2|]. fold k. replace (tag <? 1) with false by lia. rewrite Hn.
      eapply decodes_at_map; [exact H2|]. rewrite <- Hl. now rewrite only_field_eq.
Qed.

(** A tag that is not one of the fields. *)
Theorem union_unknown_tag : forall S id fs ps tag slots fuel, nth_error S id = Some (DUnion fs) ->
  0 <= tag <= MaxVarsize -> (tag = 0 \/ Z.of_nat (length fs) < tag) ->
  encodes (MarshalZserio S (Datatypes.S fuel) id ps (VRec tag slots)) (output (WriteVarsize tag)) /\
  decodes (UnmarshalZserio S (Datatypes.S fuel) id ps) (output (WriteVarsize tag)) (VRec tag (repeat None (length fs))).
Proof.
  intros S id fs ps tag slots fuel Hd Ht Hu.
  unfold MarshalZserio, UnmarshalZserio. cbn [run m_marshal m_unmarshal]. unfold of_def. rewrite Hd.
  cbn [marshal_def unmarshal_def].
  assert (E : (if tag <? 1 then None else nth_error fs (Z.to_nat (tag - 1))) = None).
  { destruct (tag <? 1) eqn:El; [reflexivity|]. apply nth_error_None. lia. }
  rewrite E. destruct (varsize_output tag Ht) as [V1 V2]. split.
  - intros w Hw. unfold wbind. now rewrite (V1 w Hw).
  - intros pos rest. unfold rbind. rewrite V2. now rewrite E.
Qed.

(** A tag above the limit of varsize is rejected. *)
Theorem union_large_tag : forall S id fs ps tag slots fuel, nth_error S id = Some (DUnion fs) ->
  MaxVarsize < tag < 2 ^ 64 -> rejects (MarshalZserio S (Datatypes.S fuel) id ps (VRec tag slots)) ErrOutOfBounds.
Proof.
  intros S id fs ps tag slots fuel Hd Ht w. unfold MarshalZserio. cbn [run m_marshal]. unfold of_def. rewrite Hd.
  cbn [marshal_def]. unfold wbind, WriteVarsize. replace (MaxVarsize <? tag) with true by lia. reflexivity.
Qed.

(** ** Packed unions *)

Theorem packed_union_lost : forall S id fs ps v nw nr fuel tag slots, nth_error S id = Some (DUnion fs) ->
  v = VRec tag slots ->
  pencodes (m_pmarshal (run S (Datatypes.S fuel)) id ps v) nw nw pnil /\
  pdecodes (m_punmarshal (run S (Datatypes.S fuel)) id ps) nr nr pnil (VRec 0 (repeat None (length fs))).
Proof.
  intros S id fs ps v nw nr fuel tag slots Hd ->. cbn [run m_pmarshal m_punmarshal]. unfold of_def. rewrite Hd.
  split; [apply pencodes_ret|apply pdecodes_ret].
Qed.

Lemma finite_create : forall S n id fuel, causal S -> finite S n id -> (n <= fuel)%nat ->
  exists n0, m_create (run S fuel) id (Node None []) = (n0, Ok tt).
Proof.
  intros S n id fuel HC Hf Hn. destruct (proj2 (levels_ok S HC n) id Hf) as (n0 & Hc & _). exists n0.
  apply Hc. now apply levels_run.
Qed.

Lemma union_init : forall S id fs fuel ps tag slots n, nth_error S id = Some (DUnion fs) ->
  m_init (run S (Datatypes.S fuel)) id ps (VRec tag slots) n = (n, Ok tt).
Proof. intros S id fs fuel ps tag slots n Hd. cbn [run m_init]. unfold of_def. now rewrite Hd. Qed.

(** A packed array of unions consists of its length only. *)
Theorem packed_union_array : forall S n id fs E args cfg es fuel, causal S -> nth_error S id = Some (DUnion fs) ->
  finite S n id -> (n <= Datatypes.S fuel)%nat -> a_packed cfg = true -> a_check cfg = false -> holds cfg (length es) ->
  (forall i, (i < length es)%nat -> args E i <> None) -> Forall (fun v => exists tag slots, v = VRec tag slots) es ->
  roundtrips_at (write_array (object_ops (run S (Datatypes.S fuel)) E id args) cfg es)
    (read_array (object_ops (run S (Datatypes.S fuel)) E id args) cfg)
    (pfix (length_bits cfg (length es))) (map (fun _ => VRec 0 (repeat None (length fs))) es).
Proof.
  intros S n id fs E args cfg es fuel HC Hd Hfin Hn Hp Hck Hh Ha Hes.
  destruct (finite_create S n id _ HC Hfin Hn) as (n0 & Hc). set (M := run S (Datatypes.S fuel)) in *.
  assert (Hinit : forall es i, Forall (fun v => exists tag slots, v = VRec tag slots) es ->
    (forall j, (j < i + length es)%nat -> args E j <> None) ->
    init_elems (object_ops M E id args) i es n0 = (n0, Ok tt)).
  { induction es0 as [|e es0 IH]; intros i H0 H1; [reflexivity|]. apply Forall_cons_iff in H0 as [(tag & slots & ->) H0].
    cbn [init_elems object_ops k_init]. cbn [length] in H1.
    destruct (args E i) as [ps|] eqn:Ei; [|now destruct (H1 i ltac:(lia))].
    unfold M. rewrite (union_init S id fs fuel ps tag slots n0 Hd). apply IH; [exact H0|]. intros j Hj. apply H1. lia. }
  assert (Htr : forall es i, Forall (fun v => exists tag slots, v = VRec tag slots) es ->
    (forall j, (j < i + length es)%nat -> args E j <> None) ->
    transmits (k_pwrite (object_ops M E id args)) (k_pread (object_ops M E id args)) i n0 n0 es
      (map (fun _ => VRec 0 (repeat None (length fs))) es) (map (fun _ => pnil) es)).
  { induction es0 as [|e es0 IH]; intros i H0 H1; [exact I|]. apply Forall_cons_iff in H0 as [(tag & slots & ->) H0].
    cbn [map transmits object_ops k_pwrite k_pread]. exists n0, n0. cbn [length] in H1.
    destruct (args E i) as [ps|] eqn:Ei; [|now destruct (H1 i ltac:(lia))].
    destruct (packed_union_lost S id fs ps _ n0 n0 fuel tag slots Hd eq_refl) as [W R].
    split; [exact W|]. split; [exact R|]. apply IH; [exact H0|]. intros j Hj. apply H1. lia. }
  destruct (packed_array_roundtrip (object_ops M E id args) cfg es (map (fun _ => VRec 0 (repeat None (length fs))) es)
    (map (fun _ => pnil) es) n0 n0 Hp Hh) as [H1 H2].
  - cbn [object_ops k_create]. now rewrite Hc.
  - apply Hinit; [exact Hes|exact Ha].
  - apply Htr; [exact Hes|exact Ha].
  - assert (Eb : forall p, array_bits cfg (map (fun _ : value => pnil) es) p = pfix (length_bits cfg (length es)) p).
    { intros p. unfold array_bits, papp, pfix. rewrite map_length.
      assert (En : forall (l : list value) q, pconcat (map (aligned cfg) (map (fun _ => pnil) l)) q = []).
      { induction l as [|x l IH]; intros q; [reflexivity|]. cbn [map pconcat]. unfold aligned at 1. rewrite Hck.
        unfold papp. cbn. rewrite Nat.add_0_r. apply IH. }
      now rewrite En, app_nil_r. }
    split; [eapply encodes_at_ext; [exact Eb|exact H1]|eapply decodes_at_ext; [exact Eb|exact H2]].
Qed.

(** A union field of a packed object has no content. *)
Theorem packed_union_field : forall S id fs args E E' f ps fuel tag slots nw nr, nth_error S id = Some (DUnion fs) ->
  f_type f = TRef id args -> f_array f = None -> args E 0%nat = Some ps -> args E' 0%nat = Some ps ->
  pencodes (pwrite_content (run S (Datatypes.S fuel)) E f (VRec tag slots)) nw nw pnil /\
  pdecodes (pread_content (run S (Datatypes.S fuel)) E' f) nr nr pnil (VRec 0 (repeat None (length fs))).
Proof.
  intros S id fs args E E' f ps fuel tag slots nw nr Hd Ht Hf H1 H2. unfold pwrite_content, pread_content. rewrite Hf, Ht, H1, H2.
  now apply (packed_union_lost S id fs ps (VRec tag slots) nw nr fuel tag slots).
Qed.

(** ** Length checks *)

Lemma wrong_length : forall M E f l packed m es, f_array f = Some (Some l, packed) -> l E = Some m ->
  i64 m <> Z.of_nat (length es) ->
  match f_type f with
  | TBasic t => exists T, codec_of E t = Ok T
  | TRef _ args => arguments_ok E args (length es) = true
  end ->
  rejects (write_content M E f (VArr es)) ErrArraySize.
Proof.
  intros M E f l packed m es Hf Hl Hne Ht w. unfold write_content, write_field_array, array_config. rewrite Hf, Hl. cbn [a_auto a_fixed negb andb].
  replace (i64 m =? Z.of_nat (length es)) with false by lia. cbn [negb].
  destruct (f_type f) as [t|id args].
  - destruct Ht as [T ->]. reflexivity.
  - rewrite Ht. reflexivity.
Qed.

(** The writer of a struct stops at a field with a wrong length; what it has
    written until then is what precedes the array. *)
Theorem fixed_length_checked : forall S n id fs ps slots k f l packed m es fuel w, causal S ->
  nth_error S id = Some (DStruct fs) -> length slots = length fs ->
  nth_error fs k = Some f -> f_array f = Some (Some l, packed) -> nth_slot k slots = Some (VArr es) ->
  (forall i g, (i < k)%nat -> nth_error fs i = Some g -> valid_field (valid S n) (finite S n) false (mkE ps slots) g (nth_slot i slots)) ->
  (f_align f < 250)%nat -> included (mkE ps slots) f = Some true ->
  l (mkE ps slots) = Some m -> i64 m <> Z.of_nat (length es) ->
  match f_type f with
  | TBasic t => exists T, codec_of (mkE ps slots) t = Ok T
  | TRef _ args => arguments_ok (mkE ps slots) args (length es) = true
  end ->
  (n < fuel)%nat -> wfaults w = [] ->
  exists contents, length contents = k /\
    (forall i g v c, nth_error fs i = Some g -> nth_slot i slots = Some v -> nth_error contents i = Some c ->
       encodes_at (write_content (run S (pred fuel)) (mkE ps slots) g v) c) /\
    MarshalZserio S fuel id ps (VRec 0 slots) w =
      (mkW (wbits w ++ papp (struct_layout (mkE ps slots) 0 (firstn k fs) contents)
                            (field_layout (mkE ps slots) f (nth_slot k slots) pnil) (length (wbits w))) [],
       Err ErrArraySize).
Proof.
  intros S n id fs ps slots k f l packed m es fuel w HC Hd Hlen Hk Hf Hs Hpre Hal Hin Hl Hne Ht Hfu Hw.
  destruct (levels_ok S HC n) as [HP HQ]. destruct fuel as [|fuel]; [lia|].
  unfold MarshalZserio. cbn [run m_marshal]. unfold of_def. rewrite Hd. cbn [marshal_def].
  pose proof (levels_run S n fuel ltac:(lia)) as HM. set (M := run S fuel) in *.
  assert (Hgen : forall k fs' i w, nth_error fs' k = Some f -> nth_slot (i + k) slots = Some (VArr es) ->
    (forall j g, nth_error fs' j = Some g -> nth_error fs (i + j)%nat = Some g) ->
    (forall j g, (j < k)%nat -> nth_error fs' j = Some g ->
       valid_field (valid S n) (finite S n) false (mkE ps slots) g (nth_slot (i + j) slots)) ->
    wfaults w = [] ->
    exists contents, length contents = k /\
      (forall j g v c, nth_error fs' j = Some g -> nth_slot (i + j) slots = Some v -> nth_error contents j = Some c ->
         encodes_at (write_content M (mkE ps slots) g v) c) /\
      write_fields M (mkE ps slots) i fs' w =
      (mkW (wbits w ++ papp (struct_layout (mkE ps slots) i (firstn k fs') contents)
                            (field_layout (mkE ps slots) f (nth_slot (i + k) slots) pnil) (length (wbits w))) [], Err ErrArraySize)).
  { clear k Hk Hs Hpre w Hw. induction k as [|k IH]; intros [|g fs'] i w Hk Hs Hsub Hpre Hw; try discriminate.
    - cbn in Hk. injection Hk as ->. rewrite Nat.add_0_r in *. exists []. split; [reflexivity|].
      split; [intros [|j] g' v c _ _ Hc; discriminate|].
      cbn [firstn struct_layout write_fields e_slots]. unfold wbind at 1. unfold write_field, field_layout.
      rewrite Hin, Hs. unfold wbind at 1. destruct (align_opt_at (f_align f)) as [A1 _]. rewrite (A1 w Hw).
      pose proof (wrong_length M (mkE ps slots) f l packed m es Hf Hl Hne Ht) as Hrej.
      destruct (f_optional f).
      + unfold wbind. destruct (bool_at true) as [B1 _]. cbn [is_some]. rewrite B1 by reflexivity. cbn [wbits].
        rewrite Hrej. unfold papp, pnil, pfix. cbn [app length]. rewrite Nat.add_0_r, <- !app_assoc. reflexivity.
      + rewrite Hrej. unfold papp, pnil. cbn [app length]. rewrite app_nil_r, Nat.add_0_r. reflexivity.
    - cbn in Hk. assert (Hgi : nth_error fs i = Some g) by (rewrite <- (Nat.add_0_r i); now apply (Hsub 0%nat)).
      assert (Hil : (i < length slots)%nat) by (rewrite Hlen; apply nth_error_Some; congruence).
      pose proof (HC id _ i g Hd Hgi ps slots Hil) as Ha.
      pose proof (Hpre 0%nat g ltac:(lia) eq_refl) as Hv. rewrite Nat.add_0_r in Hv.
      destruct (field_content _ _ _ _ _ g _ HP HQ Ha Hv) as (c & Hc & H). destruct (H M HM) as [W _].
      destruct (IH fs' (Datatypes.S i) (mkW (wbits w ++ field_layout (mkE ps slots) g (nth_slot i slots) c (length (wbits w))) [])) as (cs & Hcl & Hcc & Hcs).
      + exact Hk.
      + now replace (Datatypes.S i + k)%nat with (i + Datatypes.S k)%nat by lia.
      + intros j g' Hj. replace (Datatypes.S i + j)%nat with (i + Datatypes.S j)%nat by lia. now apply Hsub.
      + intros j g' Hj Hg. replace (Datatypes.S i + j)%nat with (i + Datatypes.S j)%nat by lia. apply Hpre; [lia|exact Hg].
      + reflexivity.
      + exists (c :: cs). split; [cbn; now rewrite Hcl|]. split.
        { intros [|j] g' v c' Hg Hsl Hc'; cbn in Hg, Hc'.
          - injection Hg as ->. injection Hc' as <-. rewrite Nat.add_0_r in Hsl. now apply (Hc v Hsl M HM).
          - apply (Hcc j g' v c' Hg); [|exact Hc']. now replace (Datatypes.S i + j)%nat with (i + Datatypes.S j)%nat by lia. }
        cbn [write_fields e_slots firstn struct_layout]. unfold wbind at 1.
        rewrite (W w Hw), Hcs. cbn [wbits]. replace (i + Datatypes.S k)%nat with (Datatypes.S i + k)%nat by lia.
        unfold papp. rewrite !app_length, !Nat.add_assoc, <- !app_assoc. reflexivity. }
  destruct (Hgen k fs 0%nat w Hk Hs) as (cs & Hcl & Hcc & H); [now intros j g|now intros j g; apply Hpre|exact Hw|].
  exists cs. split; [exact Hcl|]. split; [exact Hcc|exact H].
Qed.

Lemma read_elems_length : forall {A N} (K : elemops A N) cfg n i s s' es,
  read_elems K cfg i n s = (s', Ok es) -> length es = n.
Proof.
  intros A N K cfg. induction n as [|n IH]; intros i s s' es H; cbn [read_elems] in H.
  - unfold sret in H. now injection H as <- <-.
  - unfold sbind in H. destruct (read_elem K cfg i s) as [s1 [e|x| |]]; try discriminate.
    destruct (read_elems K cfg (S i) n s1) as [s2 [es'|x| |]] eqn:E; try discriminate.
    unfold sret in H. injection H as <- <-. cbn. f_equal. now apply (IH _ _ _ _ E).
Qed.
Lemma read_array_fixed : forall {A N} (K : elemops A N) cfg r r' es, a_auto cfg = false ->
  read_array K cfg r = (r', Ok es) -> Z.of_nat (length es) = a_fixed cfg.
Proof.
  intros A N K cfg r r' es Ha H. unfold read_array, with_ctx in H.
  destruct (array_unmarshal K cfg (None, r)) as [[c r1] o] eqn:E. injection H as <- ->.
  unfold array_unmarshal in E. rewrite Ha in E. unfold sbind at 1 in E. unfold sret at 1 in E.
  destruct (a_fixed cfg <? 0) eqn:E1; [discriminate|]. destruct (a_fixed cfg =? 0) eqn:E2.
  - unfold sret in E. injection E as <- <- <-. cbn. lia.
  - unfold sbind in E. match type of E with context [match ?m with _ => _ end] => destruct m as [s1 [u|x| |]] end; try discriminate.
    apply read_elems_length in E. lia.
Qed.

Lemma read_fields_inv : forall M ps fs done r r' slots, read_fields M ps done fs r = (r', Ok slots) ->
  length slots = (length done + length fs)%nat /\ firstn (length done) slots = done /\
  forall k f, nth_error fs k = Some f -> exists r1 r2,
    read_field M (mkE ps (before (length done + k) slots)) f r1 = (r2, Ok (nth_slot (length done + k) slots)).
Proof.
  intros M ps. induction fs as [|f fs IH]; intros done r r' slots H; cbn [read_fields] in H.
  - unfold rret in H. injection H as <- <-. cbn. split; [lia|]. split; [apply firstn_all|]. intros [|k] f; discriminate.
  - unfold rbind in H. destruct (read_field M _ f r) as [r1 [s|x| |]] eqn:E; try discriminate.
    destruct (IH _ _ _ _ H) as (H1 & H2 & H3). rewrite app_length in *. cbn [length] in *.
    assert (Hd : firstn (length done) slots = done).
    { replace (length done) with (Nat.min (length done) (length done + 1)) at 1 by lia.
      rewrite <- firstn_firstn, H2, firstn_app, firstn_all, Nat.sub_diag. cbn. apply app_nil_r. }
    assert (Hs : nth_slot (length done) slots = s).
    { rewrite <- (firstn_skipn (length done + 1) slots), H2. unfold nth_slot.
      rewrite <- app_assoc, app_nth2, Nat.sub_diag by lia. reflexivity. }
    split; [lia|]. split; [exact Hd|]. intros [|k] g Hk; cbn in Hk.
    + injection Hk as <-. rewrite Nat.add_0_r. exists r, r1.
      rewrite Hs. unfold before. rewrite Hd, H1. cbn [length] in E.
      replace (length done + 1 + length fs - length done)%nat with (S (length fs)) by lia. exact E.
    + specialize (H3 k g Hk). now replace (length done + S k)%nat with (length done + 1 + k)%nat by lia.
Qed.

(** The reader of a struct produces exactly as many elements as the length says. *)
Theorem fixed_length_read : forall S id fs ps fuel r r' v k f l packed, causal S ->
  nth_error S id = Some (DStruct fs) -> nth_error fs k = Some f -> f_array f = Some (Some l, packed) ->
  UnmarshalZserio S fuel id ps r = (r', Ok v) ->
  exists slots, v = VRec 0 slots /\ length slots = length fs /\
    forall x, nth_slot k slots = Some x -> exists es m, x = VArr es /\ l (mkE ps slots) = Some m /\ Z.of_nat (length es) = i64 m.
Proof.
  intros S id fs ps fuel r r' v k f l packed HC Hd Hk Hf H. destruct fuel as [|fuel]; [discriminate|].
  unfold UnmarshalZserio in H. cbn [run m_unmarshal] in H. unfold of_def in H. rewrite Hd in H. cbn [unmarshal_def] in H.
  unfold rbind in H. destruct (read_fields (run S fuel) ps [] fs r) as [r1 [slots|x| |]] eqn:E; try discriminate.
  unfold rret in H. injection H as <- <-. destruct (read_fields_inv _ _ _ _ _ _ _ E) as (H1 & _ & H2).
  exists slots. split; [reflexivity|]. cbn [length Nat.add] in *. split; [exact H1|]. intros x Hx.
  destruct (H2 k f Hk) as (r2 & r3 & Hr). rewrite Hx in Hr.
  assert (Hi : (k < length slots)%nat) by (rewrite H1; apply nth_error_Some; congruence).
  pose proof (HC id _ k f Hd Hk ps slots Hi) as (_ & _ & Ha). rewrite Hf in Ha.
  assert (Hcontent : exists r4 r5, read_content (run S fuel) (mkE ps (before k slots)) f r4 = (r5, Ok x)).
  { unfold read_field in Hr. destruct (included _ f) as [[|]|]; try discriminate. unfold rbind at 1 in Hr.
    destruct (ralign_opt (f_align f) r2) as [r4 [u|e| |]]; try discriminate. destruct (f_optional f).
    - unfold rbind at 1 in Hr. destruct (ReadBool r4) as [r5 [[|]|e| |]]; try discriminate.
      unfold rbind in Hr. destruct (read_content _ _ f r5) as [r6 [y|e| |]] eqn:Ec; try discriminate.
      unfold rret in Hr. injection Hr as <- <-. eauto.
    - unfold rbind in Hr. destruct (read_content _ _ f r4) as [r6 [y|e| |]] eqn:Ec; try discriminate.
      unfold rret in Hr. injection Hr as <- <-. eauto. }
  destruct Hcontent as (r4 & r5 & Hc). unfold read_content in Hc. rewrite Hf in Hc. unfold rbind in Hc.
  destruct (read_field_array _ _ f (Some l) packed r4) as [r6 [es|e| |]] eqn:Ea; try discriminate.
  unfold rret in Hc. injection Hc as <- <-. exists es. rewrite Ha.
  unfold read_field_array, array_config in Ea. destruct (l (mkE ps (before k slots))) as [m|].
  2: { destruct (f_type f) as [t|id' args]; [destruct (codec_of _ t)|]; discriminate. }
  exists m. split; [reflexivity|]. split; [reflexivity|].
  destruct (f_type f) as [t|id' args].
  - destruct (codec_of _ t) as [T|e| |]; try discriminate. now apply read_array_fixed in Ea.
  - now apply read_array_fixed in Ea.
Qed.

(** ** Packed arrays of objects *)

Theorem packed_objects : forall S n id E args len cfg es, causal S -> finite S n id ->
  array_config E len true = Some cfg -> holds cfg (length es) ->
  (forall i e, nth_error es i = Some e -> exists ps, args E i = Some ps /\ valid S n true id ps e) ->
  exists encs, length encs = length es /\ forall fuel, (n <= fuel)%nat ->
  roundtrips_at (write_array (object_ops (run S fuel) E id args) cfg es)
    (read_array (object_ops (run S fuel) E id args) cfg) (array_bits cfg encs) es.
Proof.
  intros S n id E args len cfg es HC Hfin Hcfg Hh Hes.
  destruct (levels_ok S HC n) as [HP HQ].
  set (f := mkF (TRef id args) (Some (len, true)) false None 0 false).
  assert (Ha : agree f E E).
  { split; [reflexivity|]. split; [intros i; reflexivity|]. destruct len; exact I || reflexivity. }
  assert (Hl : array_length E len (length es)).
  { unfold array_config, array_length, holds in *. destruct len as [l|].
    - destruct (l E) as [m|]; [|discriminate]. injection Hcfg as <-. cbn in Hh. exists m. now split.
    - injection Hcfg as <-. exact Hh. }
  destruct (object_array_roundtrip _ _ _ E E f id args len true true es HP HQ Ha eq_refl eq_refl Hl Hes (fun _ => Hfin))
    as (cfg' & encs & Hcfg' & Hle & H).
  rewrite Hcfg in Hcfg'. injection Hcfg' as <-. exists encs. split; [exact Hle|]. intros fuel Hfu.
  specialize (H (run S fuel) (levels_run S n fuel Hfu)). unfold write_field_array, read_field_array in H.
  rewrite Hcfg in H. cbn [f_type f] in H.
  assert (Hargs : arguments_ok E args (length es) = true).
  { apply arguments_ok_true. intros i e Hi. destruct (Hes i e Hi) as (ps & Hp & _). now exists ps. }
  rewrite Hargs in H. destruct (negb (a_auto cfg) && negb (a_fixed cfg =? Z.of_nat (length es))) eqn:Ec; [|exact H].
  exfalso. unfold holds in Hh. destruct (a_auto cfg); [discriminate|]. lia.
Qed.

(** A selector value that is not the first condition of any case with a field. *)
Theorem choice_default : forall sel cases f,
  (forall conds g, In (conds, Some g) cases -> hd_error conds <> Some sel) ->
  branch_of sel cases (Some f) (length (filter with_field cases)) f /\
  forall k g, ~ branch_of sel cases None k g.
Proof.
  intros sel cases f H. assert (Hn : forallb (fun c => negb (matches sel c)) cases = true).
  { apply forallb_forall. intros [conds [g|]] Hin; unfold matches; cbn; [|reflexivity].
    specialize (H conds g Hin). destruct conds as [|c conds]; [reflexivity|]. cbn in H. destruct (sel =? c) eqn:E; [|reflexivity].
    exfalso. apply H. f_equal. lia. }
  split; [now apply branch_default|]. intros k g Hb. inversion Hb as [pre conds g' post Hp _ Hh|g' Hd]; subst; [|discriminate].
  apply (H conds g); [|exact Hh]. apply in_or_app. right. now left.
Qed.

(** Packing contexts can only be created for types that do not contain
    themselves, optional fields included. *)
Lemma create_fields_inv : forall M fs n n', create_fields M fs n = (n', Ok tt) ->
  forall f, In f fs -> exists n1 n2, create_field M f n1 = (n2, Ok tt).
Proof.
  intros M. induction fs as [|g fs IH]; intros n n' H f Hf; [destruct Hf|].
  cbn [create_fields] in H. unfold sbind in H. destruct (create_field M g n) as [n1 [[]|e| |]] eqn:E; try discriminate.
  destruct Hf as [<-|Hf]; [now exists n, n1|]. now apply (IH n1 n' H).
Qed.
Theorem create_finite : forall S fuel id n n', m_create (run S fuel) id n = (n', Ok tt) -> finite S fuel id.
Proof.
  intros S. induction fuel as [|fuel IH]; intros id n n' H; [discriminate|].
  cbn [run m_create] in H. unfold of_def in H. destruct (nth_error S id) as [d|] eqn:Hd; [|discriminate].
  cbn [finite]. exists d. split; [exact Hd|]. intros f Hf Ha.
  assert (Hc : exists n1 n2, create_field (run S fuel) f n1 = (n2, Ok tt)).
  { destruct d as [t|fs|sel cases default|fs]; cbn [create_def fields_of] in *; [destruct Hf| | |];
      now apply (create_fields_inv _ _ _ _ H). }
  destruct Hc as ([c ch] & n2 & Hc). unfold create_field in Hc. rewrite Ha in Hc.
  destruct (f_type f) as [t|id' args]; [exact I|].
  destruct (m_create (run S fuel) id' (Node None [])) as [n3 o] eqn:E. injection Hc as _ ->. now apply (IH id' (Node None []) n3).
Qed.

(** A non-empty packed array of such a type is neither written nor read, at any depth. *)
Theorem packed_recursive : forall S id E args cfg, (forall n, ~ finite S n id) -> a_packed cfg = true -> forall fuel,
  (forall es w w', es <> [] -> write_array (object_ops (run S fuel) E id args) cfg es w <> (w', Ok tt)) /\
  (forall r r' es, es <> [] -> read_array (object_ops (run S fuel) E id args) cfg r <> (r', Ok es)).
Proof.
  intros S id E args cfg Hno Hp fuel. set (K := object_ops (run S fuel) E id args).
  assert (Hk : forall n, k_create K <> Ok n).
  { intros n Hk. unfold K in Hk. cbn [object_ops k_create] in Hk.
    destruct (m_create (run S fuel) id (Node None [])) as [n1 [[]|e| |]] eqn:Ec; try discriminate.
    exact (Hno fuel (create_finite S fuel id _ _ Ec)). }
  assert (Hnew : forall T (cs : option node * T), exists o, new_context K cs = (cs, o) /\ o <> Ok tt).
  { intros T cs. unfold new_context. destruct (k_create K) as [n|e| |]; [now destruct (Hk n)| | |]; eexists; (split; [reflexivity|discriminate]). }
  split.
  - intros es w w' Hne H. unfold write_array, with_ctx, array_marshal in H. unfold sbind at 1 in H.
    set (m := if a_auto cfg then on_stream _ else _) in H. destruct (m (None, w)) as [[c1 w1] [[]|e| |]]; try discriminate.
    destruct es as [|e es]; [now apply Hne|]. rewrite Hp in H. unfold sbind at 1 in H.
    unfold sbind at 1 in H. destruct (Hnew _ (c1, w1)) as (o & Ho & Hn). rewrite Ho in H.
    destruct o as [[]|x| |]; [now apply Hn| | |]; discriminate.
  - intros r r' es Hne H. unfold read_array, with_ctx, array_unmarshal in H. unfold sbind at 1 in H.
    set (m := if a_auto cfg then on_stream _ else _) in H. destruct (m (None, r)) as [[c1 r1] [size|e| |]]; try discriminate.
    destruct (size <? 0); [discriminate|]. destruct (size =? 0).
    + unfold sret in H. injection H as _ <-. now apply Hne.
    + rewrite Hp in H. unfold sbind at 1 in H. destruct (Hnew _ (c1, r1)) as (o & Ho & Hn). rewrite Ho in H.
      destruct o as [[]|x| |]; [now apply Hn| | |]; discriminate.
Qed.
