(** What is written after decoding into a used object. *)

Require Import ZArith List Bool Lia ZifyBool ZifyNat.
From Verif Require Import Bits Stream Scalars Traits Delta Array Schema SchemaSpec SchemaSize SchemaPlain SchemaObjects SchemaThms DecodeTotal DecodeValid
  SchemaInto SchemaIntoSpec SchemaIntoFacts.
Import ListNotations.
Open Scope Z_scope.

(** ** Writers in environments that agree *)

Lemma write_elems_ext {A N} (K K' : elemops A N) cfg : (forall i a s, k_write K i a s = k_write K' i a s) -> (forall i a s, k_pwrite K i a s = k_pwrite K' i a s) ->
  forall es i s, write_elems K cfg i es s = write_elems K' cfg i es s.
Proof.
  intros H1 H2. induction es as [|e es IH]; intros i s; [reflexivity|]. cbn [write_elems].
  assert (E : write_elem K cfg i e s = write_elem K' cfg i e s).
  { unfold write_elem, sbind, signore. destruct (a_check cfg); cbn.
    - destruct (on_stream _ s) as [s' [a|x| |]]; try reflexivity.
      destruct (a_packed cfg); unfold on_packed, on_stream; destruct s' as [[n0|] r]; try reflexivity; now rewrite ?H1, ?H2.
    - destruct (a_packed cfg); unfold on_packed, on_stream; destruct s as [[n0|] r]; try reflexivity; now rewrite ?H1, ?H2. }
  unfold sbind at 1 2. rewrite E. destruct (write_elem K' cfg i e s) as [s' [a|x| |]]; try reflexivity. apply IH.
Qed.
Lemma init_elems_ext {A N} (K K' : elemops A N) : (forall i a n, k_init K i a n = k_init K' i a n) -> forall es i n, init_elems K i es n = init_elems K' i es n.
Proof. intros H. induction es as [|e es IH]; intros i n; [reflexivity|]. cbn. rewrite H. destruct (k_init K' i e n) as [n' [u|x| |]]; auto. Qed.
Lemma write_array_ext {A N} (K K' : elemops A N) cfg es : k_create K = k_create K' -> (forall i a n, k_init K i a n = k_init K' i a n) ->
  (forall i a s, k_write K i a s = k_write K' i a s) -> (forall i a s, k_pwrite K i a s = k_pwrite K' i a s) -> forall w, write_array K cfg es w = write_array K' cfg es w.
Proof.
  intros H0 Hi H1 H2 w. unfold write_array, with_ctx.
  enough (H : array_marshal K cfg es (None, w) = array_marshal K' cfg es (None, w)) by now rewrite H.
  unfold array_marshal. unfold sbind at 1 4. match goal with |- match ?m with pair _ _ => _ end = _ => destruct m as [s [u|x| |]] end; try reflexivity.
  destruct es as [|e es]; [reflexivity|]. unfold sbind at 1 3.
  assert (Q : (if a_packed cfg then sbind (new_context K) (fun _ => init_context K (e :: es)) else sret tt) s =
              (if a_packed cfg then sbind (new_context K') (fun _ => init_context K' (e :: es)) else sret tt) s).
  { destruct (a_packed cfg); [|reflexivity]. unfold sbind, new_context. rewrite H0. destruct (k_create K') as [n|x| |]; try reflexivity.
    unfold init_context. now rewrite (init_elems_ext K K' Hi). }
  rewrite Q. match goal with |- match ?m with pair _ _ => _ end = _ => destruct m as [s' [u'|x| |]] end; try reflexivity. now apply write_elems_ext.
Qed.

Lemma write_basic_agree f E E' t v : agree f E E' -> f_type f = TBasic t -> write_basic E t v = write_basic E' t v.
Proof. intros (_ & B & _) F. rewrite F in B. destruct t; cbn in *; [reflexivity | now rewrite B]. Qed.
Lemma size_basic_agree f E E' t v : agree f E E' -> f_type f = TBasic t -> size_basic E t v = size_basic E' t v.
Proof. intros (_ & B & _) F. rewrite F in B. destruct t; cbn in *; [reflexivity | now rewrite B]. Qed.
Lemma arguments_agree f E E' id args n : agree f E E' -> f_type f = TRef id args -> arguments_ok E args n = arguments_ok E' args n.
Proof.
  intros A T. unfold arguments_ok. induction (seq 0 n) as [|i l IH]; [reflexivity|]. cbn. now rewrite (args_agree _ _ _ _ _ i A T), IH.
Qed.

Lemma write_array_agree M f E E' len packed es w : agree f E E' -> f_array f = Some (len, packed) ->
  write_field_array M E f len packed es w = write_field_array M E' f len packed es w.
Proof.
  intros A F. unfold write_field_array. rewrite (config_agree _ _ _ _ _ A F). destruct (array_config E' len packed) as [cfg|]; [|reflexivity].
  destruct (f_type f) as [t|id args] eqn:T.
  - now rewrite (codec_agree _ _ _ _ A T).
  - rewrite (arguments_agree _ _ _ _ _ _ A T). destruct (arguments_ok E' args (length es)); [|reflexivity].
    destruct (negb (a_auto cfg) && negb (a_fixed cfg =? Z.of_nat (length es))); [reflexivity|].
    apply write_array_ext; [reflexivity| | |]; intros i a s; cbn [object_ops k_init k_write k_pwrite]; now rewrite (args_agree _ _ _ _ _ i A T).
Qed.
Lemma write_content_agree M f E E' v w : agree f E E' -> write_content M E f v w = write_content M E' f v w.
Proof.
  intros A. unfold write_content. destruct (f_array f) as [[len packed]|] eqn:F.
  - destruct v; try reflexivity. now apply write_array_agree.
  - destruct (f_type f) as [t|id args] eqn:T; [now rewrite (write_basic_agree _ _ _ _ v A T) | now rewrite (args_agree _ _ _ _ _ 0%nat A T)].
Qed.
Lemma sum_sizes_ext {A} (z z' : nat -> A -> Z -> outcome Z) cfg : (forall i a p, z i a p = z' i a p) -> forall es i pos, sum_sizes z cfg i es pos = sum_sizes z' cfg i es pos.
Proof. intros H. induction es as [|e es IH]; intros i pos; [reflexivity|]. cbn. rewrite H. destruct (z' i e _); auto. Qed.
Lemma size_content_agree M f E E' v pos : agree f E E' -> size_content M E f v pos = size_content M E' f v pos.
Proof.
  intros A. unfold size_content. destruct (f_array f) as [[len packed]|] eqn:F.
  - destruct v; try reflexivity. unfold size_field_array. rewrite (config_agree _ _ _ _ _ A F). destruct (array_config E' len packed) as [cfg|]; [|reflexivity].
    destruct (f_type f) as [t|id args] eqn:T; [now rewrite (codec_agree _ _ _ _ A T)|].
    rewrite (arguments_agree _ _ _ _ _ _ A T). destruct (arguments_ok E' args (length l)); [|reflexivity].
    unfold object_array_bitsize. destruct (length_size cfg (length l)); try reflexivity.
    rewrite (sum_sizes_ext _ (fun i v p => size_or_0 match args E' i with Some ps => m_size M id ps v p | None => Panic end)); [reflexivity|].
    intros i x p. now rewrite (args_agree _ _ _ _ _ i A T).
  - destruct (f_type f) as [t|id args] eqn:T; [now rewrite (size_basic_agree _ _ _ _ v A T) | now rewrite (args_agree _ _ _ _ _ 0%nat A T)].
Qed.

(** ** Fields *)

Lemma field_output S n E E' f o s s' : agree f E E' -> over_field (overlaid S n) E f o s s' ->
  (forall id args ps v v', f_array f = None -> f_type f = TRef id args -> args E 0%nat = Some ps -> s = Some v -> s' = Some v' -> overlaid S n id ps o v v' -> same_output S id ps v v') ->
  forall fuel, (forall w, write_field (run S fuel) E' f s' w = write_field (run S fuel) E f s w) /\
               (forall pos, size_field (run S fuel) E' f s' pos = size_field (run S fuel) E f s pos).
Proof.
  intros A O H fuel. unfold write_field, size_field, over_field in *. pose proof A as (A1 & _). rewrite <- A1.
  destruct (included E f) as [[|]|]; [|split; intros; reflexivity | split; intros; reflexivity].
  assert (Same : s' = s -> (forall w, (walign_opt (f_align f) ;;w
      (if f_optional f then WriteBool (is_some s') ;;w match s' with Some v => write_content (run S fuel) E' f v | None => wret tt end
       else match s' with Some v => write_content (run S fuel) E' f v | None => wpanic end))%io w =
      (walign_opt (f_align f) ;;w (if f_optional f then WriteBool (is_some s) ;;w match s with Some v => write_content (run S fuel) E f v | None => wret tt end
       else match s with Some v => write_content (run S fuel) E f v | None => wpanic end))%io w) /\
     (forall pos, obind (align_size pos (f_align f)) (fun pos => if f_optional f then
        match s' with Some v => obind (size_content (run S fuel) E' f v (pos + 1)) (fun d => Ok (pos + 1 + d)) | None => Ok (pos + 1) end
      else match s' with Some v => obind (size_content (run S fuel) E' f v pos) (fun d => Ok (pos + d)) | None => Panic end) =
      obind (align_size pos (f_align f)) (fun pos => if f_optional f then
        match s with Some v => obind (size_content (run S fuel) E f v (pos + 1)) (fun d => Ok (pos + 1 + d)) | None => Ok (pos + 1) end
      else match s with Some v => obind (size_content (run S fuel) E f v pos) (fun d => Ok (pos + d)) | None => Panic end))).
  { intros ->. split.
    - intros w. unfold wbind at 1 3. destruct (walign_opt (f_align f) w) as [w1 [u|e| |]]; try reflexivity. destruct (f_optional f).
      + unfold wbind. destruct (WriteBool (is_some s) w1) as [w2 [u'|e| |]]; try reflexivity. destruct s; [|reflexivity]. symmetry. now apply write_content_agree.
      + destruct s; [|reflexivity]. symmetry. now apply write_content_agree.
    - intros pos. destruct (align_size pos (f_align f)) as [p|e| |]; try reflexivity. cbn [obind].
      destruct s as [v|]; [|reflexivity]. destruct (f_optional f); now rewrite (size_content_agree _ f E E' v _ A). }
  destruct (f_optional f) eqn:Ho; [exact (Same O)|]. destruct (f_array f) as [a|] eqn:F; [exact (Same O)|]. destruct (f_type f) as [t|id args] eqn:T; [exact (Same O)|].
  clear Same. destruct O as (ps & v & v' & Ha & -> & -> & O). destruct (H id args ps v v' eq_refl eq_refl Ha eq_refl eq_refl O fuel) as [W Z].
  unfold write_content, size_content. rewrite F, T, <- (args_agree _ _ _ _ _ 0%nat A T), Ha. split.
  - intros w. unfold wbind. destruct (walign_opt (f_align f) w) as [w1 [u|e| |]]; try reflexivity. apply W.
  - intros pos. destruct (align_size pos (f_align f)) as [p|e| |]; try reflexivity. cbn [obind]. pose proof (Z p) as Zp. unfold ZserioBitSize in Zp. now rewrite Zp.
Qed.

Lemma field_decoded M E f r r' v id args ps : read_field M E f r = (r', Ok (Some v)) -> f_array f = None -> f_type f = TRef id args -> args E 0%nat = Some ps ->
  exists r1 r2, m_unmarshal M id ps r1 = (r2, Ok v).
Proof.
  intros H F T Ha. unfold read_field, read_content in H. rewrite F, T, Ha in H. destruct (included E f) as [[|]|]; try discriminate.
  unfold rbind at 1 in H. destruct (ralign_opt (f_align f) r) as [r1 [u|e| |]]; try discriminate. destruct (f_optional f).
  - unfold rbind at 1 in H. destruct (ReadBool r1) as [r2 [[|]|e| |]]; try discriminate. unfold rbind in H.
    destruct (m_unmarshal M id ps r2) as [r3 [x|e| |]] eqn:E1; try discriminate. injection H as <- <-. eauto.
  - unfold rbind in H. destruct (m_unmarshal M id ps r1) as [r3 [x|e| |]] eqn:E1; try discriminate. injection H as <- <-. eauto.
Qed.

Lemma fields_output M E E' : forall fs i,
  (forall k f, nth_error fs k = Some f -> (forall w, write_field M E' f (nth_slot (i + k) (e_slots E')) w = write_field M E f (nth_slot (i + k) (e_slots E)) w) /\
     (forall pos, size_field M E' f (nth_slot (i + k) (e_slots E')) pos = size_field M E f (nth_slot (i + k) (e_slots E)) pos)) ->
  (forall w, write_fields M E' i fs w = write_fields M E i fs w) /\ (forall pos, size_fields M E' i fs pos = size_fields M E i fs pos).
Proof.
  induction fs as [|f fs IH]; intros i H; [split; intros; reflexivity|]. pose proof (H 0%nat f eq_refl) as [W Z]. rewrite Nat.add_0_r in W, Z.
  destruct (IH (S i)) as [Ws Zs].
  { intros k g Hk. replace (S i + k)%nat with (i + S k)%nat by lia. exact (H (S k) g Hk). }
  split.
  - intros w. cbn [write_fields]. unfold wbind. rewrite W. destruct (write_field M E f _ w) as [w1 [u|e| |]]; auto.
  - intros pos. cbn [size_fields]. rewrite Z. unfold obind. destruct (size_field M E f _ pos); auto.
Qed.

Lemma keeps_slots tag slots tag' slots' : keeps (VRec tag slots) (VRec tag' slots') -> forall i, slot_keeps (nth_slot i slots) (nth_slot i slots').
Proof. intros H. inversion H; subst; [intros i; apply slot_keeps_refl | now apply keeps_nth]. Qed.

Lemma before_keeps i slots slots' : (i <= length slots)%nat -> length slots = length slots' -> (forall j, slot_keeps (nth_slot j slots) (nth_slot j slots')) ->
  Forall2 slot_keeps (before i slots) slots'.
Proof.
  intros L Q H. apply nth_keeps; [rewrite before_length; assumption|]. intros j. destruct (Nat.lt_ge_cases j i) as [Hj|Hj].
  - rewrite nth_before by exact Hj. apply H.
  - rewrite nth_before_none by exact Hj. apply slot_keeps_none.
Qed.

Theorem used_output S : causal S -> steady S -> forall n id ps o v v' r r', UnmarshalZserio S n id ps r = (r', Ok v) -> overlaid S n id ps o v v' -> keeps v v' -> same_output S id ps v v'.
Proof.
  intros HC HS. unfold UnmarshalZserio. induction n as [|n IH]; intros id ps o v v' r r' D O K; [contradiction|].
  destruct O as (d & Hd & O). cbn [run m_unmarshal] in D. unfold of_def in D. rewrite Hd in D.
  assert (Nested : forall E f s s' k, (exists r1 r2, read_field (run S n) E f r1 = (r2, Ok s)) -> slot_keeps s s' ->
    forall id' args ps' x x', f_array f = None -> f_type f = TRef id' args -> args E 0%nat = Some ps' -> s = Some x -> s' = Some x' -> overlaid S n id' ps' (old_slot o k) x x' -> same_output S id' ps' x x').
  { intros E f s s' k (r1 & r2 & R) Ks id' args ps' x x' F T Ha -> -> Ox. destruct (field_decoded _ _ _ _ _ _ _ _ _ R F T Ha) as (r3 & r4 & D1).
    destruct (Ks x eq_refl) as (w & Q & Kx). injection Q as <-. exact (IH _ _ _ _ _ _ _ D1 Ox Kx). }
  intros [|fuel]; [split; intros; reflexivity|]. unfold MarshalZserio, ZserioBitSize. cbn [run m_marshal m_size]. unfold of_def. rewrite Hd.
  destruct d as [t|fs|selector cases default|fs]; [subst v'; split; intros; reflexivity| | |]; destruct O as (tag & slots & slots' & -> & -> & L & L' & O); cbn [fields_of] in *; cbn [marshal_def size_def unmarshal_def] in *.
  - unfold rbind in D. destruct (read_fields (run S n) ps [] fs r) as [r1 [new|e| |]] eqn:E; try discriminate. injection D as <- <- <-.
    destruct (read_fields_inv _ _ _ _ _ _ _ E) as (_ & _ & R). cbn [length Nat.add] in R.
    assert (FO : forall k f, nth_error fs k = Some f -> (forall w, write_field (run S fuel) (mkE ps slots') f (nth_slot (0 + k) slots') w = write_field (run S fuel) (mkE ps new) f (nth_slot (0 + k) new) w) /\
      (forall pos, size_field (run S fuel) (mkE ps slots') f (nth_slot (0 + k) slots') pos = size_field (run S fuel) (mkE ps new) f (nth_slot (0 + k) new) pos)).
    { intros k f Hf. cbn [Nat.add]. assert (Lk : (k < length new)%nat) by (rewrite L; apply nth_error_Some; congruence).
      pose proof (HC id _ k f Hd Hf ps new Lk) as C.
      assert (A : agree f (mkE ps new) (mkE ps slots')).
      { eapply agree_trans; [exact C|]. apply (HS id _ k f _ _ Hd Hf).
        - exists n, new. split; [exact L|]. split; [reflexivity|]. intros j g _ Hg. exact (R j g Hg).
        - split; [reflexivity|]. cbn [e_slots]. apply before_keeps; [lia | lia | exact (keeps_slots _ _ _ _ K)]. }
      apply (field_output S n _ _ f (old_slot o k) _ _ A (O k f Hf)).
      intros id' args ps' x x' F T Ha. refine (Nested (mkE ps (before k new)) f _ _ k (R k f Hf) (keeps_slots _ _ _ _ K k) id' args ps' x x' F T _).
      rewrite <- Ha. symmetry. exact (args_agree _ _ _ _ _ 0%nat C T). }
    destruct (fields_output (run S fuel) (mkE ps new) (mkE ps slots') fs 0 FO) as [W Z]. split; [exact W|]. intros pos. now rewrite Z.
  - destruct O as (sel & Es & O). rewrite Es in *. destruct (select sel 0 cases default) as [[i f]|] eqn:Ec; [|split; intros; reflexivity].
    destruct (select_nth _ _ _ _ _ _ Ec) as [_ Hf]. rewrite Nat.sub_0_r in Hf.
    assert (Li : (i < length (choice_fields cases default))%nat) by (apply nth_error_Some; congruence).
    unfold rbind in D. destruct (read_field (run S n) _ f r) as [r1 [s1|e| |]] eqn:E; try discriminate. injection D as <- <- <-.
    pose proof (HC id _ i f Hd Hf ps (only (length (choice_fields cases default)) i s1)) as C. rewrite only_length in C. specialize (C Li).
    rewrite only_field_before in C; [|apply only_field_only | rewrite only_length; exact Li]. rewrite only_length in C.
    assert (A : agree f (mkE ps (only (length (choice_fields cases default)) i s1)) (mkE ps slots')).
    { eapply agree_trans; [exact C|]. apply (branch_agree S id _ i f ps slots' HS Hd); [discriminate | exact Hf | exact L']. }
    destruct O as [O _]. rewrite only_at in O by exact Li.
    assert (FO := field_output S n _ _ f (old_slot o i) _ _ A O). rewrite only_at by exact Li. destruct FO with fuel as [W Z].
    { intros id' args ps' x x' F T Ha. refine (Nested _ f _ _ i (ex_intro _ _ (ex_intro _ _ E)) _ id' args ps' x x' F T _).
      - pose proof (keeps_slots _ _ _ _ K i) as Ki. rewrite only_at in Ki by exact Li. exact Ki.
      - rewrite <- Ha. symmetry. exact (args_agree _ _ _ _ _ 0%nat C T). }
    split; [exact W|]. intros pos. now rewrite Z.
  - unfold rbind at 1 in D. destruct (ReadVarsize r) as [r1 [tg|e| |]]; try discriminate.
    assert (tg = tag). { destruct (if tg <? 1 then None else nth_error fs (Z.to_nat (tg - 1))); [|now injection D]. unfold rbind in D. destruct (read_field _ _ _ _) as [? [?|?| |]]; try discriminate. now injection D. }
    subst tg. destruct (if tag <? 1 then None else nth_error fs (Z.to_nat (tag - 1))) as [f|] eqn:Ef.
    2: { split; intros; reflexivity. }
    assert (Hf : nth_error fs (Z.to_nat (tag - 1)) = Some f) by (destruct (tag <? 1); [discriminate | exact Ef]). set (i := Z.to_nat (tag - 1)) in *.
    assert (Li : (i < length fs)%nat) by (apply nth_error_Some; congruence).
    unfold rbind in D. destruct (read_field (run S n) _ f r1) as [r2 [s1|e| |]] eqn:E; try discriminate. injection D as <- <-.
    pose proof (HC id _ i f Hd Hf ps (only (length fs) i s1)) as C. rewrite only_length in C. specialize (C Li).
    rewrite only_field_before in C; [|apply only_field_only | rewrite only_length; exact Li]. rewrite only_length in C.
    assert (A : agree f (mkE ps (only (length fs) i s1)) (mkE ps slots')).
    { eapply agree_trans; [exact C|]. apply (branch_agree S id _ i f ps slots' HS Hd); [discriminate | exact Hf | exact L']. }
    destruct O as [O _]. rewrite only_at in O by exact Li.
    assert (FO := field_output S n _ _ f (old_slot o i) _ _ A O). rewrite only_at by exact Li. destruct FO with fuel as [W Z].
    { intros id' args ps' x x' F T Ha. refine (Nested _ f _ _ i (ex_intro _ _ (ex_intro _ _ E)) _ id' args ps' x x' F T _).
      - pose proof (keeps_slots _ _ _ _ K i) as Ki. rewrite only_at in Ki by exact Li. exact Ki.
      - rewrite <- Ha. symmetry. exact (args_agree _ _ _ _ _ 0%nat C T). }
    split.
    + intros w. unfold wbind. destruct (WriteVarsize tag w) as [w1 [u|e| |]]; auto.
    + intros pos. destruct (UnsignedBitSize tag 5) as [dd|e| |]; try reflexivity. cbn [obind]. now rewrite Z.
Qed.
