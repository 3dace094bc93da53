(** Decoded objects are objects of their types. *)

Require Import ZArith List Bool Lia ZifyBool ZifyNat.
From Verif Require Import Bits Stream Scalars PrefixFacts Traits TraitSpec Delta Array Schema SchemaSpec SchemaSize SchemaObjects SchemaThms
  DecodeSpec DecodeFacts DecodeTotal DecodeRange.
Import ListNotations.
Open Scope Z_scope.
Open Scope io_scope.

Lemma same_builtin : forall E E' t, same_type E E' (TBasic t) ->
  builtin_of E t = builtin_of E' t /\ (has_codec E' t -> has_codec E t).
Proof.
  intros E E' [b|signed g w] H; cbn [same_type builtin_of has_codec] in *; [auto|].
  rewrite H. auto.
Qed.

Lemma agree_valid : forall ok fin f E E' slot, agree f E E' ->
  valid_field ok fin false E' f slot -> valid_field ok fin false E f slot.
Proof.
  intros ok fin f E E' slot (A1 & A2 & A3) (Hal & stored & Hi & H). split; [exact Hal|]. exists stored.
  rewrite A1. split; [exact Hi|]. destruct stored; [|exact H]. destruct slot as [v|]; [|exact H].
  unfold valid_content in *. destruct (f_array f) as [[len packed]|].
  - destruct H as (es & -> & Hl & H). exists es. refine (conj eq_refl (conj _ _)).
    + destruct len as [l|]; cbn [array_length] in *; [rewrite A3|]; exact Hl.
    + destruct (f_type f) as [t|id args].
      * destruct (same_builtin _ _ _ A2) as [B1 B2]. destruct H as (H1 & H2 & H3 & H4). rewrite B1.
        refine (conj (B2 H1) (conj H2 (conj _ _))).
        -- eapply Forall_impl; [|exact H3]. intros e (b & x & Hb & R). exists b, x. rewrite B1. auto.
        -- intros Hp b Hb. apply (H4 Hp). congruence.
      * destruct H as [H1 H2]. split; [|exact H2]. intros i e Hie. rewrite A2. eauto.
  - destruct (f_type f) as [t|id args].
    + destruct (same_builtin _ _ _ A2) as [B1 B2]. destruct H as [(b & x & Hb & R) _]. split; [|discriminate].
      exists b, x. rewrite B1. auto.
    + rewrite A2. exact H.
Qed.

(** What a field condition of [regular] says about one environment. *)
Definition regular_field (I : nat -> list value -> Prop) (E : env) (f : field) : Prop :=
  (f_align f < 250)%nat /\
  match f_type f with
  | TBasic t => wf_basic E t
  | TRef id' args => forall j ps, args E j = Some ps -> I id' ps
  end.

Lemma yields_field : forall M (I : nat -> list value -> Prop) ok fin E f,
  (forall id ps, I id ps -> yields (m_unmarshal M id ps) (ok false id ps)) ->
  regular_field I E f -> ~ packed_array f -> yields (read_field M E f) (valid_field ok fin false E f).
Proof.
  intros M I ok fin E f HM [Hal Hf] Hp.
  assert (C : yields (read_content M E f) (valid_content ok fin false E f)).
  { unfold read_content, valid_content. destruct (f_array f) as [[len packed]|] eqn:Ea.
    - assert (packed = false) by (destruct packed; [exfalso; apply Hp; exists len; exact Ea|reflexivity]). subst packed.
      assert (L : forall cfg es, array_config E len false = Some cfg ->
        (if a_auto cfg then Z.of_nat (length es) <= MaxVarsize else a_fixed cfg = Z.of_nat (length es)) ->
        a_packed cfg = false /\ array_length E len (length (A := value) es)).
      { intros cfg es Hc. destruct len as [l|]; cbn [array_config array_length] in *.
        - destruct (l E) as [n|]; [|discriminate]. injection Hc as <-. cbn. eauto.
        - injection Hc as <-. cbn. auto. }
      assert (P0 : forall cfg, array_config E len false = Some cfg -> a_packed cfg = false).
      { intros cfg Hc. destruct len as [l|]; cbn [array_config] in *; [destruct (l E); [|discriminate]|]; injection Hc as <-; reflexivity. }
      intros r r' v H. unfold rbind, read_field_array in H. destruct (f_type f) as [t|id args].
      + destruct (codec_of E t) as [T|x| |] eqn:Ec; try discriminate. destruct (array_config E len false) as [cfg|] eqn:Eg; [|discriminate].
        destruct (read_array (trait_ops T) cfg r) as [r1 [es|x| |]] eqn:Er; try discriminate.
        unfold rret in H. injection H as _ <-. destruct (yields_codec _ _ _ Hf Ec) as (Y1 & Y2 & Y3).
        destruct (yields_array _ _ (P0 _ eq_refl) _ _ _ Er) as [Z1 Z2]. destruct (L cfg es eq_refl Z1) as [_ Z3].
        exists es. refine (conj eq_refl (conj Z3 (conj Y1 (conj Y2 (conj _ _))))); [|discriminate].
        apply Forall_forall. intros e He. apply In_nth_error in He. destruct He as [j Hj].
        destruct (Z2 j e Hj) as (s1 & s2 & Hr). exact (Y3 _ _ _ Hr).
      + destruct (array_config E len false) as [cfg|] eqn:Eg; [|discriminate].
        destruct (read_array (object_ops M E id args) cfg r) as [r1 [es|x| |]] eqn:Er; try discriminate.
        unfold rret in H. injection H as _ <-.
        destruct (yields_array _ _ (P0 _ eq_refl) _ _ _ Er) as [Z1 Z2]. destruct (L cfg es eq_refl Z1) as [_ Z3].
        exists es. refine (conj eq_refl (conj Z3 (conj _ _))); [|discriminate].
        intros i e Hie. destruct (Z2 i e Hie) as (s1 & s2 & Hr). cbn [k_read object_ops] in Hr.
        destruct (args E i) as [ps|] eqn:Eargs; [|discriminate]. exists ps. split; [reflexivity|].
        exact (HM _ _ (Hf _ _ Eargs) _ _ _ Hr).
    - destruct (f_type f) as [t|id args].
      + eapply yields_weaken; [apply yields_basic; exact Hf|]. intros v Hv. split; [exact Hv|discriminate].
      + intros r r' v H. destruct (args E 0%nat) as [ps|] eqn:Eargs; [|discriminate]. exists ps. split; [reflexivity|].
        exact (HM _ _ (Hf _ _ Eargs) _ _ _ H). }
  intros r r' s H. unfold read_field in H. split; [exact Hal|].
  destruct (included E f) as [[|]|]; [|unfold rret in H; injection H as _ <-; exists false; auto|discriminate].
  exists true. split; [reflexivity|]. unfold rbind at 1 in H.
  destruct (ralign_opt (f_align f) r) as [r1 [u|x| |]]; try discriminate.
  destruct (f_optional f).
  - unfold rbind at 1 in H. destruct (ReadBool r1) as [r2 [[|]|x| |]]; try discriminate.
    + unfold rbind in H. destruct (read_content M E f r2) as [r3 [v|x| |]] eqn:Ev; try discriminate.
      unfold rret in H. injection H as _ <-. exact (C _ _ _ Ev).
    + unfold rret in H. injection H as _ <-. reflexivity.
  - unfold rbind in H. destruct (read_content M E f r1) as [r3 [v|x| |]] eqn:Ev; try discriminate.
    unfold rret in H. injection H as _ <-. exact (C _ _ _ Ev).
Qed.

Lemma only_field_only : forall n i s, only_field i (only n i s).
Proof.
  intros n i s j Hj. destruct (nth_slot j (only n i s)) as [x|] eqn:E; [|reflexivity].
  apply only_nth in E. destruct E. congruence.
Qed.

Lemma only_at : forall n i s, (i < n)%nat -> nth_slot i (only n i s) = s.
Proof.
  unfold only, nth_slot. induction n as [|n IH]; intros [|i] s H; cbn [repeat update nth]; try lia; [reflexivity|]. apply IH. lia.
Qed.

Lemma repeat_none : forall n, no_field (repeat None n).
Proof. intros n j. unfold nth_slot. revert j. induction n; intros [|j]; cbn; auto. Qed.

Theorem decode_valid : forall S I, causal S -> regular S I -> no_packed_arrays S ->
  forall fuel id ps, I id ps -> yields (UnmarshalZserio S fuel id ps) (valid S fuel false id ps).
Proof.
  intros S I Hcausal [Hscalar Hfields] Hpacked. induction fuel as [|fuel IH]; intros id ps HI r r' v H; [discriminate H|].
  assert (HF : forall d i f E', nth_error S id = Some d -> nth_error (fields_of d) i = Some f ->
    forall slots, (i < length slots)%nat -> E' = mkE ps (before i slots) ->
    yields (read_field (run S fuel) E' f) (valid_field (valid S fuel) (finite S fuel) false (mkE ps slots) f)).
  { intros d i f E' Hd Hf slots Hi ->. pose proof (nth_error_In _ _ Hf) as Hin.
    eapply yields_weaken; [apply (yields_field _ I (valid S fuel) (finite S fuel))|].
    - exact IH.
    - exact (Hfields id d f (mkE ps (before i slots)) Hd Hin HI).
    - exact (Hpacked id d f Hd Hin).
    - intros s. apply agree_valid. exact (Hcausal id d i f Hd Hf ps slots Hi). }
  unfold UnmarshalZserio in H. cbn [run m_unmarshal] in H. unfold of_def in H.
  destruct (nth_error S id) as [d|] eqn:Hd; [|discriminate]. cbn [valid]. exists d. split; [exact Hd|].
  destruct d as [t|fs|selector cases default|fs]; cbn [unmarshal_def] in H.
  - split; [|discriminate]. eapply yields_basic; [|exact H]. intros b. exact (Hscalar id t b Hd).
  - unfold rbind in H. destruct (read_fields (run S fuel) ps [] fs r) as [r1 [slots|x| |]] eqn:E; try discriminate.
    unfold rret in H. injection H as _ <-. apply read_fields_inv in E. destruct E as (L & _ & E). cbn [length Nat.add] in *.
    exists slots. refine (conj eq_refl (conj L _)). intros i f Hf. destruct (E i f Hf) as (r2 & r3 & Hr).
    assert (i < length slots)%nat by (rewrite L; apply nth_error_Some; congruence).
    exact (HF _ i f _ eq_refl Hf slots ltac:(assumption) eq_refl _ _ _ Hr).
  - destruct (selector ps) as [sel|] eqn:Es; [|discriminate].
    destruct (select sel 0 cases default) as [[i f]|] eqn:Esel.
    + unfold rbind in H. match type of H with context [read_field ?M ?E f r] => destruct (read_field M E f r) as [r1 [s|x| |]] eqn:Er end; try discriminate.
      unfold rret in H. injection H as _ <-. set (n := length (choice_fields cases default)) in *.
      pose proof (SchemaObjects.select_nth _ _ _ _ _ Esel) as Hf.
      assert (i < n)%nat by (apply nth_error_Some; congruence).
      exists (only n i s), sel. refine (conj eq_refl (conj (only_length _ _ _) (conj eq_refl (conj _ _)))); [discriminate|].
      rewrite Esel. split; [apply only_field_only|]. rewrite only_at by assumption.
      refine (HF _ i f _ eq_refl Hf (only n i s) _ _ _ _ _ Er); [now rewrite only_length|].
      rewrite only_field_before, only_length; [reflexivity|apply only_field_only|now rewrite only_length].
    + unfold rret in H. injection H as _ <-. eexists _, sel. rewrite Esel.
      refine (conj eq_refl (conj (repeat_length _ _) (conj eq_refl (conj _ (repeat_none _))))); discriminate.
  - split; [reflexivity|]. unfold rbind at 1 in H. destruct (ReadVarsize r) as [r1 [tag|x| |]] eqn:Et; try discriminate.
    apply ReadVarsize_range in Et. exists tag.
    destruct (if tag <? 1 then None else nth_error fs (Z.to_nat (tag - 1))) as [f|] eqn:Ef.
    + unfold rbind in H. match type of H with context [read_field ?M ?E f r1] => destruct (read_field M E f r1) as [r2 [s|x| |]] eqn:Er end; try discriminate.
      unfold rret in H. injection H as _ <-. set (n := length fs) in *. set (i := Z.to_nat (tag - 1)) in *.
      assert (Hf : nth_error fs i = Some f) by (destruct (tag <? 1); [discriminate|exact Ef]).
      assert (i < n)%nat by (apply nth_error_Some; congruence).
      exists (only n i s). refine (conj eq_refl (conj (only_length _ _ _) (conj Et (conj (only_field_only _ _ _) _)))).
      rewrite only_at by assumption.
      refine (HF _ i f _ eq_refl Hf (only n i s) _ _ _ _ _ Er); [now rewrite only_length|].
      rewrite only_field_before, only_length; [reflexivity|apply only_field_only|now rewrite only_length].
    + unfold rret in H. injection H as _ <-. eexists. exact (conj eq_refl (conj (repeat_length _ _) (conj Et (repeat_none _)))).
Qed.
