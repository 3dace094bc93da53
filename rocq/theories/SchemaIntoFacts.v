(** Decoding into a used object: the same data is read, and what is stored is what a new
    object would hold. *)

Require Import ZArith List Bool Lia ZifyBool ZifyNat.
From Verif Require Import Bits Stream Scalars Traits Delta Array Schema SchemaSpec SchemaSize SchemaPlain SchemaObjects SchemaThms DecodeTotal DecodeValid
  SchemaInto SchemaIntoSpec.
Import ListNotations.
Open Scope Z_scope.

(** ** Readers in environments that agree *)

Lemma agree_sym f E E' : agree f E E' -> agree f E' E.
Proof.
  intros (A & B & C). split; [now symmetry|]. split.
  - unfold same_type in *. destruct (f_type f) as [[b|g s w]|id args]; [exact I | now symmetry | intros i; now symmetry].
  - destruct (f_array f) as [[[l|] p]|]; auto.
Qed.
Lemma agree_trans f E E' E'' : agree f E E' -> agree f E' E'' -> agree f E E''.
Proof.
  intros (A & B & C) (A' & B' & C'). split; [congruence|]. split.
  - unfold same_type in *. destruct (f_type f) as [[b|g s w]|id args]; [exact I | congruence | intros i; now rewrite B].
  - destruct (f_array f) as [[[l|] p]|]; auto; congruence.
Qed.

Lemma config_agree f E E' len packed : agree f E E' -> f_array f = Some (len, packed) -> array_config E len packed = array_config E' len packed.
Proof. intros (_ & _ & C) F. rewrite F in C. destruct len as [l|]; cbn [array_config]; [now rewrite C | reflexivity]. Qed.
Lemma codec_agree f E E' t : agree f E E' -> f_type f = TBasic t -> codec_of E t = codec_of E' t.
Proof. intros (_ & B & _) F. rewrite F in B. destruct t; cbn in *; [reflexivity | now rewrite B]. Qed.
Lemma basic_agree f E E' t r : agree f E E' -> f_type f = TBasic t -> read_basic E t r = read_basic E' t r.
Proof. intros (_ & B & _) F. rewrite F in B. destruct t; cbn in *; [reflexivity | now rewrite B]. Qed.
Lemma args_agree f E E' id args i : agree f E E' -> f_type f = TRef id args -> args E i = args E' i.
Proof. intros (_ & B & _) F. rewrite F in B. apply B. Qed.

Lemma array_agree M f E E' len packed r : agree f E E' -> f_array f = Some (len, packed) -> read_field_array M E f len packed r = read_field_array M E' f len packed r.
Proof.
  intros A F. unfold read_field_array. rewrite (config_agree _ _ _ _ _ A F). destruct (f_type f) as [t|id args] eqn:T.
  - now rewrite (codec_agree _ _ _ _ A T).
  - destruct (array_config E' len packed); [|reflexivity]. apply object_read_ext. intros i. symmetry. exact (args_agree _ _ _ _ _ _ A T).
Qed.
Lemma content_agree M f E E' r : agree f E E' -> read_content M E f r = read_content M E' f r.
Proof.
  intros A. unfold read_content. destruct (f_array f) as [[len packed]|] eqn:F.
  - unfold rbind. now rewrite (array_agree M f E E' len packed r A F).
  - destruct (f_type f) as [t|id args] eqn:T; [exact (basic_agree _ _ _ _ _ A T)|]. now rewrite (args_agree _ _ _ _ _ _ A T).
Qed.

(** ** A field *)

Definition result_same {A} (x : rst * outcome A) (y : option value * (rst * outcome unit)) (Q : A -> option value -> Prop) : Prop :=
  match x with
  | (r', Ok a) => exists s', y = (s', (r', Ok tt)) /\ Q a s'
  | (r', o) => exists s', y = (s', (r', as_unit o))
  end.

Lemma slot_keeps_refl s : slot_keeps s s.
Proof. intros v ->. exists v. split; [reflexivity | constructor]. Qed.
Lemma slot_keeps_none s : slot_keeps None s.
Proof. intros v H. discriminate. Qed.

Lemma field_used S fuel : (forall id ps s r, shaped S fuel id s ->
    result_same (m_unmarshal (run S fuel) id ps r) (UnmarshalInto S fuel id ps s r)
      (fun v s' => exists v', s' = Some v' /\ overlaid S fuel id ps s v v' /\ keeps v v')) ->
  forall E E' f o r, agree f E E' -> (forall id args, f_array f = None -> f_type f = TRef id args -> shaped S fuel id o) ->
    result_same (read_field (run S fuel) E f r) (field_into (run S fuel) (UnmarshalInto S fuel) E' f o r)
      (fun s s' => over_field (overlaid S fuel) E f o s s' /\ slot_keeps s s').
Proof.
  intros IH E E' f o r A Sh. unfold read_field, field_into, over_field. pose proof A as (A1 & _). rewrite <- A1.
  destruct (included E f) as [[|]|]; [|exists o; split; [reflexivity | split; [reflexivity | apply slot_keeps_none]] | exists o; reflexivity].
  unfold rbind at 1. destruct (ralign_opt (f_align f) r) as [r1 [u|e| |]]; try (exists o; reflexivity).
  destruct (f_optional f).
  - unfold rbind at 1. destruct (ReadBool r1) as [r2 [[|]|e| |]]; try (exists o; reflexivity).
    + unfold rbind, put. rewrite <- (content_agree (run S fuel) f E E' r2 A). destruct (read_content (run S fuel) E f r2) as [r3 [v|e| |]]; try (exists o; reflexivity).
      exists (Some v). split; [reflexivity|]. split; [reflexivity | apply slot_keeps_refl].
    + exists None. split; [reflexivity|]. split; [reflexivity | apply slot_keeps_refl].
  - unfold rbind, content_into, read_content. destruct (f_array f) as [[len packed]|] eqn:F.
    + unfold rbind. rewrite <- (array_agree (run S fuel) f E E' len packed r1 A F).
      destruct (read_field_array (run S fuel) E f len packed r1) as [r2 [es|e| |]].
      * exists (Some (VArr es)). split; [reflexivity|]. split; [reflexivity | apply slot_keeps_refl].
      * eexists. reflexivity.
      * exists o. reflexivity.
      * exists o. reflexivity.
    + destruct (f_type f) as [t|id args] eqn:T.
      * unfold put. rewrite <- (basic_agree _ _ _ _ r1 A T). destruct (read_basic E t r1) as [r2 [v|e| |]]; try (exists o; reflexivity).
        exists (Some v). split; [reflexivity|]. split; [reflexivity | apply slot_keeps_refl].
      * rewrite <- (args_agree _ _ _ _ _ 0%nat A T). destruct (args E 0%nat) as [ps|]; [|exists o; reflexivity].
        pose proof (IH id ps o r1 (Sh _ _ eq_refl eq_refl)) as R. unfold result_same in R.
        destruct (m_unmarshal (run S fuel) id ps r1) as [r2 [v|e| |]]; try exact R.
        destruct R as (s' & -> & v' & -> & O & K). exists (Some v'). split; [reflexivity|]. split.
        -- exists ps, v, v'. auto.
        -- intros w H. injection H as <-. exists v'. auto.
Qed.

(** ** Lists of slots *)

Lemma update_length {A} i (x : A) l : length (update i x l) = length l.
Proof. revert i. induction l as [|y l IH]; intros [|i]; cbn; auto. Qed.
Lemma nth_slot_update i s slots : (i < length slots)%nat -> nth_slot i (update i s slots) = s.
Proof. unfold nth_slot. revert i. induction slots as [|y l IH]; intros [|i] L; cbn in *; try lia; [reflexivity|]. apply IH. lia. Qed.
Lemma nth_slot_update_other i j s slots : i <> j -> nth_slot j (update i s slots) = nth_slot j slots.
Proof. unfold nth_slot. revert i j. induction slots as [|y l IH]; intros [|i] [|j] N; cbn; auto; congruence. Qed.

Lemma nth_keeps slots slots' : length slots = length slots' -> (forall i, slot_keeps (nth_slot i slots) (nth_slot i slots')) -> Forall2 slot_keeps slots slots'.
Proof.
  revert slots'. induction slots as [|s slots IH]; intros [|s' slots'] L H; try discriminate; constructor.
  - exact (H 0%nat).
  - apply IH; [now injection L|]. intros i. exact (H (S i)).
Qed.
Lemma keeps_nth slots slots' : Forall2 slot_keeps slots slots' -> forall i, slot_keeps (nth_slot i slots) (nth_slot i slots').
Proof. intros H. induction H as [|s s' l l' K H IH]; intros [|i]; cbn; try apply slot_keeps_none; [exact K | apply IH]. Qed.
Lemma nth_before i j slots : (j < i)%nat -> nth_slot j (before i slots) = nth_slot j slots.
Proof.
  unfold before, nth_slot. intros L. destruct (Nat.lt_ge_cases j (length slots)) as [H|H].
  - rewrite app_nth1 by (rewrite firstn_length; lia). clear H. revert j slots L. induction i as [|i IH]; intros j slots L; [lia|].
    destruct slots as [|s slots]; destruct j as [|j]; cbn; auto. apply IH. lia.
  - rewrite (nth_overflow slots) by lia. apply nth_overflow. rewrite app_length, firstn_length, repeat_length. lia.
Qed.
Lemma nth_before_none i j slots : (i <= j)%nat -> nth_slot j (before i slots) = None.
Proof.
  unfold before. intros L. destruct (Nat.lt_ge_cases (length slots) i) as [H|H].
  - unfold nth_slot. apply nth_overflow. rewrite app_length, firstn_length, repeat_length. lia.
  - unfold nth_slot. rewrite app_nth2 by (rewrite firstn_length; lia). apply repeat_nth.
Qed.
Lemma before_length i slots : (i <= length slots)%nat -> length (before i slots) = length slots.
Proof. intros L. unfold before. rewrite app_length, firstn_length, repeat_length. lia. Qed.
Lemma before_firstn k done rest rest' : (k <= length done)%nat -> length rest = length rest' -> before k (done ++ rest) = before k (done ++ rest').
Proof.
  intros L Q. unfold before. rewrite !firstn_app, !app_length, Q. replace (k - length done)%nat with 0%nat by lia. cbn. reflexivity.
Qed.

(** ** The fields of a struct *)

Lemma struct_used S fuel ps fs : causal S -> steady S ->
  (forall id, nth_error S id = Some (DStruct fs) ->
  (forall E E' f o r, agree f E E' -> (forall id args, f_array f = None -> f_type f = TRef id args -> shaped S fuel id o) ->
    result_same (read_field (run S fuel) E f r) (field_into (run S fuel) (UnmarshalInto S fuel) E' f o r)
      (fun s s' => over_field (overlaid S fuel) E f o s s' /\ slot_keeps s s')) ->
  forall old, length old = length fs ->
  (forall i f id args, nth_error fs i = Some f -> f_array f = None -> f_type f = TRef id args -> shaped S fuel id (nth_slot i old)) ->
  forall rest pre done slots r, fs = pre ++ rest -> length done = length pre -> length slots = length fs ->
    (forall k, (length pre <= k)%nat -> nth_slot k slots = nth_slot k old) ->
    (forall k, (k < length pre)%nat -> slot_keeps (nth_slot k done) (nth_slot k slots)) ->
    (forall k f, (k < length pre)%nat -> nth_error fs k = Some f -> exists r r',
       read_field (run S fuel) (mkE ps (before k (done ++ repeat None (length rest)))) f r = (r', Ok (nth_slot k done))) ->
    (forall k f, (k < length pre)%nat -> nth_error fs k = Some f ->
       over_field (overlaid S fuel) (mkE ps (before k (done ++ repeat None (length rest)))) f (nth_slot k old) (nth_slot k done) (nth_slot k slots)) ->
    match read_fields (run S fuel) ps done rest r with
    | (r', Ok new) => exists slots', fields_into (run S fuel) (UnmarshalInto S fuel) ps (length pre) rest slots r = (slots', (r', Ok tt)) /\
        length slots' = length fs /\ length new = length fs /\ Forall2 slot_keeps new slots' /\
        forall k f, nth_error fs k = Some f -> over_field (overlaid S fuel) (mkE ps (before k new)) f (nth_slot k old) (nth_slot k new) (nth_slot k slots')
    | (r', o) => exists slots', fields_into (run S fuel) (UnmarshalInto S fuel) ps (length pre) rest slots r = (slots', (r', as_unit o))
    end).
Proof.
  intros HC HS id Hd HF old Lo Sh rest. induction rest as [|f rest IH]; intros pre done slots r Q L Ls Hold Hk Hr Ho.
  - cbn. rewrite app_nil_r in Q. subst pre. cbn in Hr, Ho. rewrite app_nil_r in Ho. exists slots. split; [reflexivity|]. split; [exact Ls|]. split; [exact L|]. split.
    + apply nth_keeps; [lia|]. intros i. destruct (Nat.lt_ge_cases i (length fs)) as [H|H]; [now apply Hk|].
      unfold nth_slot at 1. rewrite nth_overflow by lia. apply slot_keeps_none.
    + intros k g Hn. apply Ho; [|exact Hn]. apply nth_error_Some. congruence.
  - cbn [read_fields fields_into]. unfold rbind.
    assert (Hf : nth_error fs (length pre) = Some f) by (rewrite Q, nth_error_app2, Nat.sub_diag by lia; reflexivity).
    assert (Lf : (length pre < length fs)%nat) by (apply nth_error_Some; congruence).
    assert (Lfs : length fs = (length pre + Datatypes.S (length rest))%nat) by (rewrite Q, app_length; reflexivity).
    assert (A : agree f (mkE ps (done ++ repeat None (length (f :: rest)))) (mkE ps slots)).
    { apply (HS id _ (length pre) f _ _ Hd Hf).
      - exists fuel, (done ++ repeat None (length (f :: rest))). split; [rewrite app_length, repeat_length; cbn; lia|]. split.
        + rewrite <- L, before_app, repeat_length. reflexivity.
        + intros k g Hlt Hn. destruct (Hr k g Hlt Hn) as (r1 & r2 & H). exists r1, r2. cbn [e_params].
          replace (nth_slot k (done ++ repeat None (length (f :: rest)))) with (nth_slot k done); [exact H|]. unfold nth_slot. now rewrite app_nth1 by lia.
      - split; [reflexivity|]. cbn [e_slots]. apply nth_keeps; [rewrite app_length, repeat_length; cbn; lia|]. intros i.
        destruct (Nat.lt_ge_cases i (length pre)) as [H|H].
        + unfold nth_slot at 1. rewrite app_nth1 by lia. now apply Hk.
        + unfold nth_slot at 1. rewrite app_nth2 by lia. fold (nth_slot (i - length done) (repeat None (length (f :: rest)))). rewrite repeat_nth. apply slot_keeps_none. }
    pose proof (HF _ _ f (nth_slot (length pre) slots) r A) as R. unfold result_same in R.
    assert (Sf : forall id args, f_array f = None -> f_type f = TRef id args -> shaped S fuel id (nth_slot (length pre) slots)).
    { intros id' args F1 F2. rewrite Hold by lia. exact (Sh _ _ _ _ Hf F1 F2). }
    specialize (R Sf). destruct (read_field (run S fuel) _ f r) as [r1 [s|e| |]] eqn:ER.
    2-4: destruct R as (s' & ->); eexists; reflexivity.
    destruct R as (s' & -> & O & K).
    assert (B : forall k, (k <= length pre)%nat -> before k ((done ++ [s]) ++ repeat None (length rest)) = before k (done ++ repeat None (length (f :: rest)))).
    { intros k Hlt. rewrite <- app_assoc. apply before_firstn; [lia|]. cbn. now rewrite !repeat_length. }
    assert (Bp : before (length pre) (done ++ repeat None (length (f :: rest))) = done ++ repeat None (length (f :: rest))).
    { rewrite <- L, before_app, repeat_length. reflexivity. }
    assert (Ns : forall k, (k < length pre)%nat -> nth_slot k (done ++ [s]) = nth_slot k done) by (intros k Hlt; unfold nth_slot; now rewrite app_nth1 by lia).
    assert (Np : nth_slot (length pre) (done ++ [s]) = s) by (rewrite <- L; apply nth_slot_app).
    specialize (IH (pre ++ [f]) (done ++ [s]) (update (length pre) s' slots) r1). 
    assert (Lp : length (pre ++ [f]) = Datatypes.S (length pre)) by (rewrite app_length; cbn; lia). rewrite Lp in IH. apply IH.
    + now rewrite <- app_assoc.
    + rewrite app_length. cbn. lia.
    + rewrite update_length. exact Ls.
    + intros k Hlt. rewrite nth_slot_update_other by lia. apply Hold. lia.
    + intros k Hlt. destruct (Nat.eq_dec k (length pre)) as [->|N].
      * rewrite nth_slot_update, Np by lia. exact K.
      * rewrite nth_slot_update_other, Ns by lia. apply Hk. lia.
    + intros k g Hlt Hn. rewrite B by lia. destruct (Nat.eq_dec k (length pre)) as [->|N].
      * assert (g = f) by congruence. subst g. rewrite Bp, Np. exists r, r1. exact ER.
      * rewrite Ns by lia. apply Hr; [lia | exact Hn].
    + intros k g Hlt Hn. rewrite B by lia. destruct (Nat.eq_dec k (length pre)) as [->|N].
      * assert (g = f) by congruence. subst g. rewrite Bp, Np, nth_slot_update by lia. rewrite <- Hold by lia. exact O.
      * rewrite Ns, nth_slot_update_other by lia. apply Ho; [lia | exact Hn].
Qed.

(** ** Types *)

Lemma over_agree over f E E' o s s' : agree f E E' -> over_field over E f o s s' -> over_field over E' f o s s'.
Proof.
  intros A. pose proof A as (A1 & _). unfold over_field. rewrite <- A1. destruct (included E f) as [[|]|]; auto. destruct (f_optional f); auto.
  destruct (f_array f); auto. destruct (f_type f) as [t|id args] eqn:T; auto. now rewrite (args_agree _ _ _ _ _ 0%nat A T).
Qed.

Lemma object_in_shaped S n id d s : nth_error S id = Some d -> (forall t, d <> DScalar t) -> shaped S (Datatypes.S n) id s ->
  exists tag slots, object_in (length (fields_of d)) s = Some (tag, slots) /\ length slots = length (fields_of d) /\
    (forall i, nth_slot i slots = old_slot s i) /\ match d with DUnion _ => True | _ => tag = 0 end /\
    forall i f id' args, nth_error (fields_of d) i = Some f -> f_array f = None -> f_type f = TRef id' args -> shaped S n id' (nth_slot i slots).
Proof.
  intros Hd Nd H. destruct s as [v|].
  - cbn [shaped] in H. specialize (H d Hd). destruct d as [t|fs|sel cases default|fs]; [now destruct (Nd t)| | |];
      destruct H as (tag & slots & -> & L & T & N); exists tag, slots; cbn [object_in]; rewrite L, Nat.eqb_refl; auto.
  - exists 0, (repeat None (length (fields_of d))). cbn [object_in old_slot]. split; [reflexivity|]. split; [apply repeat_length|].
    split; [intros i; apply repeat_nth|]. split; [destruct d; exact I || reflexivity|]. intros i f id' args _ _ _. rewrite repeat_nth. destruct n; exact I.
Qed.

Lemma only_keeps n i s s' slots : length slots = n -> (i < n)%nat -> slot_keeps s s' -> Forall2 slot_keeps (only n i s) (update i s' slots).
Proof.
  intros L Hi K. apply nth_keeps; [rewrite only_length, update_length; lia|]. intros j. destruct (Nat.eq_dec i j) as [<-|N].
  - rewrite only_at, nth_slot_update by lia. exact K.
  - destruct (nth_slot j (only n i s)) as [x|] eqn:E; [|apply slot_keeps_none]. apply only_nth in E. destruct E. congruence.
Qed.
Lemma none_keeps n slots : length slots = n -> Forall2 slot_keeps (repeat None n) slots.
Proof. intros L. apply nth_keeps; [now rewrite repeat_length|]. intros i. rewrite repeat_nth. apply slot_keeps_none. Qed.

(** One field of a choice or union. *)
Lemma branch_agree S id d i f ps slots : steady S -> nth_error S id = Some d -> (forall fs, d <> DStruct fs) -> nth_error (fields_of d) i = Some f ->
  length slots = length (fields_of d) -> agree f (mkE ps (repeat None (length (fields_of d)))) (mkE ps slots).
Proof.
  intros HS Hd Nd Hf L. apply (HS id d i f _ _ Hd Hf).
  - destruct d; try reflexivity. now destruct (Nd fields).
  - split; [reflexivity|]. cbn [e_slots]. now apply none_keeps.
Qed.

Theorem used S : causal S -> steady S -> forall fuel id ps s r, shaped S fuel id s ->
  result_same (UnmarshalZserio S fuel id ps r) (UnmarshalInto S fuel id ps s r)
    (fun v s' => exists v', s' = Some v' /\ overlaid S fuel id ps s v v' /\ keeps v v').
Proof.
  intros HC HS. unfold UnmarshalZserio. induction fuel as [|fuel IH]; intros id ps s r Sh; [exists s; reflexivity|].
  cbn [run m_unmarshal UnmarshalInto]. unfold of_def. destruct (nth_error S id) as [d|] eqn:Hd; [|exists s; reflexivity].
  pose proof (field_used S fuel IH) as HF.
  destruct d as [t|fs|selector cases default|fs]; cbn [unmarshal_def def_into].
  - unfold put. destruct (read_basic _ t r) as [r1 [v|e| |]]; try (exists s; reflexivity).
    exists (Some v). split; [reflexivity|]. exists v. split; [reflexivity|]. split; [|constructor]. cbn [overlaid]. exists (DScalar t). auto.
  - destruct (object_in_shaped S fuel id _ s Hd ltac:(discriminate) Sh) as (tag & slots & Q & L & Old & T & N). cbn [fields_of] in *. rewrite Q. subst tag.
    pose proof (struct_used S fuel ps fs HC HS id Hd HF slots L N fs [] [] slots r eq_refl eq_refl L) as R. unfold rbind.
    cbn [length] in R. specialize (R (fun k _ => eq_refl) ltac:(intros; lia) ltac:(intros; lia) ltac:(intros; lia)).
    destruct (read_fields (run S fuel) ps [] fs r) as [r1 [new|e| |]].
    2-4: destruct R as (slots' & ->); eexists; reflexivity.
    destruct R as (slots' & -> & L1 & L2 & K & O). cbn. eexists. split; [reflexivity|]. exists (VRec 0 slots'). split; [reflexivity|]. split; [|now constructor].
    exists (DStruct fs). split; [exact Hd|]. exists 0, new, slots'. split; [reflexivity|]. split; [reflexivity|]. cbn [fields_of]. split; [exact L2|]. split; [exact L1|].
    intros i f Hf. rewrite <- Old. eapply over_agree; [|exact (O i f Hf)]. apply agree_sym. apply (HC id _ i f Hd Hf). rewrite L2. apply nth_error_Some. congruence.
  - destruct (object_in_shaped S fuel id _ s Hd ltac:(discriminate) Sh) as (tag & slots & Q & L & Old & T & N). cbn [fields_of] in *. rewrite Q. subst tag.
    destruct (selector ps) as [sel|] eqn:Es; [|exists s; reflexivity]. destruct (select sel 0 cases default) as [[i f]|] eqn:Ec.
    + destruct (select_nth _ _ _ _ _ _ Ec) as [_ Hf]. rewrite Nat.sub_0_r in Hf.
      assert (Li : (i < length (choice_fields cases default))%nat) by (apply nth_error_Some; congruence).
      assert (A : agree f (mkE ps (repeat None (length (choice_fields cases default)))) (mkE ps slots)).
      { apply (branch_agree S id _ i f ps slots HS Hd); [discriminate | exact Hf | exact L]. }
      pose proof (HF _ _ f (nth_slot i slots) r A (fun id' args F1 F2 => N i f id' args Hf F1 F2)) as R. unfold result_same, rbind in *.
      destruct (read_field (run S fuel) _ f r) as [r1 [s1|e| |]]; destruct R as (s2 & R); try (rewrite R; eexists; reflexivity).
      destruct R as (-> & O & K). cbn. eexists. split; [reflexivity|]. eexists. split; [reflexivity|]. split; [|constructor; now apply only_keeps].
      eexists. split; [exact Hd|]. eexists 0, _, _. split; [reflexivity|]. split; [reflexivity|]. cbn [fields_of]. rewrite only_length, update_length.
      split; [reflexivity|]. split; [exact L|]. exists sel. split; [exact Es|]. rewrite Ec. split.
      * rewrite only_at, nth_slot_update by lia. rewrite <- Old. eapply over_agree; [|exact O].
        apply agree_sym. pose proof (HC id _ i f Hd Hf ps (only (length (choice_fields cases default)) i s1)) as B. rewrite only_length in B. specialize (B Li).
        rewrite only_field_before in B; [|apply only_field_only | rewrite only_length; exact Li]. rewrite only_length in B. exact B.
      * intros j Nj. rewrite nth_slot_update_other by congruence. apply Old.
    + cbn. eexists. split; [reflexivity|]. eexists. split; [reflexivity|]. split; [|constructor; now apply none_keeps].
      eexists. split; [exact Hd|]. eexists 0, _, _. split; [reflexivity|]. split; [reflexivity|]. cbn [fields_of]. rewrite repeat_length.
      split; [reflexivity|]. split; [exact L|]. exists sel. split; [exact Es|]. rewrite Ec. exact Old.
  - destruct (object_in_shaped S fuel id _ s Hd ltac:(discriminate) Sh) as (tag0 & slots & Q & L & Old & T & N). cbn [fields_of] in *. rewrite Q.
    unfold rbind at 1. destruct (ReadVarsize r) as [r1 [tag|e| |]]; try (exists s; reflexivity).
    destruct (if tag <? 1 then None else nth_error fs (Z.to_nat (tag - 1))) as [f|] eqn:Ef.
    + assert (Hf : nth_error fs (Z.to_nat (tag - 1)) = Some f) by (destruct (tag <? 1); [discriminate | exact Ef]). set (i := Z.to_nat (tag - 1)) in *.
      assert (Li : (i < length fs)%nat) by (apply nth_error_Some; congruence).
      assert (A : agree f (mkE ps (repeat None (length fs))) (mkE ps slots)).
      { apply (branch_agree S id _ i f ps slots HS Hd); [discriminate | exact Hf | exact L]. }
      pose proof (HF _ _ f (nth_slot i slots) r1 A (fun id' args F1 F2 => N i f id' args Hf F1 F2)) as R. unfold result_same, rbind in *.
      destruct (read_field (run S fuel) _ f r1) as [r2 [s1|e| |]]; destruct R as (s2 & R); try (rewrite R; eexists; reflexivity).
      destruct R as (-> & O & K). cbn. eexists. split; [reflexivity|]. eexists. split; [reflexivity|]. split; [|constructor; now apply only_keeps].
      eexists. split; [exact Hd|]. eexists tag, _, _. split; [reflexivity|]. split; [reflexivity|]. cbn [fields_of]. rewrite only_length, update_length.
      split; [reflexivity|]. split; [exact L|]. fold i. rewrite Ef. split.
      * rewrite only_at, nth_slot_update by lia. rewrite <- Old. eapply over_agree; [|exact O].
        apply agree_sym. pose proof (HC id _ i f Hd Hf ps (only (length fs) i s1)) as B. rewrite only_length in B. specialize (B Li).
        rewrite only_field_before in B; [|apply only_field_only | rewrite only_length; exact Li]. rewrite only_length in B. exact B.
      * intros j Nj. rewrite nth_slot_update_other by congruence. apply Old.
    + cbn. eexists. split; [reflexivity|]. eexists. split; [reflexivity|]. split; [|constructor; now apply none_keeps].
      eexists. split; [exact Hd|]. eexists tag, _, _. split; [reflexivity|]. split; [reflexivity|]. cbn [fields_of]. rewrite repeat_length.
      split; [reflexivity|]. split; [exact L|]. rewrite Ef. exact Old.
Qed.
