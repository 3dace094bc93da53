(** New objects, and objects with any history of successful and failed decodings. *)

Require Import ZArith List Bool Lia ZifyBool ZifyNat.
From Verif Require Import Bits Stream Scalars Traits Delta Array Schema SchemaSpec SchemaSize SchemaPlain SchemaObjects SchemaThms DecodeTotal DecodeValid
  SchemaInto SchemaIntoSpec SchemaIntoFacts SchemaIntoWrite.
Import ListNotations.
Open Scope Z_scope.

(** Decoding into a new object is [UnmarshalZserio]. *)
Lemma new_field S fuel : (forall id ps r, result_same (m_unmarshal (run S fuel) id ps r) (UnmarshalInto S fuel id ps None r) (fun v s => s = Some v)) ->
  forall E f r, result_same (read_field (run S fuel) E f r) (field_into (run S fuel) (UnmarshalInto S fuel) E f None r) (fun s s' => s' = s).
Proof.
  intros IH E f r. unfold read_field, field_into. destruct (included E f) as [[|]|]; [|exists None; split; reflexivity|exists None; reflexivity].
  unfold rbind at 1. destruct (ralign_opt (f_align f) r) as [r1 [u|e| |]]; try (exists None; reflexivity). destruct (f_optional f).
  - unfold rbind at 1. destruct (ReadBool r1) as [r2 [[|]|e| |]]; try (exists None; reflexivity); [|exists None; split; reflexivity].
    unfold put, rbind. destruct (read_content (run S fuel) E f r2) as [r3 [v|e| |]]; try (exists None; reflexivity). exists (Some v). split; reflexivity.
  - unfold read_content, content_into. destruct (f_array f) as [[len packed]|].
    + unfold rbind. destruct (read_field_array (run S fuel) E f len packed r1) as [r2 [es|e| |]]; try (eexists; reflexivity). eexists. split; reflexivity.
    + destruct (f_type f) as [t|id args].
      * unfold put, rbind. destruct (read_basic E t r1) as [r2 [v|e| |]]; try (eexists; reflexivity). eexists. split; reflexivity.
      * unfold rbind. destruct (args E 0%nat) as [ps|]; [|eexists; reflexivity]. specialize (IH id ps r1). unfold result_same in IH.
        destruct (m_unmarshal (run S fuel) id ps r1) as [r2 [v|e| |]]; try (destruct IH as (s & ->); eexists; reflexivity).
        destruct IH as (s & -> & ->). eexists. split; reflexivity.
Qed.

Lemma update_app {A} (done : list A) x y rest : update (length done) y (done ++ x :: rest) = (done ++ [y]) ++ rest.
Proof. unfold update. rewrite <- app_assoc. induction done as [|d done IH]; [reflexivity|]. cbn. f_equal. exact IH. Qed.

Lemma new_fields S fuel ps : (forall E f r, result_same (read_field (run S fuel) E f r) (field_into (run S fuel) (UnmarshalInto S fuel) E f None r) (fun s s' => s' = s)) ->
  forall fs done r, match read_fields (run S fuel) ps done fs r with
  | (r', Ok new) => fields_into (run S fuel) (UnmarshalInto S fuel) ps (length done) fs (done ++ repeat None (length fs)) r = (new, (r', Ok tt))
  | (r', o) => exists slots, fields_into (run S fuel) (UnmarshalInto S fuel) ps (length done) fs (done ++ repeat None (length fs)) r = (slots, (r', as_unit o))
  end.
Proof.
  intros HF. induction fs as [|f fs IH]; intros done r; [cbn; now rewrite app_nil_r|].
  cbn [read_fields fields_into]. unfold rbind. specialize (HF (mkE ps (done ++ repeat None (length (f :: fs)))) f r).
  replace (nth_slot (length done) (done ++ repeat None (length (f :: fs)))) with (@None value) by (cbn [length repeat]; symmetry; apply nth_slot_app).
  unfold result_same in HF. destruct (read_field (run S fuel) _ f r) as [r1 [s|e| |]]; try (destruct HF as (s & ->); eexists; reflexivity).
  destruct HF as (s' & -> & ->). cbn [length repeat]. rewrite update_app. specialize (IH (done ++ [s]) r1). rewrite app_length in IH. cbn [length] in IH. rewrite Nat.add_1_r in IH. exact IH.
Qed.

Theorem new_object S : forall fuel id ps r, result_same (UnmarshalZserio S fuel id ps r) (UnmarshalInto S fuel id ps None r) (fun v s => s = Some v).
Proof.
  unfold UnmarshalZserio. induction fuel as [|fuel IH]; intros id ps r; [exists None; reflexivity|].
  cbn [run m_unmarshal UnmarshalInto]. unfold of_def. destruct (nth_error S id) as [d|] eqn:Hd; [|exists None; reflexivity].
  pose proof (new_field S fuel IH) as HF.
  destruct d as [t|fs|selector cases default|fs]; cbn [unmarshal_def def_into object_in].
  - unfold put. destruct (read_basic _ t r) as [r1 [v|e| |]]; try (eexists; reflexivity). eexists. split; reflexivity.
  - unfold rbind. pose proof (new_fields S fuel ps HF fs [] r) as H. cbn [length app] in H. destruct (read_fields (run S fuel) ps [] fs r) as [r1 [new|e| |]].
    + rewrite H. eexists. split; reflexivity.
    + destruct H as (slots & ->). eexists; reflexivity.
    + destruct H as (slots & ->). eexists; reflexivity.
    + destruct H as (slots & ->). eexists; reflexivity.
  - destruct (selector ps) as [sel|]; [|exists None; reflexivity]. destruct (select sel 0 cases default) as [[i f]|] eqn:Ec; [|eexists; split; reflexivity].
    rewrite repeat_nth. specialize (HF (mkE ps (repeat None (length (choice_fields cases default)))) f r). unfold result_same, rbind in *.
    destruct (read_field (run S fuel) _ f r) as [r1 [s|e| |]]; try (destruct HF as (s & ->); eexists; reflexivity).
    destruct HF as (s' & -> & ->). eexists. split; reflexivity.
  - unfold rbind at 1. destruct (ReadVarsize r) as [r1 [tag|e| |]]; try (eexists; reflexivity).
    destruct (if tag <? 1 then None else nth_error fs (Z.to_nat (tag - 1))) as [f|]; [|eexists; split; reflexivity].
    cbn zeta. rewrite repeat_nth. specialize (HF (mkE ps (repeat None (length fs))) f r1). unfold result_same, rbind in *.
    destruct (read_field (run S fuel) _ f r1) as [r2 [s|e| |]]; try (destruct HF as (s & ->); eexists; reflexivity).
    destruct HF as (s' & -> & ->). eexists. split; reflexivity.
Qed.

(** The objects that come out of a decoding have the shape of their type. *)
Theorem fresh_shaped S : forall fuel id ps r r' v, UnmarshalZserio S fuel id ps r = (r', Ok v) -> forall n, shaped S n id (Some v).
Proof.
  unfold UnmarshalZserio. induction fuel as [|fuel IH]; intros id ps r r' v D n; [discriminate|]. destruct n as [|n]; [exact I|].
  cbn [shaped]. intros d Hd. cbn [run m_unmarshal] in D. unfold of_def in D. rewrite Hd in D.
  assert (Field : forall E f s id' args r1 r2, read_field (run S fuel) E f r1 = (r2, Ok s) -> f_array f = None -> f_type f = TRef id' args -> shaped S n id' s).
  { intros E f s id' args r1 r2 R F T. destruct s as [x|]; [|destruct n; exact I]. destruct (args E 0%nat) as [ps'|] eqn:Ha.
    - destruct (field_decoded _ _ _ _ _ _ _ _ _ R F T Ha) as (r3 & r4 & D1). exact (IH _ _ _ _ _ D1 n).
    - exfalso. unfold read_field, read_content in R. rewrite F, T, Ha in R. destruct (included E f) as [[|]|]; try discriminate.
      unfold rbind at 1 in R. destruct (ralign_opt (f_align f) r1) as [r3 [u|e| |]]; try discriminate. destruct (f_optional f).
      + unfold rbind at 1 in R. destruct (ReadBool r3) as [r4 [[|]|e| |]]; discriminate.
      + discriminate. }
  assert (Only : forall m i s k f id' args, nth_error (fields_of d) k = Some f -> f_array f = None -> f_type f = TRef id' args ->
    (k = i -> shaped S n id' s) -> (i < m)%nat -> shaped S n id' (nth_slot k (only m i s))).
  { intros m i s k f id' args Hk F T H Hi. destruct (Nat.eq_dec k i) as [->|N]; [rewrite only_at by exact Hi; auto|].
    rewrite (only_field_only m i s k N). destruct n; exact I. }
  destruct d as [t|fs|selector cases default|fs]; [exact I| | |]; cbn [fields_of unmarshal_def] in *.
  - unfold rbind in D. destruct (read_fields (run S fuel) ps [] fs r) as [r1 [new|e| |]] eqn:E; try discriminate. injection D as <- <-.
    destruct (read_fields_inv _ _ _ _ _ _ _ E) as (L & _ & R). cbn [length Nat.add] in R, L. exists 0, new. repeat split; [exact L|].
    intros i f id' args Hf F T. destruct (R i f Hf) as (r1' & r2 & R1). exact (Field _ _ _ _ _ _ _ R1 F T).
  - destruct (selector ps) as [sel|]; [|discriminate]. destruct (select sel 0 cases default) as [[i f]|] eqn:Ec.
    + destruct (select_nth _ _ _ _ _ _ Ec) as [_ Hf]. rewrite Nat.sub_0_r in Hf.
      assert (Li : (i < length (choice_fields cases default))%nat) by (apply nth_error_Some; congruence).
      unfold rbind in D. destruct (read_field (run S fuel) _ f r) as [r1 [s1|e| |]] eqn:E; try discriminate. injection D as <- <-.
      eexists 0, _. repeat split; [apply only_length|]. intros k g id' args Hk F T. apply (Only _ _ _ _ _ _ _ Hk F T); [|exact Li].
      intros ->. rewrite Hf in Hk. injection Hk as <-. exact (Field _ _ _ _ _ _ _ E F T).
    + injection D as <- <-. eexists 0, _. repeat split; [apply repeat_length|]. intros k g id' args Hk F T. unfold nth_slot. rewrite nth_repeat. destruct n; exact I.
  - unfold rbind at 1 in D. destruct (ReadVarsize r) as [r1 [tag|e| |]]; try discriminate.
    destruct (if tag <? 1 then None else nth_error fs (Z.to_nat (tag - 1))) as [f|] eqn:Ef.
    + assert (Hf : nth_error fs (Z.to_nat (tag - 1)) = Some f) by (destruct (tag <? 1); [discriminate | exact Ef]). set (i := Z.to_nat (tag - 1)) in *.
      assert (Li : (i < length fs)%nat) by (apply nth_error_Some; congruence).
      unfold rbind in D. destruct (read_field (run S fuel) _ f r1) as [r2 [s1|e| |]] eqn:E; try discriminate. injection D as <- <-.
      eexists tag, _. repeat split; [apply only_length|]. intros k g id' args Hk F T. apply (Only _ _ _ _ _ _ _ Hk F T); [|exact Li].
      intros ->. rewrite Hf in Hk. injection Hk as <-. exact (Field _ _ _ _ _ _ _ E F T).
    + injection D as <- <-. eexists tag, _. repeat split; [apply repeat_length|]. intros k g id' args Hk F T. unfold nth_slot. rewrite nth_repeat. destruct n; exact I.
Qed.

Lemma shaped_none S n id : shaped S n id None.
Proof. destruct n; exact I. Qed.

Lemma shaped_content S n id ps fuel r r' v : m_unmarshal (run S fuel) id ps r = (r', Ok v) -> shaped S n id (Some v).
Proof. intros H. exact (fresh_shaped S fuel id ps r r' v H n). Qed.

Lemma field_shaped S fuel n : (forall id ps s r, shaped S n id s -> shaped S n id (fst (UnmarshalInto S fuel id ps s r))) ->
  forall E f s r id args, f_array f = None -> f_type f = TRef id args -> shaped S n id s ->
  shaped S n id (fst (field_into (run S fuel) (UnmarshalInto S fuel) E f s r)).
Proof.
  intros IH E f s r id args F T Hs. unfold field_into, content_into, read_content, put. rewrite F, T.
  destruct (included E f) as [[|]|]; [|exact Hs|exact Hs]. destruct (ralign_opt (f_align f) r) as [r1 [u|e| |]]; try exact Hs.
  destruct (f_optional f).
  - destruct (ReadBool r1) as [r2 [[|]|e| |]]; try exact Hs; [|apply shaped_none]. destruct (args E 0%nat) as [ps|]; [|exact Hs].
    destruct (m_unmarshal (run S fuel) id ps r2) as [r3 [x|e| |]] eqn:D; try exact Hs. exact (shaped_content _ _ _ _ _ _ _ _ D).
  - destruct (args E 0%nat) as [ps|]; [apply IH; exact Hs | exact Hs].
Qed.

Lemma fields_shaped S fuel n ps all : (forall id ps s r, shaped S n id s -> shaped S n id (fst (UnmarshalInto S fuel id ps s r))) ->
  forall fs i slots r, (forall k, nth_error fs k = nth_error all (i + k)) -> length slots = length all ->
  (forall k f id' args, nth_error all k = Some f -> f_array f = None -> f_type f = TRef id' args -> shaped S n id' (nth_slot k slots)) ->
  forall slots' x, fields_into (run S fuel) (UnmarshalInto S fuel) ps i fs slots r = (slots', x) -> length slots' = length all /\
  (forall k f id' args, nth_error all k = Some f -> f_array f = None -> f_type f = TRef id' args -> shaped S n id' (nth_slot k slots')).
Proof.
  intros IH. induction fs as [|f fs IHf]; intros i slots r A L H slots' x D; cbn [fields_into] in D; [injection D as <- _; auto|].
  pose proof (A 0%nat) as Hf. cbn in Hf. rewrite Nat.add_0_r in Hf. symmetry in Hf.
  assert (Li : (i < length slots)%nat) by (rewrite L; apply nth_error_Some; congruence).
  destruct (field_into (run S fuel) (UnmarshalInto S fuel) (mkE ps slots) f (nth_slot i slots) r) as [s1 [r1 o]] eqn:E.
  assert (H1 : forall k g id' args, nth_error all k = Some g -> f_array g = None -> f_type g = TRef id' args -> shaped S n id' (nth_slot k (update i s1 slots))).
  { intros k g id' args Hk F T. destruct (Nat.eq_dec i k) as [->|N].
    - rewrite nth_slot_update by exact Li. rewrite Hf in Hk. injection Hk as <-.
      pose proof (field_shaped S fuel n IH (mkE ps slots) f (nth_slot k slots) r id' args F T (H _ _ _ _ Hf F T)) as Q. now rewrite E in Q.
    - rewrite nth_slot_update_other by exact N. exact (H _ _ _ _ Hk F T). }
  destruct o; try (injection D as <- _; rewrite update_length; auto).
  refine (IHf (Datatypes.S i) (update i s1 slots) r1 _ _ H1 slots' x D); [|now rewrite update_length].
  intros k. specialize (A (Datatypes.S k)). cbn in A. rewrite A. f_equal. lia.
Qed.

Theorem into_shaped S : forall fuel n id ps s r, shaped S n id s -> shaped S n id (fst (UnmarshalInto S fuel id ps s r)).
Proof.
  induction fuel as [|fuel IH]; intros n id ps s r Hs; [exact Hs|]. cbn [UnmarshalInto]. destruct (nth_error S id) as [d|] eqn:Hd; [|exact Hs].
  destruct n as [|n]; [exact I|]. pose proof (IH n) as IHn.
  destruct d as [t|fs|selector cases default|fs]; cbn [def_into].
  - unfold put. destruct (read_basic _ t r) as [r1 [v|e| |]]; try exact Hs. cbn [fst shaped]. intros d Hd'. rewrite Hd in Hd'. injection Hd' as <-. exact I.
  - destruct (object_in_shaped S n id _ s Hd ltac:(discriminate) Hs) as (tag & slots & Ho & L & _ & Tg & Sh). cbn [fields_of] in *. rewrite Ho.
    destruct (fields_into (run S fuel) (UnmarshalInto S fuel) ps 0 fs slots r) as [slots' x] eqn:E.
    destruct (fields_shaped S fuel n ps fs IHn fs 0 slots r (fun k => eq_refl) L Sh _ _ E) as [L' Sh'].
    cbn [fst shaped]. intros d Hd'. rewrite Hd in Hd'. injection Hd' as <-. exists tag, slots'. auto.
  - destruct (object_in_shaped S n id _ s Hd ltac:(discriminate) Hs) as (tag & slots & Ho & L & _ & Tg & Sh). cbn [fields_of] in *. rewrite Ho.
    destruct (selector ps) as [sel|]; [|exact Hs]. destruct (select sel 0 cases default) as [[i f]|] eqn:Ec.
    + destruct (select_nth _ _ _ _ _ _ Ec) as [_ Hf]. rewrite Nat.sub_0_r in Hf.
      assert (Li : (i < length slots)%nat) by (rewrite L; apply nth_error_Some; congruence).
      destruct (field_into _ _ _ f (nth_slot i slots) r) as [s1 x] eqn:E. cbn [fst shaped]. intros d Hd'. rewrite Hd in Hd'. injection Hd' as <-.
      exists tag, (update i s1 slots). repeat split; [now rewrite update_length | exact Tg |]. intros k g id' args Hk F T. destruct (Nat.eq_dec i k) as [->|N].
      * rewrite nth_slot_update by exact Li. cbn [fields_of] in Hk. rewrite Hf in Hk. injection Hk as <-.
        pose proof (field_shaped S fuel n IHn (mkE ps slots) f (nth_slot k slots) r id' args F T (Sh _ _ _ _ Hf F T)) as Q. now rewrite E in Q.
      * rewrite nth_slot_update_other by exact N. exact (Sh _ _ _ _ Hk F T).
    + cbn [fst shaped]. intros d Hd'. rewrite Hd in Hd'. injection Hd' as <-. exists tag, slots. auto.
  - destruct (object_in_shaped S n id _ s Hd ltac:(discriminate) Hs) as (tag0 & slots & Ho & L & _ & Tg & Sh). cbn [fields_of] in *. rewrite Ho.
    destruct (ReadVarsize r) as [r1 [tag|e| |]]; try exact Hs.
    destruct (if tag <? 1 then None else nth_error fs (Z.to_nat (tag - 1))) as [f|] eqn:Ef.
    + assert (Hf : nth_error fs (Z.to_nat (tag - 1)) = Some f) by (destruct (tag <? 1); [discriminate | exact Ef]). set (i := Z.to_nat (tag - 1)) in *.
      assert (Li : (i < length slots)%nat) by (rewrite L; apply nth_error_Some; congruence). cbn zeta.
      destruct (field_into _ _ _ f (nth_slot i slots) r1) as [s1 x] eqn:E. cbn [fst shaped]. intros d Hd'. rewrite Hd in Hd'. injection Hd' as <-.
      exists tag, (update i s1 slots). repeat split; [now rewrite update_length |]. intros k g id' args Hk F T. destruct (Nat.eq_dec i k) as [Q|N].
      * subst k. rewrite nth_slot_update by exact Li. cbn [fields_of] in Hk. rewrite Hf in Hk. injection Hk as <-.
        pose proof (field_shaped S fuel n IHn (mkE ps slots) f (nth_slot i slots) r1 id' args F T (Sh _ _ _ _ Hf F T)) as Q. now rewrite E in Q.
      * rewrite nth_slot_update_other by exact N. exact (Sh _ _ _ _ Hk F T).
    + cbn [fst shaped]. intros d Hd'. rewrite Hd in Hd'. injection Hd' as <-. exists tag, slots. auto.
Qed.

Lemma reused_shaped S id : forall calls s, (forall n, shaped S n id s) -> forall n, shaped S n id (reused S id calls s).
Proof.
  induction calls as [|[[fuel ps] r] calls IH]; intros s H n; [apply H|]. cbn [reused]. apply IH. intros m. now apply into_shaped.
Qed.

Theorem history S : causal S -> steady S -> forall id calls s fuel ps r, (forall n, shaped S n id s) ->
  result_same (UnmarshalZserio S fuel id ps r) (UnmarshalInto S fuel id ps (reused S id calls s) r)
    (fun v s' => exists v', s' = Some v' /\ overlaid S fuel id ps (reused S id calls s) v v' /\ same_output S id ps v v').
Proof.
  intros HC HS id calls s fuel ps r H. pose proof (used S HC HS fuel id ps _ r (reused_shaped S id calls s H fuel)) as U. unfold result_same in *.
  destruct (UnmarshalZserio S fuel id ps r) as [r' [v|e| |]] eqn:D; try exact U.
  destruct U as (s' & E & v' & -> & O & K). exists (Some v'). split; [exact E|]. exists v'. split; [reflexivity|]. split; [exact O|].
  exact (used_output S HC HS fuel id ps _ v v' r r' D O K).
Qed.

(** A failed decoding of a struct leaves the fields after the failing one alone. *)
Lemma fields_stop M I ps : forall fs i slots r slots' r' o, fields_into M I ps i fs slots r = (slots', (r', o)) -> o <> Ok tt ->
  exists k, (k < length fs)%nat /\ forall j, (i + k < j)%nat -> nth_slot j slots' = nth_slot j slots.
Proof.
  induction fs as [|f fs IH]; intros i slots r slots' r' o H N; cbn [fields_into] in H; [injection H as _ _ <-; now destruct N|].
  destruct (field_into M I (mkE ps slots) f (nth_slot i slots) r) as [s [r1 x]] eqn:E.
  assert (Stop : slots' = update i s slots -> exists k, (k < length (f :: fs))%nat /\ forall j, (i + k < j)%nat -> nth_slot j slots' = nth_slot j slots).
  { intros ->. exists 0%nat. split; [cbn; lia|]. intros j Hj. apply nth_slot_update_other. lia. }
  destruct x; try (apply Stop; injection H; congruence).
  destruct (IH _ _ _ _ _ _ H N) as (k & Hk & Q). exists (S k). split; [cbn; lia|]. intros j Hj. rewrite Q by lia. apply nth_slot_update_other. lia.
Qed.

Theorem failed S fuel id ps fs s s' r r' o : nth_error S id = Some (DStruct fs) -> shaped S fuel id s -> UnmarshalInto S fuel id ps s r = (s', (r', o)) -> o <> Ok tt -> fuel <> 0%nat ->
  exists k, (k < length fs)%nat /\ forall j, (k < j)%nat -> old_slot s' j = old_slot s j.
Proof.
  intros Hd Sh H N Nf. destruct fuel as [|fuel]; [now destruct Nf|]. cbn [UnmarshalInto] in H. rewrite Hd in H. cbn [def_into] in H.
  destruct (object_in_shaped S fuel id _ s Hd ltac:(discriminate) Sh) as (tag & slots & Ho & L & Old & _). cbn [fields_of] in *. rewrite Ho in H.
  destruct (fields_into _ _ ps 0 fs slots r) as [slots' x] eqn:E. injection H as <- ->. destruct (fields_stop _ _ _ _ _ _ _ _ _ _ E N) as (k & Hk & Q).
  exists k. split; [exact Hk|]. intros j Hj. cbn [old_slot]. rewrite Q by lia. apply Old.
Qed.
