(** Lemmas about LoadDefaultValues. *)

Require Import ZArith List Bool Lia.
From Verif Require Import Bits Stream Scalars Marshal Traits Delta Array Schema Defaults DefaultsSpec.
Import ListNotations.
Open Scope Z_scope.

Lemma load_fields_nth : forall L I fs i slots ss, load_fields L I i fs slots = Some ss ->
  length ss = length fs /\
  forall k f, nth_error fs k = Some f -> load_field L f (I (i + k)%nat) (nth_slot (i + k) slots) = Some (nth k ss None).
Proof.
  intros L I. induction fs as [|g fs IH]; intros i slots ss H; cbn [load_fields] in H.
  - injection H as <-. split; [reflexivity|]. intros [|k] f Hf; discriminate.
  - destruct (load_field L g (I i) (nth_slot i slots)) as [s|] eqn:E; [|discriminate].
    destruct (load_fields L I (S i) fs slots) as [ss'|] eqn:E2; [|discriminate]. injection H as <-.
    destruct (IH _ _ _ E2) as [Hl Hk]. split; [cbn; congruence|]. intros [|k] f Hf; cbn [nth_error nth] in *.
    + injection Hf as <-. rewrite Nat.add_0_r. assumption.
    + rewrite <- Nat.add_succ_comm. now apply Hk.
Qed.

Lemma load_fields_some : forall L I fs i slots,
  (forall k f, nth_error fs k = Some f -> load_field L f (I (i + k)%nat) (nth_slot (i + k) slots) <> None) -> load_fields L I i fs slots <> None.
Proof.
  intros L I. induction fs as [|g fs IH]; intros i slots H; cbn [load_fields]; [discriminate|].
  pose proof (H 0%nat g eq_refl) as H0. rewrite Nat.add_0_r in H0. destruct (load_field L g (I i) (nth_slot i slots)); [|congruence].
  specialize (IH (S i) slots). destruct (load_fields L I (S i) fs slots); [discriminate|]. exfalso. apply IH; [|reflexivity].
  intros k f Hf. rewrite Nat.add_succ_comm. now apply H.
Qed.

(** One step: the record afterwards, and each field of it. *)
Lemma load_step : forall Sc I fuel id slot slot' d, load Sc I fuel id slot = Some slot' -> nth_error Sc id = Some d ->
  (exists t, d = DScalar t /\ slot' = slot) \/
  (exists fuel' ss, fuel = S fuel' /\ (forall t, d <> DScalar t) /\ slot' = Some (VRec (union_choice slot) ss) /\
     (slot = None \/ exists tag slots, slot = Some (VRec tag slots)) /\ length ss = length (fields_of d) /\
     forall k f, nth_error (fields_of d) k = Some f -> load_field (load Sc I fuel') f (I id k) (get [k] slot) = Some (nth k ss None)).
Proof.
  intros Sc I fuel id slot slot' d H Hd. destruct fuel as [|fuel']; [discriminate|]. cbn [load] in H. rewrite Hd in H.
  assert (Hcase : (exists t, d = DScalar t) \/ forall t, d <> DScalar t) by (destruct d; [left; now eexists|right; congruence|right; congruence|right; congruence]).
  destruct Hcase as [(t & ->)|Hns]; [left; injection H as <-; now exists t|]. right. exists fuel'.
  assert (H' : match slot with
          | Some (VRec tag slots) => match load_fields (load Sc I fuel') (I id) 0 (fields_of d) slots with Some s => Some (Some (VRec tag s)) | None => None end
          | None => match load_fields (load Sc I fuel') (I id) 0 (fields_of d) [] with Some s => Some (Some (VRec 0 s)) | None => None end
          | _ => None end = Some slot') by (destruct d; [now specialize (Hns t)|assumption|assumption|assumption]).
  clear H. destruct slot as [[z|b|s|p|tag slots|l]|]; try discriminate H'.
  - destruct (load_fields (load Sc I fuel') (I id) 0 (fields_of d) slots) as [ss|] eqn:E; [|discriminate]. injection H' as <-.
    destruct (load_fields_nth _ _ _ _ _ _ E) as [Hl Hk]. exists ss. repeat split; try assumption. right. now exists tag, slots.
  - destruct (load_fields (load Sc I fuel') (I id) 0 (fields_of d) []) as [ss|] eqn:E; [|discriminate]. injection H' as <-.
    destruct (load_fields_nth _ _ _ _ _ _ E) as [Hl Hk]. exists ss. repeat split; try assumption; [now left|].
    intros k f Hf. specialize (Hk k f Hf). cbn [Nat.add] in Hk. unfold nth_slot in Hk. replace (nth k [] (@None value)) with (@None value) in Hk by now destruct k. exact Hk.
Qed.

Lemma get_cons : forall i path slot, get (i :: path) slot = get path (get [i] slot).
Proof. intros i path slot. cbn. destruct slot as [[]|]; try reflexivity; destruct path; reflexivity. Qed.

Lemma load_field_mandatory : forall L f x s, mandatory f -> load_field L f x s = match f_type f with TRef id _ => L id s | TBasic _ => match x with Some v => Some (Some v) | None => Some s end end.
Proof. intros L f x s [H1 H2]. unfold load_field. rewrite H1, H2. reflexivity. Qed.

Lemma mandatory_dec : forall f, mandatory f \/ (~ mandatory f /\ forall L x s, load_field L f x s = Some s).
Proof.
  intro f. unfold mandatory, load_field. destruct (f_optional f); [right; split; [intros [H _]; discriminate|reflexivity]|].
  destruct (f_array f); [right; split; [intros [_ H]; discriminate|reflexivity]|]. left. now split.
Qed.

(** Going along a path: the field at its end is loaded from what was there. *)
Lemma load_reaches : forall Sc I id path f id' i, reaches Sc id path f id' i -> forall fuel slot slot', load Sc I fuel id slot = Some slot' ->
  exists fuel', load_field (load Sc I fuel') f (I id' i) (get path slot) = Some (get path slot').
Proof.
  intros Sc I id path f id' i H. induction H as [id d i f Hd Hf|id d i g id1 args path f id' j Hd Hg Hm Ht Hr IH]; intros fuel slot slot' HL.
  - destruct (load_step _ _ _ _ _ _ _ HL Hd) as [(t & -> & _)|(fuel' & ss & _ & _ & -> & _ & _ & Hk)]; [now destruct i|].
    exists fuel'. exact (Hk i f Hf).
  - destruct (load_step _ _ _ _ _ _ _ HL Hd) as [(t & -> & _)|(fuel' & ss & _ & _ & -> & _ & _ & Hk)]; [now destruct i|].
    specialize (Hk i g Hg). rewrite load_field_mandatory, Ht in Hk by assumption. destruct (IH _ _ _ Hk) as (fuel'' & H). exists fuel''.
    rewrite get_cons. cbn [get] in *. exact H.
Qed.

Theorem defaults_set : forall Sc I fuel id v v' path f id' i x, LoadDefaultValues Sc I fuel id v = Some v' ->
  reaches Sc id path f id' i -> settable f -> I id' i = Some x -> get path (Some v') = Some x.
Proof.
  intros Sc I fuel id v v' path f id' i x H Hr [Hm [t Ht]] Hx. unfold LoadDefaultValues in H. destruct (load Sc I fuel id (Some v)) as [[w|]|] eqn:E; [|discriminate|discriminate].
  injection H as <-. destruct (load_reaches _ _ _ _ _ _ _ Hr _ _ _ E) as (fuel' & HL). rewrite load_field_mandatory, Ht, Hx in HL by assumption. now injection HL.
Qed.

Theorem defaults_kept : forall Sc I fuel id v v' path f id' i, LoadDefaultValues Sc I fuel id v = Some v' ->
  reaches Sc id path f id' i -> ~ (settable f /\ I id' i <> None) -> ~ entered Sc f -> get path (Some v') = get path (Some v).
Proof.
  intros Sc I fuel id v v' path f id' i H Hr Hs He. unfold LoadDefaultValues in H. destruct (load Sc I fuel id (Some v)) as [[w|]|] eqn:E; [|discriminate|discriminate].
  injection H as <-. destruct (load_reaches _ _ _ _ _ _ _ Hr _ _ _ E) as (fuel' & HL).
  destruct (mandatory_dec f) as [Hm|[_ Hn]]; [|rewrite Hn in HL; congruence].
  rewrite load_field_mandatory in HL by assumption. destruct (f_type f) as [t|id1 args] eqn:Et.
  - destruct (I id' i) as [x|]; [|congruence]. exfalso. apply Hs. split; [|discriminate]. split; [assumption|now exists t].
  - destruct (nth_error Sc id1) as [d|] eqn:Ed.
    + destruct (load_step _ _ _ _ _ _ _ HL Ed) as [(t & -> & Hk)|(fuel'' & ss & _ & Hns & _)]; [congruence|].
      exfalso. apply He. split; [assumption|]. now exists id1, args, d.
    + destruct fuel'; cbn [load] in HL; [discriminate|]. rewrite Ed in HL. discriminate.
Qed.

Theorem defaults_union : forall Sc I fuel id v v', LoadDefaultValues Sc I fuel id v = Some v' ->
  union_choice (Some v') = union_choice (Some v) /\
  forall path f id' i, reaches Sc id path f id' i -> entered Sc f -> union_choice (get path (Some v')) = union_choice (get path (Some v)).
Proof.
  intros Sc I fuel id v v' H. unfold LoadDefaultValues in H. destruct (load Sc I fuel id (Some v)) as [[w|]|] eqn:E; [|discriminate|discriminate].
  injection H as <-.
  assert (Hu : forall fu k s s', load Sc I fu k s = Some s' -> union_choice s' = union_choice s).
  { intros fu k s s' HL. destruct (nth_error Sc k) as [d|] eqn:Ed.
    - destruct (load_step _ _ _ _ _ _ _ HL Ed) as [(t & _ & ->)|(fuel'' & ss & _ & _ & -> & _)]; reflexivity.
    - destruct fu; cbn [load] in HL; [discriminate|]. rewrite Ed in HL. discriminate. }
  split; [now apply (Hu _ _ _ _ E)|]. intros path f id' i Hr (Hm & id1 & args & d & Ht & _).
  destruct (load_reaches _ _ _ _ _ _ _ Hr _ _ _ E) as (fuel' & HL). rewrite load_field_mandatory, Ht in HL by assumption. now apply (Hu _ _ _ _ HL).
Qed.

Lemma load_again : forall Sc I fuel id s s', load Sc I fuel id s = Some s' -> load Sc I fuel id s' = Some s'.
Proof.
  intros Sc I. induction fuel as [|fuel IH]; intros id s s' H; [discriminate|]. destruct (nth_error Sc id) as [d|] eqn:Ed; [|cbn [load] in H; rewrite Ed in H; discriminate].
  destruct (load_step _ _ _ _ _ _ _ H Ed) as [(t & -> & ->)|(fuel' & ss & Hf & Hns & -> & _ & Hl & Hk)]; [assumption|]. injection Hf as <-.
  cbn [load]. rewrite Ed. assert (Hfix : load_fields (load Sc I fuel) (I id) 0 (fields_of d) ss = Some ss).
  { assert (Hgen : forall fs i pre ss0, ss = pre ++ ss0 -> i = length pre -> length ss0 = length fs ->
      (forall k f, nth_error fs k = Some f -> exists s0, load_field (load Sc I fuel) f (I id (i + k)%nat) s0 = Some (nth k ss0 None)) ->
      load_fields (load Sc I fuel) (I id) i fs ss = Some ss0).
    { induction fs as [|g fs IHf]; intros i pre ss0 Hss Hi Hlen Hall; destruct ss0 as [|s1 ss0]; try discriminate; [reflexivity|]. cbn [load_fields].
      assert (Hn : nth_slot i ss = s1) by (unfold nth_slot; subst ss i; rewrite app_nth2, Nat.sub_diag by lia; reflexivity). rewrite Hn.
      destruct (Hall 0%nat g eq_refl) as (s0 & H0). rewrite Nat.add_0_r in H0. cbn [nth] in H0.
      assert (H1 : load_field (load Sc I fuel) g (I id i) s1 = Some s1).
      { destruct (mandatory_dec g) as [Hm|[_ Hno]]; [|apply Hno]. rewrite load_field_mandatory in * by assumption.
        destruct (f_type g); [destruct (I id i); [assumption|reflexivity]|]. now apply IH with s0. }
      rewrite H1. rewrite (IHf (S i) (pre ++ [s1]) ss0); [reflexivity|subst ss; now rewrite <- app_assoc|rewrite app_length; cbn; lia|now injection Hlen|].
      intros k f Hkf. destruct (Hall (S k) f Hkf) as (s2 & H2). exists s2. rewrite Nat.add_succ_comm. exact H2. }
    apply (Hgen (fields_of d) 0%nat [] ss); try reflexivity; [assumption|]. intros k f Hkf. exists (get [k] s). now apply Hk. }
  destruct d; [now specialize (Hns t)| | |]; rewrite Hfix; reflexivity.
Qed.

Theorem defaults_again : forall Sc I fuel id v v', LoadDefaultValues Sc I fuel id v = Some v' -> LoadDefaultValues Sc I fuel id v' = Some v'.
Proof.
  intros Sc I fuel id v v' H. unfold LoadDefaultValues in *. destruct (load Sc I fuel id (Some v)) as [[w|]|] eqn:E; [|discriminate|discriminate].
  injection H as <-. now rewrite (load_again _ _ _ _ _ _ E).
Qed.

Lemma load_total : forall Sc I rank, ranked Sc rank -> forall fuel id s, (rank id < fuel)%nat -> nth_error Sc id <> None -> typed Sc id s -> load Sc I fuel id s <> None.
Proof.
  intros Sc I rank HR. induction fuel as [|fuel IH]; intros id s Hr Hid Ht; [lia|]. cbn [load]. destruct (nth_error Sc id) as [d|] eqn:Ed; [|congruence].
  assert (Hall : forall slots, (forall i g id1 args, nth_error (fields_of d) i = Some g -> mandatory g -> f_type g = TRef id1 args -> typed Sc id1 (nth i slots None)) ->
    load_fields (load Sc I fuel) (I id) 0 (fields_of d) slots <> None).
  { intros slots Hs. apply load_fields_some. intros k f Hf. cbn [Nat.add]. destruct (mandatory_dec f) as [Hm|[_ Hno]]; [|rewrite Hno; discriminate].
    rewrite load_field_mandatory by assumption. destruct (f_type f) as [t|id1 args] eqn:Et; [destruct (I id k); discriminate|].
    destruct (HR id d f id1 args Ed (nth_error_In _ _ Hf) Hm Et) as [Hlt Hne]. apply IH; [lia|assumption|]. now apply (Hs k f id1 args). }
  assert (Hzero : load_fields (load Sc I fuel) (I id) 0 (fields_of d) [] <> None) by (apply Hall; intros i g id1 args _ _ _; destruct i; constructor).
  destruct Ht as [id|id t v Hd|id d' tag slots Hd Hns Hs].
  - destruct d; [discriminate| | |]; destruct (load_fields _ _ 0 _ []); congruence.
  - rewrite Hd in Ed. injection Ed as <-. discriminate.
  - rewrite Hd in Ed. injection Ed as <-. specialize (Hall slots Hs). destruct d'; [now specialize (Hns t)| | |]; destruct (load_fields _ _ 0 _ slots); congruence.
Qed.

Theorem defaults_total : forall Sc I rank id v, ranked Sc rank -> nth_error Sc id <> None -> typed Sc id (Some v) ->
  exists v', LoadDefaultValues Sc I (S (rank id)) id v = Some v'.
Proof.
  intros Sc I rank id v HR Hid Ht. unfold LoadDefaultValues. pose proof (load_total Sc I rank HR (S (rank id)) id (Some v) ltac:(lia) Hid Ht) as H.
  destruct (load Sc I (S (rank id)) id (Some v)) as [[w|]|] eqn:E; [now exists w| |congruence].
  exfalso. destruct (nth_error Sc id) as [d|] eqn:Ed; [|congruence]. destruct (load_step _ _ _ _ _ _ _ E Ed) as [(t & _ & Hx)|(? & ? & _ & _ & Hx & _)]; discriminate.
Qed.

(** A larger bound gives the same answer. *)
Lemma load_more : forall Sc I fuel id s s', load Sc I fuel id s = Some s' -> load Sc I (S fuel) id s = Some s'.
Proof.
  intros Sc I. induction fuel as [|fuel IH]; intros id s s' H; [discriminate|].
  assert (Hf : forall J fs i slots ss, load_fields (load Sc I fuel) J i fs slots = Some ss -> load_fields (load Sc I (S fuel)) J i fs slots = Some ss).
  { intros J. induction fs as [|g fs IHf]; intros i slots ss E; cbn [load_fields] in *; [assumption|].
    destruct (load_field (load Sc I fuel) g (J i) (nth_slot i slots)) as [s1|] eqn:E1; [|discriminate].
    assert (E1' : load_field (load Sc I (S fuel)) g (J i) (nth_slot i slots) = Some s1).
    { destruct (mandatory_dec g) as [Hm|[_ Hno]]; [|now rewrite Hno in *]. rewrite load_field_mandatory in * by assumption. destruct (f_type g); [assumption|now apply IH]. }
    rewrite E1'. destruct (load_fields (load Sc I fuel) J (S i) fs slots) as [ss'|] eqn:E2; [|discriminate]. now rewrite (IHf _ _ _ E2). }
  remember (S fuel) as n. cbn [load]. subst n. cbn [load] in H. destruct (nth_error Sc id) as [d|]; [|discriminate].
  destruct d; try assumption; destruct s as [[]|]; try discriminate;
    match goal with H : match ?X with _ => _ end = _ |- _ => destruct X eqn:E; [|discriminate H]; rewrite (Hf _ _ _ _ _ E); assumption end.
Qed.
