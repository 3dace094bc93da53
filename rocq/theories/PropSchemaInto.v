(** C103. *)

Require Import ZArith List Bool Lia ZifyBool ZifyNat.
From Verif Require Import Bits Stream Scalars Traits Delta Array Schema SchemaSpec SchemaThms SchemaExample
  SchemaInto SchemaIntoSpec SchemaIntoFacts SchemaIntoWrite SchemaIntoHistory.
Import ListNotations.
Open Scope Z_scope.

(** ** C103 *)

(** Decoding into a new object is what the theorems about [UnmarshalZserio] are about,
    for every schema. *)
Theorem C103_new : forall S fuel id ps r,
  match UnmarshalZserio S fuel id ps r with
  | (r', Ok v) => UnmarshalInto S fuel id ps None r = (Some v, (r', Ok tt))
  | (r', o) => exists s', UnmarshalInto S fuel id ps None r = (s', (r', as_unit o))
  end.
Proof.
  intros S fuel id ps r. pose proof (new_object S fuel id ps r) as H. unfold result_same in H.
  destruct (UnmarshalZserio S fuel id ps r) as [r' [v|e| |]]; try exact H. destruct H as (s & -> & ->). reflexivity.
Qed.
Print Assumptions C103_new.

(** Whatever the object was used for before: the decoding succeeds or fails as with a
    new object and consumes the same bits; the object is then the decoded value written
    over the old one and writes the same bits. *)
Theorem C103_used : forall S id old calls fuel ps r, causal S -> steady S -> (forall n, shaped S n id old) ->
  let s := reused S id calls old in
  match UnmarshalZserio S fuel id ps r with
  | (r', Ok v) => exists v', UnmarshalInto S fuel id ps s r = (Some v', (r', Ok tt)) /\ overlaid S fuel id ps s v v' /\ same_output S id ps v v'
  | (r', o) => exists s', UnmarshalInto S fuel id ps s r = (s', (r', as_unit o))
  end.
Proof.
  intros S id old calls fuel ps r HC HS H. cbn zeta. pose proof (history S HC HS id calls old fuel ps r H) as U. unfold result_same in U.
  destruct (UnmarshalZserio S fuel id ps r) as [r' [v|e| |]]; try exact U. destruct U as (s' & E & v' & -> & Q). exists v'. split; [exact E | exact Q].
Qed.
Print Assumptions C103_used.

(** A failed decoding of a struct leaves the fields after the failing one as they were. *)
Theorem C103_failed : forall S fuel id ps fs s s' r r' o, nth_error S id = Some (DStruct fs) -> shaped S fuel id s ->
  UnmarshalInto S fuel id ps s r = (s', (r', o)) -> o <> Ok tt -> fuel <> 0%nat ->
  exists k, (k < length fs)%nat /\ forall j, (k < j)%nat -> old_slot s' j = old_slot s j.
Proof. exact failed. Qed.
Print Assumptions C103_failed.

(** The schema of [SchemaExample.v]. *)
Lemma plain_set M E t r r' s : read_field M E (plain_field t) r = (r', Ok s) -> exists v, s = Some v.
Proof.
  unfold read_field, included. cbn [plain_field f_clause f_align f_optional]. unfold rbind. cbn [ralign_opt].
  change (ralign_opt 0 r) with (r, Ok tt). cbn iota beta. destruct (read_content M E (plain_field t) r) as [r1 [v|e| |]]; intros H; try discriminate. injection H as _ <-. eauto.
Qed.
Lemma slot_int_keeps j E E' v : env_keeps E E' -> nth_slot j (e_slots E) = Some v -> slot_int j E = slot_int j E'.
Proof.
  intros [_ K] H. unfold slot_int. destruct (keeps_nth _ _ K j v H) as (w & -> & Kv). rewrite H. inversion Kv; subst; reflexivity.
Qed.
Lemma reached_int S fs i j t E E' : reached S (DStruct fs) i E -> env_keeps E E' -> (j < i)%nat -> nth_error fs j = Some (plain_field t) -> slot_int j E = slot_int j E'.
Proof.
  intros (fuel & slots & L & Q & R) K Hj Hf. destruct (R j _ Hj Hf) as (r & r' & D). destruct (plain_set _ _ _ _ _ _ D) as (v & Hv).
  apply (slot_int_keeps j E E' v K). rewrite Q, nth_before by exact Hj. exact Hv.
Qed.
Lemma ex_steady : steady ex_schema.
Proof.
  intros id d i f E E' Hd Hf R K. unfold ex_schema in Hd.
  do 5 (destruct id as [|id]; [injection Hd as <-;
    cbn [fields_of choice_fields flat_map snd app] in Hf;
    do 8 (destruct i as [|i]; [try discriminate Hf; injection Hf as <-; unfold agree, included; cbn [f_clause f_type f_array same_type plain_field optional_field uint8_t uint16_t int8_t];
      repeat split; intros;
      rewrite ?(reached_int _ _ _ 0 _ _ _ R K ltac:(lia) eq_refl); rewrite ?(reached_int _ _ _ 1 _ _ _ R K ltac:(lia) eq_refl); reflexivity|]);
    (destruct i; discriminate) |]).
  destruct id; discriminate.
Qed.

Definition leaf_bits : list bool := wbits (fst (MarshalZserio ex_schema 4 Message [] leaf (mkW [] []))).
Definition leaf_over_message : value := VRec 0 [
  Some (VInt 2); Some (VInt 7); None; Some (VInt 5); Some (VArr []);
  Some (VRec 0 [Some (VInt 200); Some (VStr [104; 105])]); Some (VArr [VInt 65535; VInt 0]); None].
Lemma message_shaped n : shaped ex_schema n Message (Some message).
Proof.
  destruct n as [|n]; [exact I|]. cbn [shaped]. intros d Hd. injection Hd as <-. eexists 0, _. split; [reflexivity|]. split; [reflexivity|]. split; [reflexivity|].
  intros i f id' args Hf F T. cbn [fields_of] in Hf.
  destruct i as [|[|[|[|[|[|[|[|i]]]]]]]]; [..|destruct i; discriminate]; injection Hf as <-; try discriminate F; try discriminate T; cbn in T; injection T as <- _; clear F.
  - destruct n as [|n]; [exact I|]. cbn [shaped nth_slot nth]. intros d Hd. injection Hd as <-. exact I.
  - destruct n as [|n]; [exact I|]. cbn [shaped nth_slot nth]. intros d Hd. injection Hd as <-. eexists 0, _. split; [reflexivity|]. split; [reflexivity|]. split; [reflexivity|].
    intros i f id' args' Hf F T. cbn in Hf. destruct i as [|[|i]]; [injection Hf as <-; discriminate|injection Hf as <-; discriminate|destruct i; discriminate].
  - destruct n as [|n]; [exact I|]. cbn [shaped]. change (nth_slot 7 _) with (Some leaf). cbn iota beta. intros d Hd. injection Hd as <-. eexists 0, _. split; [reflexivity|]. split; [reflexivity|]. split; [reflexivity|].
    intros i f id' args' Hf F T. cbn [fields_of] in Hf.
    destruct i as [|[|[|[|[|[|[|[|i]]]]]]]]; [..|destruct i; discriminate]; injection Hf as <-; try discriminate F; try discriminate T; cbn in T; injection T as <- _; clear F.
    + destruct n as [|n]; [exact I|]. cbn [shaped nth_slot nth]. intros d Hd. injection Hd as <-. exact I.
    + destruct n as [|n]; [exact I|]. cbn [shaped nth_slot nth]. intros d Hd. injection Hd as <-. eexists 0, _. split; [reflexivity|]. split; [reflexivity|]. split; [reflexivity|].
      intros i f id' args'' Hf F T. cbn in Hf. destruct i as [|[|i]]; [injection Hf as <-; discriminate|injection Hf as <-; discriminate|destruct i; discriminate].
    + apply shaped_none.
Qed.

(** A message that is decoded over another one, after a failed attempt. *)
Example C103_applies :
  causal ex_schema /\ steady ex_schema /\ (forall n, shaped ex_schema n Message (Some message)) /\
  let calls := [(4%nat, [], mkR 0 (firstn 20 leaf_bits)); (4%nat, [], mkR 0 leaf_bits)] in
  snd (snd (UnmarshalInto ex_schema 4 Message [] (Some message) (mkR 0 (firstn 20 leaf_bits)))) <> Ok tt /\
  snd (UnmarshalZserio ex_schema 4 Message [] (mkR 0 leaf_bits)) = Ok leaf /\
  reused ex_schema Message calls (Some message) = Some leaf_over_message.
Proof.
  split; [exact ex_causal|]. split; [exact ex_steady|]. split; [exact message_shaped|]. cbn zeta. split; [vm_compute; discriminate|]. split; vm_compute; reflexivity.
Qed.

(** A field that is not stored, and the other fields of a choice or union, keep what they
    had: the object is not the one that a new object would become. *)
Example C103_equal_refuted : exists S fuel id ps old r v v', causal S /\ steady S /\ (forall n, shaped S n id (Some old)) /\
  snd (UnmarshalZserio S fuel id ps r) = Ok v /\ fst (UnmarshalInto S fuel id ps (Some old) r) = Some v' /\ v <> v'.
Proof.
  exists ex_schema, 4%nat, Message, [], message, (mkR 0 leaf_bits), leaf, leaf_over_message. split; [exact ex_causal|]. split; [exact ex_steady|]. split; [exact message_shaped|].
  split; [vm_compute; reflexivity|]. split; [vm_compute; reflexivity | discriminate].
Qed.

(** After an error the object is neither the old one nor a decoded one. *)
Example C103_failed_refuted : exists S fuel id ps old r e s', causal S /\ steady S /\ (forall n, shaped S n id (Some old)) /\
  snd (UnmarshalZserio S fuel id ps r) = Err e /\ fst (UnmarshalInto S fuel id ps (Some old) r) = Some s' /\ s' <> old.
Proof.
  exists ex_schema, 4%nat, Message, [], message, (mkR 0 (firstn 20 leaf_bits)). eexists _, _. split; [exact ex_causal|]. split; [exact ex_steady|]. split; [exact message_shaped|].
  split; [vm_compute; reflexivity|]. split; [vm_compute; reflexivity | vm_compute; discriminate].
Qed.

(** <<struct Late { bool hasB; uint8 b if hasB; uint8 c if b > 5; };>> looks at a field
    that may not be stored.  It is 0 in a new object and anything in a used one: the same
    bits give another result, and another number of bits is consumed. *)
Definition late_schema : schema := [DStruct [
  plain_field (TBasic (Std BBool));
  mkF uint8_t None false (Some (fun E => match nth_slot 0 (e_slots E) with Some (VBool b) => Some b | _ => Some false end)) 0 false;
  mkF uint8_t None false (Some (fun E => match nth_slot 1 (e_slots E) with Some (VInt b) => Some (b >? 5) | _ => Some false end)) 0 false]].
Lemma late_causal : causal late_schema.
Proof.
  intros id d i f Hd Hf. destruct id as [|id]; [|destruct id; discriminate]. injection Hd as <-. cbn [fields_of] in Hf.
  do 3 (destruct i as [|i]; [injection Hf as <-; intros ps slots L; unfold agree, included; cbn [f_clause f_type f_array same_type plain_field uint8_t e_slots];
    repeat split; rewrite ?nth_slot_before by lia; reflexivity|]). destruct i; discriminate.
Qed.
Example C103_steady_refuted : exists S fuel id ps old r r1 r2 v v', causal S /\ (forall n, shaped S n id (Some old)) /\
  UnmarshalZserio S fuel id ps r = (r1, Ok v) /\ UnmarshalInto S fuel id ps (Some old) r = (Some v', (r2, Ok tt)) /\
  rpos r1 <> rpos r2 /\ MarshalZserio S fuel id ps v (mkW [] []) <> MarshalZserio S fuel id ps v' (mkW [] []).
Proof.
  exists late_schema, 1%nat, 0%nat, [], (VRec 0 [Some (VBool true); Some (VInt 9); Some (VInt 1)]), (mkR 0 (repeat false 9)).
  eexists _, _, _, _. split; [exact late_causal|]. split.
  - intros [|n]; [exact I|]. cbn [shaped]. intros d Hd. injection Hd as <-. eexists 0, _. split; [reflexivity|]. split; [reflexivity|]. split; [reflexivity|].
    intros i f id' args Hf F T. cbn [fields_of] in Hf. do 3 (destruct i as [|i]; [injection Hf as <-; discriminate|]). destruct i; discriminate.
  - split; [vm_compute; reflexivity|]. split; [vm_compute; reflexivity|]. split; vm_compute; discriminate.
Qed.
