(** Property C89: the packed size of generated types. *)

Require Import ZArith List Bool Lia ZifyBool ZifyNat.
From Verif Require Import Bits Stream Spec PosSpec Scalars Traits TraitSpec Delta SizeFacts Array Schema SchemaSpec SchemaSize SchemaExample
  PackedSize PackedSizeSpec PackedSizeFacts.
Import ListNotations.
Open Scope Z_scope.
Open Scope prog_scope.

(** ** C89 *)

(** Whatever context the user prepared: if MarshalZserioPacked succeeds, then
    ZserioBitSizePacked, at the position of the writer and with the same context,
    returns the number of bits that were written. *)
Theorem C89_exact : forall S fuel n id ps v c c' w w', valid S n true id ps v -> sizable S n id ps v ->
  prepared S fuel id c -> wfaults w = [] -> m_pmarshal (run S fuel) id ps v (c, w) = ((c', w'), Ok tt) ->
  snd (ZserioBitSizePacked S fuel id ps v (Z.of_nat (length (wbits w))) (Some c)) =
    Ok (Z.of_nat (length (wbits w')) - Z.of_nat (length (wbits w))).
Proof. exact packed_size_exact. Qed.
Print Assumptions C89_exact.

(** The same for any number of objects, one after the other, through one context. *)
Theorem C89_sequence : forall S fuel n id xs c c' w w',
  Forall (fun x => valid S n true id (fst x) (snd x)) xs -> Forall (fun x => sizable S n id (fst x) (snd x)) xs ->
  prepared S fuel id c -> wfaults w = [] -> write_packed S fuel id xs (c, w) = ((c', w'), Ok tt) ->
  snd (sizes_packed S fuel id xs (Z.of_nat (length (wbits w))) (Some c)) =
    Ok (Z.of_nat (length (wbits w')) - Z.of_nat (length (wbits w))).
Proof. exact packed_sizes_exact. Qed.
Print Assumptions C89_sequence.

Definition ex_points : list value :=
  [point (-1000) 10 None; point (-998) 12 (Some (VInt (-1))); point (-996) 14 None; point (-994) 16 (Some (VInt 1))].
Definition init_point (n : node) (v : value) : node := fst (m_init (run ex_schema 1) Point [] v n).
Definition ex_context : node :=
  fold_left init_point ex_points (fst (m_create (run ex_schema 1) Point (Node None []))).

Lemma new_prepared : forall S fuel id, snd (m_create (run S fuel) id (Node None [])) = Ok tt ->
  prepared S fuel id (fst (m_create (run S fuel) id (Node None []))).
Proof. intros S fuel id H. apply prepared_new. destruct (m_create _ id _). cbn in *. now rewrite H. Qed.
Lemma init_prepared : forall n v, snd (m_init (run ex_schema 1) Point [] v n) = Ok tt ->
  prepared ex_schema 1 Point n -> prepared ex_schema 1 Point (init_point n v).
Proof.
  intros n v H Hn. unfold init_point. apply (prepared_init _ _ _ n _ [] v Hn). destruct (m_init _ Point [] v n). cbn in *. now rewrite H.
Qed.
Lemma ex_prepared : prepared ex_schema 1 Point ex_context.
Proof.
  unfold ex_context, ex_points. cbn [fold_left].
  do 4 (apply init_prepared; [vm_compute; reflexivity|]). apply new_prepared. vm_compute. reflexivity.
Qed.

Lemma sizable_point : forall x y z, sizable ex_schema 1 Point [] (point x y z).
Proof.
  intros x y z. cbn [sizable nth_error ex_schema Point point]. intros [|[|[|i]]] f Hf; try (injection Hf as <-).
  - repeat split; try discriminate. intros v _. cbn. intros b e Hb _. injection Hb as <-. exact I.
  - repeat split; try discriminate. intros v _. cbn. intros b e Hb _. injection Hb as <-. exact I.
  - repeat split; try discriminate. intros v _. cbn. intros b e Hb _. injection Hb as <-. exact I.
  - destruct i; discriminate.
Qed.

(** 85 bits after the three bits that are there. *)
Example C89_applies : let xs := map (fun v => ([], v)) ex_points in let w := mkW [true; false; true] [] in
  Forall (fun x => valid ex_schema 1 true Point (fst x) (snd x)) xs /\
  Forall (fun x => sizable ex_schema 1 Point (fst x) (snd x)) xs /\
  prepared ex_schema 1 Point ex_context /\
  snd (write_packed ex_schema 1 Point xs (ex_context, w)) = Ok tt /\
  length (wbits (snd (fst (write_packed ex_schema 1 Point xs (ex_context, w))))) = 88%nat /\
  snd (sizes_packed ex_schema 1 Point xs 3 (Some ex_context)) = Ok 85.
Proof.
  cbn zeta. split; [|split; [|split; [exact ex_prepared|split; [|split]; vm_compute; reflexivity]]].
  - unfold ex_points. cbn [map]. repeat apply Forall_cons; try apply Forall_nil; cbn [fst snd]; (apply valid_point || apply valid_point_z); lia.
  - unfold ex_points. cbn [map]. repeat apply Forall_cons; try apply Forall_nil; apply sizable_point.
Qed.

(** A nonempty array of objects inside a packed object: the prediction panics,
    unless the objects are unions or have no fields ([needs_context]). *)
Theorem C89_arrays : forall S fuel E f len packed id args d es n pos,
  f_array f = Some (len, packed) -> f_type f = TRef id args -> nth_error S id = Some d -> needs_context d ->
  (len = None -> Z.of_nat (length es) < 2 ^ 27) -> es <> [] ->
  snd (psize_content (ZserioBitSizePacked S (Datatypes.S fuel)) E f (VArr es) pos n) = Panic.
Proof. exact object_array_panics. Qed.
Print Assumptions C89_arrays.

(** struct Line { Point points[]; } *)
Definition line_schema : schema := ex_schema ++ [DStruct [mkF (TRef Point no_args) (Some (None, false)) false None 0 false]].
Definition line_context : node := fst (m_create (run line_schema 2) 5%nat (Node None [])).
Example C89_arrays_applies :
  needs_context (DStruct [plain_field uint8_t]) /\
  snd (m_pmarshal (run line_schema 2) 5%nat [] (VRec 0 [Some (VArr ex_points)]) (line_context, mkW [] [])) = Ok tt /\
  snd (ZserioBitSizePacked line_schema 2 5%nat [] (VRec 0 [Some (VArr ex_points)]) 0 (Some line_context)) = Panic.
Proof. split; [discriminate|]. split; vm_compute; reflexivity. Qed.

(** An array of builtin elements inside a packed object: the elements are never
    counted.  If they need no conversion, the size is that of an empty array; if they
    do and there is one, the prediction panics. *)
Theorem C89_builtin_arrays : forall P E f len packed t es n pos T, f_array f = Some (len, packed) -> f_type f = TBasic t -> codec_of E t = Ok T ->
  (len = None -> Z.of_nat (length es) < 2 ^ 27) ->
  snd (psize_content P E f (VArr es) pos n) =
    match len with
    | Some l => match l E with
                | Some _ => if f_cast f && negb (Nat.eqb (length es) 0) then Panic else Ok 0
                | None => Panic
                end
    | None => if f_cast f && negb (Nat.eqb (length es) 0) then Panic else Ok 8
    end.
Proof. exact builtin_array_size. Qed.
Print Assumptions C89_builtin_arrays.

(** struct Samples { uint16 values[]; }: 8 bits are predicted, 33 written. *)
Definition samples_schema : schema := [DStruct [mkF uint16_t (Some (None, false)) false None 0 false]].
Definition samples_context : node := fst (m_create (run samples_schema 1) 0%nat (Node None [])).
Theorem C89_builtin_arrays_refuted : exists v, prepared samples_schema 1 0%nat samples_context /\
  (let written := m_pmarshal (run samples_schema 1) 0%nat [] v (samples_context, mkW [] []) in
   snd written = Ok tt /\ length (wbits (snd (fst written))) = 33%nat) /\
  snd (ZserioBitSizePacked samples_schema 1 0%nat [] v 0 (Some samples_context)) = Ok 8.
Proof.
  exists (VRec 0 [Some (VArr [VInt 7; VInt 8])]). split; [apply new_prepared; vm_compute; reflexivity|].
  split; [split|]; vm_compute; reflexivity.
Qed.
Print Assumptions C89_builtin_arrays_refuted.

(** A union writes nothing when packed, and that is its size. *)
Theorem C89_unions : forall S fuel id fs ps tag slots pos w c, nth_error S id = Some (DUnion fs) ->
  m_pmarshal (run S (Datatypes.S fuel)) id ps (VRec tag slots) (c, w) = ((c, w), Ok tt) /\
  forall context, ZserioBitSizePacked S (Datatypes.S fuel) id ps (VRec tag slots) pos context = (context, Ok 0).
Proof. exact union_packs_nothing. Qed.
Print Assumptions C89_unions.
Example C89_unions_applies : nth_error ex_schema Any = Some (DUnion [plain_field uint8_t; plain_field (TRef Message no_args)]).
Proof. reflexivity. Qed.

(** A field whose condition is false is counted, though it is not written. *)
Definition conditional_schema : schema :=
  [DStruct [plain_field uint8_t; mkF uint8_t None false (Some (fun E => match slot_int 0 E with Some k => Some (k =? 1) | None => None end)) 0 false]].
Definition conditional_context : node := fst (m_create (run conditional_schema 1) 0%nat (Node None [])).
Theorem C89_condition_refuted : exists v, prepared conditional_schema 1 0%nat conditional_context /\
  (let written := m_pmarshal (run conditional_schema 1) 0%nat [] v (conditional_context, mkW [] []) in
   snd written = Ok tt /\ length (wbits (snd (fst written))) = 9%nat) /\
  snd (ZserioBitSizePacked conditional_schema 1 0%nat [] v 0 (Some conditional_context)) = Ok 18.
Proof.
  exists (VRec 0 [Some (VInt 7); Some (VInt 0)]). split; [apply new_prepared; vm_compute; reflexivity|].
  split; [split|]; vm_compute; reflexivity.
Qed.
Print Assumptions C89_condition_refuted.

(** The padding of an optional field is counted before its marker, but written
    after it, and only if the field is present. *)
Definition aligned_schema : schema := [DStruct [mkF uint8_t None true None 8 false]].
Definition aligned_context : node := fst (m_create (run aligned_schema 1) 0%nat (Node None [])).
Theorem C89_alignment_refuted : exists v, prepared aligned_schema 1 0%nat aligned_context /\
  (let written := m_pmarshal (run aligned_schema 1) 0%nat [] v (aligned_context, mkW [] []) in
   snd written = Ok tt /\ length (wbits (snd (fst written))) = 17%nat) /\
  snd (ZserioBitSizePacked aligned_schema 1 0%nat [] v 0 (Some aligned_context)) = Ok 10.
Proof.
  exists (VRec 0 [Some (VInt 7)]). split; [apply new_prepared; vm_compute; reflexivity|].
  split; [split|]; vm_compute; reflexivity.
Qed.
Print Assumptions C89_alignment_refuted.

(** Asking for the size uses up the context: what is written afterwards with the
    same context lacks the descriptors. *)
Theorem C89_query_refuted : exists v c, prepared conditional_schema 1 0%nat c /\
  (let written := m_pmarshal (run conditional_schema 1) 0%nat [] v (c, mkW [] []) in
   snd written = Ok tt /\ length (wbits (snd (fst written))) = 18%nat) /\
  match ZserioBitSizePacked conditional_schema 1 0%nat [] v 0 (Some c) with
  | (Some c', Ok _) =>
      let written := m_pmarshal (run conditional_schema 1) 0%nat [] v (c', mkW [] []) in
      snd written = Ok tt /\ length (wbits (snd (fst written))) = 16%nat
  | _ => False
  end.
Proof.
  exists (VRec 0 [Some (VInt 1); Some (VInt 0)]), conditional_context. split; [apply new_prepared; vm_compute; reflexivity|].
  split; vm_compute; split; reflexivity.
Qed.
Print Assumptions C89_query_refuted.
