(** Properties C20-C24, C26, C27 and C42: generated types. *)

Require Import ZArith List Bool Lia ZifyBool ZifyNat.
From Verif Require Import Bits Stream Spec PosSpec Scalars Traits TraitSpec Delta DeltaSpec DeltaFacts PosFacts Array ArraySpec
  Schema SchemaSpec SchemaFacts SchemaPlain SchemaObjects SchemaThms SchemaSize SchemaExample.
Import ListNotations.
Open Scope Z_scope.

(** ** C20 *)

(** Every value of every type of every schema whose expressions look backwards:
    the writer appends [enc], which depends on the position only; the reader,
    given the same parameters, returns the value and stops after [enc]. *)
Theorem C20_roundtrip : forall S n id ps v, causal S -> valid S n false id ps v ->
  exists enc, forall fuel, (n <= fuel)%nat ->
  roundtrips_at (MarshalZserio S fuel id ps v) (UnmarshalZserio S fuel id ps) enc v.
Proof. exact schema_roundtrip. Qed.
Print Assumptions C20_roundtrip.

(** A struct with enums, optional and conditional fields, bit fields of a computed
    width, alignment, a packed array of structs, a parameterised choice and an
    array of computed length, nested in itself and in a union. *)
Example C20_applies :
  causal ex_schema /\ valid ex_schema 4 false Any [] (VRec 2 [None; Some message]) /\
  let w := fst (MarshalZserio ex_schema 4 Any [] (VRec 2 [None; Some message]) (mkW [true] [])) in
  length (wbits w) = 297%nat /\
  UnmarshalZserio ex_schema 4 Any [] (mkR 1 (skipn 1 (wbits w) ++ [true])) = (mkR 297 [true], Ok (VRec 2 [None; Some message])).
Proof. split; [exact ex_causal|]. split; [apply valid_any|]. split; vm_compute; reflexivity. Qed.

(** Without [causal] the round trip fails: the width of the first field is the
    second field, which is still 0 when the first is read. *)
Definition forward_schema : schema := [DStruct [
  plain_field (TBasic (Bits false (GU 8) (fun E => match nth_slot 1 (e_slots E) with Some (VInt z) => Some z | _ => Some 0 end)));
  plain_field uint8_t]].
Example C20_forward_refuted :
  let v := VRec 0 [Some (VInt 5); Some (VInt 3)] in
  valid forward_schema 1 false 0 [] v /\
  exists bits w, MarshalZserio forward_schema 1 0 [] v (mkW [] []) = (mkW bits [], Ok tt) /\
  UnmarshalZserio forward_schema 1 0 [] (mkR 0 bits) = (w, Ok (VRec 0 [Some (VInt 0); Some (VInt 160)])).
Proof.
  cbn zeta. split.
  - eapply valid_struct; [reflexivity|reflexivity|]. intros i f Hi. valid_slots i f Hi.
    + split; [|discriminate]. exists (BBits (GU 8) 3), 5. repeat split; cbn; unfold go_width; lia.
    + split; [|discriminate]. exists (BBits (GU 8) 8), 3. repeat split; cbn; unfold go_width; lia.
  - exists ([true; false; true] ++ bits_of 8 3), (mkR 8 [false; true; true]). split; vm_compute; reflexivity.
Qed.

(** ** C21 *)

(** The bits of a struct are the bits of its fields, [struct_layout]: nothing for
    a field whose condition is false; otherwise padding, a marker bit if the field
    is optional and the encoding of the value if there is one.  The reader leaves
    the fields unset that have no value. *)
Theorem C21_layout : forall S n id fs ps slots, causal S -> nth_error S id = Some (DStruct fs) ->
  valid S (Datatypes.S n) false id ps (VRec 0 slots) ->
  exists contents, length contents = length fs /\
  (forall i f v c, nth_error fs i = Some f -> nth_slot i slots = Some v -> nth_error contents i = Some c ->
     forall fuel, (n <= fuel)%nat ->
     roundtrips_at (write_content (run S fuel) (mkE ps slots) f v) (read_content (run S fuel) (mkE ps (before i slots)) f) c v) /\
  forall fuel, (n < fuel)%nat ->
    roundtrips_at (MarshalZserio S fuel id ps (VRec 0 slots)) (UnmarshalZserio S fuel id ps)
      (struct_layout (mkE ps slots) 0 fs contents) (VRec 0 slots).
Proof. exact struct_bits. Qed.
Print Assumptions C21_layout.

(** Optional name absent, conditional flags not stored, next absent. *)
Example C21_applies :
  valid ex_schema 2 false Message [] leaf /\
  wbits (fst (MarshalZserio ex_schema 2 Message [] leaf (mkW [] []))) =
    bits_of 8 2 ++ bits_of 8 7 ++ [false] ++ repeat false 7 ++ bits_of 8 0 ++
    bits_of 8 2 ++ bits_of 8 104 ++ bits_of 8 105 ++ bits_of 16 65535 ++ bits_of 16 0 ++ [false].
Proof. split; [apply valid_leaf|]. vm_compute. reflexivity. Qed.

(** ** C22 *)

(** [branch_of sel cases default k f]: the first case that has a field and whose
    first condition is [sel], and the default otherwise. *)
Theorem C22_roundtrip : forall S n id selector cases default ps slots sel k f, causal S ->
  nth_error S id = Some (DChoice selector cases default) -> selector ps = Some sel -> branch_of sel cases default k f ->
  valid S (Datatypes.S n) false id ps (VRec 0 slots) ->
  exists c, (forall v, nth_slot k slots = Some v -> forall fuel, (n <= fuel)%nat ->
     roundtrips_at (write_content (run S fuel) (mkE ps slots) f v) (read_content (run S fuel) (mkE ps (before k slots)) f) c v) /\
  forall fuel, (n < fuel)%nat ->
    roundtrips_at (MarshalZserio S fuel id ps (VRec 0 slots)) (UnmarshalZserio S fuel id ps)
      (field_layout (mkE ps slots) f (nth_slot k slots) c) (VRec 0 slots).
Proof. exact choice_bits. Qed.
Print Assumptions C22_roundtrip.

(** No branch: nothing is written or read. *)
Theorem C22_no_branch : forall S id selector cases default ps sel fuel tag slots,
  nth_error S id = Some (DChoice selector cases default) -> selector ps = Some sel ->
  (forall k f, ~ branch_of sel cases default k f) ->
  encodes (MarshalZserio S (Datatypes.S fuel) id ps (VRec tag slots)) [] /\
  decodes (UnmarshalZserio S (Datatypes.S fuel) id ps) [] (VRec 0 (repeat None (length (choice_fields cases default)))).
Proof. exact choice_empty. Qed.
Print Assumptions C22_no_branch.

(** A selector value that is no first condition goes to the default, or nowhere,
    even if it is listed further on in a group of case labels. *)
Theorem C22_first_condition : forall sel cases f,
  (forall conds g, In (conds, Some g) cases -> hd_error conds <> Some sel) ->
  branch_of sel cases (Some f) (length (filter with_field cases)) f /\
  forall k g, ~ branch_of sel cases None k g.
Proof. exact choice_default. Qed.
Print Assumptions C22_first_condition.

(** In [Payload] the selector 1 selects the uint8, but 2, in the same group of
    labels, selects the default. *)
Example C22_applies :
  let cases := [([1; 2], Some (plain_field uint8_t)); ([3], None)] in let text := plain_field (TBasic (Std BString)) in
  branch_of 1 cases (Some text) 0 (plain_field uint8_t) /\ branch_of 2 cases (Some text) 1 text /\
  branch_of 3 cases (Some text) 1 text /\ (forall k f, ~ branch_of 3 cases None k f) /\
  wbits (fst (MarshalZserio ex_schema 1 Payload [VInt 1] (VRec 0 [Some (VInt 200); None]) (mkW [] []))) = bits_of 8 200 /\
  wbits (fst (MarshalZserio ex_schema 1 Payload [VInt 2] (VRec 0 [None; Some (VStr [65])]) (mkW [] []))) = bits_of 8 1 ++ bits_of 8 65.
Proof.
  cbn zeta. split; [now apply branch_select|]. split; [now apply branch_select|]. split; [now apply branch_select|]. split.
  - intros k f H. apply branch_select in H. discriminate.
  - split; vm_compute; reflexivity.
Qed.

(** ** C23 *)

Theorem C23_layout : forall S n id fs ps tag slots f, causal S -> nth_error S id = Some (DUnion fs) ->
  1 <= tag <= MaxVarsize -> nth_error fs (Z.to_nat (tag - 1)) = Some f ->
  valid S (Datatypes.S n) false id ps (VRec tag slots) ->
  exists c, (forall v, nth_slot (Z.to_nat (tag - 1)) slots = Some v -> forall fuel, (n <= fuel)%nat ->
     roundtrips_at (write_content (run S fuel) (mkE ps slots) f v)
       (read_content (run S fuel) (mkE ps (before (Z.to_nat (tag - 1)) slots)) f) c v) /\
  forall fuel, (n < fuel)%nat ->
    roundtrips_at (MarshalZserio S fuel id ps (VRec tag slots)) (UnmarshalZserio S fuel id ps)
      (papp (pfix (output (WriteVarsize tag))) (field_layout (mkE ps slots) f (nth_slot (Z.to_nat (tag - 1)) slots) c))
      (VRec tag slots).
Proof. exact union_bits. Qed.
Print Assumptions C23_layout.

(** Tags without a field, all objects: the tag is the encoding, and it is accepted. *)
Theorem C23_unknown_tag : forall S id fs ps tag slots fuel, nth_error S id = Some (DUnion fs) ->
  0 <= tag <= MaxVarsize -> (tag = 0 \/ Z.of_nat (length fs) < tag) ->
  encodes (MarshalZserio S (Datatypes.S fuel) id ps (VRec tag slots)) (output (WriteVarsize tag)) /\
  decodes (UnmarshalZserio S (Datatypes.S fuel) id ps) (output (WriteVarsize tag)) (VRec tag (repeat None (length fs))).
Proof. exact union_unknown_tag. Qed.
Print Assumptions C23_unknown_tag.

Theorem C23_large_tag : forall S id fs ps tag slots fuel, nth_error S id = Some (DUnion fs) ->
  MaxVarsize < tag < 2 ^ 64 -> rejects (MarshalZserio S (Datatypes.S fuel) id ps (VRec tag slots)) ErrOutOfBounds.
Proof. exact union_large_tag. Qed.
Print Assumptions C23_large_tag.

Example C23_applies :
  valid ex_schema 4 false Any [] (VRec 2 [None; Some message]) /\
  wbits (fst (MarshalZserio ex_schema 4 Any [] (VRec 1 [Some (VInt 9); None]) (mkW [] []))) = bits_of 8 1 ++ bits_of 8 9 /\
  wbits (fst (MarshalZserio ex_schema 4 Any [] (VRec 3 [Some (VInt 9); None]) (mkW [] []))) = bits_of 8 3 /\
  snd (UnmarshalZserio ex_schema 4 Any [] (mkR 0 (bits_of 8 3))) = Ok (VRec 3 [None; None]).
Proof. split; [apply valid_any|]. repeat split; vm_compute; reflexivity. Qed.

(** ** C24 *)

(** [measurable]: no extern or bytes fields, bit fields of less than 256 bits, and
    no arrays other than unpacked arrays of objects whose length has the right
    size (C49). *)
Theorem C24_exact : forall S n id ps v, causal S -> valid S n false id ps v -> measurable S n id ps v ->
  forall fuel w, (n <= fuel)%nat -> wfaults w = [] ->
  exists bits, MarshalZserio S fuel id ps v w = (mkW (wbits w ++ bits) [], Ok tt) /\
    ZserioBitSize S fuel id ps v (Z.of_nat (length (wbits w))) = Ok (Z.of_nat (length bits)).
Proof. exact size_exact. Qed.
Print Assumptions C24_exact.

(** The elements of arrays of builtin types are not counted at all. *)
Theorem C24_builtin_arrays : forall M E f v t len es pos T cfg, f_array f = Some (len, false) -> f_type f = TBasic t ->
  f_cast f = false -> codec_of E t = Ok T -> array_config E len false = Some cfg -> v = VArr es ->
  size_content M E f v pos = Ok (if a_auto cfg then 8 else 0).
Proof. exact size_array_ignored. Qed.
Print Assumptions C24_builtin_arrays.

(** The size of an extern or bytes value is always wrong. *)
Theorem C24_blobs : forall b e, b = BExtern \/ b = BBytes -> in_range b e ->
  std_size b e <> Ok (Z.of_nat (length (output (std_write b e)))).
Proof. exact size_blob_wrong. Qed.
Print Assumptions C24_blobs.

Definition line_schema : schema := ex_schema ++ [DStruct [
  mkF (TBasic (Std BString)) None true None 16 false; mkF (TRef Point no_args) (Some (None, false)) false None 0 false]].
Definition line : value := VRec 0 [Some (VStr [1; 2; 3]); Some (VArr [point 5 6 None; point 70 80 (Some (VInt 1))])].
Example C24_applies :
  measurable line_schema 2 5 [] line /\
  snd (MarshalZserio line_schema 2 5 [] line (mkW [true] [])) = Ok tt /\
  length (wbits (fst (MarshalZserio line_schema 2 5 [] line (mkW [true] [])))) = 123%nat /\
  ZserioBitSize line_schema 2 5 [] line 1 = Ok 122.
Proof.
  split; [|repeat split; vm_compute; reflexivity].
  cbn [measurable nth_error line_schema ex_schema app]. intros [|[|i]] f x Hf Hs.
  - injection Hf as <-. exact I.
  - injection Hf as <-. injection Hs as <-. cbn [measurable_content f_array f_type]. split; [reflexivity|].
    intros es He. injection He as <-. split; [intros _ _; cbn; lia|].
    intros j e ps Hj Ha. assert (He : exists x y z, e = point x y z).
    { destruct j as [|[|j]]; [injection Hj as <-|injection Hj as <-|destruct j; discriminate]; unfold point; eauto. }
    destruct He as (x & y & z & ->). unfold point. cbn [nth_error Point]. intros [|[|[|k]]] g u Hg Hu;
      [injection Hg as <-; exact I|injection Hg as <-; exact I|injection Hg as <-; exact I|destruct k; discriminate].
  - destruct i; discriminate.
Qed.
Example C24_refuted :
  ZserioBitSize ex_schema 3 Message [] message 0 = Ok 321 /\
  length (wbits (fst (MarshalZserio ex_schema 3 Message [] message (mkW [] [])))) = 289%nat.
Proof. split; vm_compute; reflexivity. Qed.

(** ** C26 *)

(** Packed arrays of valid objects (for which [valid _ _ true] excludes unions and
    non-integer arrays, and [finite] types that contain themselves). *)
Theorem C26_roundtrip : forall S n id E args len cfg es, causal S -> finite S n id ->
  array_config E len true = Some cfg -> holds cfg (length es) ->
  (forall i e, nth_error es i = Some e -> exists ps, args E i = Some ps /\ valid S n true id ps e) ->
  exists encs, length encs = length es /\ forall fuel, (n <= fuel)%nat ->
  roundtrips_at (write_array (object_ops (run S fuel) E id args) cfg es)
    (read_array (object_ops (run S fuel) E id args) cfg) (array_bits cfg encs) es.
Proof. exact packed_objects. Qed.
Print Assumptions C26_roundtrip.

(** Types that contain themselves, even in an optional field, cannot be packed. *)
Theorem C26_recursive : forall S id E args cfg, (forall n, ~ finite S n id) -> a_packed cfg = true -> forall fuel,
  (forall es w w', es <> [] -> write_array (object_ops (run S fuel) E id args) cfg es w <> (w', Ok tt)) /\
  (forall r r' es, es <> [] -> read_array (object_ops (run S fuel) E id args) cfg r <> (r', Ok es)).
Proof. exact packed_recursive. Qed.
Print Assumptions C26_recursive.

Example C26_applies :
  let es := [point (-1000) 10 None; point (-998) 12 (Some (VInt (-1))); point (-996) 14 None; point (-994) 16 (Some (VInt 1))] in
  let cfg := mkA true true 0 false false in let K := object_ops (run ex_schema 1) (mkE [] []) Point no_args in
  finite ex_schema 1 Point /\ (forall i e, nth_error es i = Some e -> valid ex_schema 1 true Point [] e) /\
  length (output (write_array K cfg es)) = 93%nat /\
  snd (read_array K cfg (mkR 0 (output (write_array K cfg es)))) = Ok es.
Proof.
  cbn zeta. split; [apply finite_point|]. split.
  - intros i e Hi. do 4 (destruct i as [|i]; [injection Hi as <-; (apply valid_point || apply valid_point_z); lia|]). destruct i; discriminate.
  - split; vm_compute; reflexivity.
Qed.
Example C26_recursive_applies : forall n, ~ finite ex_schema n Message.
Proof.
  induction n as [|n IH]; [intros []|]. cbn [finite]. intros (d & Hd & H). injection Hd as <-. apply IH.
  exact (H (optional_field (TRef Message no_args)) ltac:(cbn; tauto) eq_refl).
Qed.

(** ** C27 *)

(** Packed arrays of unions, whatever their tags and fields: only the length is
    written; every element is read as the undefined choice. *)
Theorem C27_arrays : forall S n id fs E args cfg es fuel, causal S -> nth_error S id = Some (DUnion fs) ->
  finite S n id -> (n <= Datatypes.S fuel)%nat -> a_packed cfg = true -> a_check cfg = false -> holds cfg (length es) ->
  (forall i, (i < length es)%nat -> args E i <> None) -> Forall (fun v => exists tag slots, v = VRec tag slots) es ->
  roundtrips_at (write_array (object_ops (run S (Datatypes.S fuel)) E id args) cfg es)
    (read_array (object_ops (run S (Datatypes.S fuel)) E id args) cfg)
    (pfix (length_bits cfg (length es))) (map (fun _ => VRec 0 (repeat None (length fs))) es).
Proof. exact packed_union_array. Qed.
Print Assumptions C27_arrays.

(** A union field of a packed object: no bits. *)
Theorem C27_fields : forall S id fs args E E' f ps fuel tag slots nw nr, nth_error S id = Some (DUnion fs) ->
  f_type f = TRef id args -> f_array f = None -> args E 0%nat = Some ps -> args E' 0%nat = Some ps ->
  pencodes (pwrite_content (run S (Datatypes.S fuel)) E f (VRec tag slots)) nw nw pnil /\
  pdecodes (pread_content (run S (Datatypes.S fuel)) E' f) nr nr pnil (VRec 0 (repeat None (length fs))).
Proof. exact packed_union_field. Qed.
Print Assumptions C27_fields.

(** A packed array of structs of a uint8 and a union. *)
Definition pair_schema : schema := [DUnion [plain_field uint8_t; plain_field (TBasic (Std BString))];
  DStruct [plain_field uint8_t; plain_field (TRef 0 no_args)]].
Example C27_applies :
  let cfg := mkA true true 0 false false in let K := object_ops (run pair_schema 2) (mkE [] []) 1 no_args in
  let es := [VRec 0 [Some (VInt 5); Some (VRec 1 [Some (VInt 7); None])]; VRec 0 [Some (VInt 6); Some (VRec 2 [None; Some (VStr [65])])]] in
  snd (write_array K cfg es (mkW [] [])) = Ok tt /\
  snd (read_array K cfg (mkR 0 (output (write_array K cfg es)))) =
    Ok [VRec 0 [Some (VInt 5); Some (VRec 0 [None; None])]; VRec 0 [Some (VInt 6); Some (VRec 0 [None; None])]].
Proof. cbn zeta. split; vm_compute; reflexivity. Qed.

(** ** C42 *)

(** A slice of another length than declared: the writer has written the fields
    before it and the padding and marker of this field, but none of its elements. *)
Theorem C42_writer : forall S n id fs ps slots k f l packed m es fuel w, causal S ->
  nth_error S id = Some (DStruct fs) -> length slots = length fs ->
  nth_error fs k = Some f -> f_array f = Some (Some l, packed) -> nth_slot k slots = Some (VArr es) ->
  (forall i g, (i < k)%nat -> nth_error fs i = Some g -> valid_field (valid S n) (finite S n) false (mkE ps slots) g (nth_slot i slots)) ->
  (f_align f < 250)%nat -> included (mkE ps slots) f = Some true ->
  l (mkE ps slots) = Some m -> i64 m <> Z.of_nat (length es) ->
  match f_type f with
  | TBasic t => exists T, codec_of (mkE ps slots) t = Ok T
  | TRef _ args => arguments_ok (mkE ps slots) args (length es) = true
  end ->
  (n < fuel)%nat -> wfaults w = [] ->
  exists contents, length contents = k /\
    (forall i g v c, nth_error fs i = Some g -> nth_slot i slots = Some v -> nth_error contents i = Some c ->
       encodes_at (write_content (run S (pred fuel)) (mkE ps slots) g v) c) /\
    MarshalZserio S fuel id ps (VRec 0 slots) w =
      (mkW (wbits w ++ papp (struct_layout (mkE ps slots) 0 (firstn k fs) contents)
                            (field_layout (mkE ps slots) f (nth_slot k slots) pnil) (length (wbits w))) [],
       Err ErrArraySize).
Proof. exact fixed_length_checked. Qed.
Print Assumptions C42_writer.

(** Whatever the input: if the reader succeeds, a stored array has the declared length. *)
Theorem C42_reader : forall S id fs ps fuel r r' v k f l packed, causal S ->
  nth_error S id = Some (DStruct fs) -> nth_error fs k = Some f -> f_array f = Some (Some l, packed) ->
  UnmarshalZserio S fuel id ps r = (r', Ok v) ->
  exists slots, v = VRec 0 slots /\ length slots = length fs /\
    forall x, nth_slot k slots = Some x -> exists es m, x = VArr es /\ l (mkE ps slots) = Some m /\ Z.of_nat (length es) = i64 m.
Proof. exact fixed_length_read. Qed.
Print Assumptions C42_reader.

Definition with_data (data : list value) : value := VRec 0 [
  Some (VInt 2); Some (VInt 7); None; None; Some (VArr []);
  Some (VRec 0 [None; Some (VStr [104; 105])]); Some (VArr data); None].
Example C42_applies :
  with_data [VInt 65535; VInt 0] = leaf /\ 
  snd (MarshalZserio ex_schema 2 Message [] leaf (mkW [] [])) = Ok tt /\
  MarshalZserio ex_schema 2 Message [] (with_data [VInt 65535; VInt 0; VInt 1]) (mkW [] []) =
    (mkW (firstn 56 (wbits (fst (MarshalZserio ex_schema 2 Message [] leaf (mkW [] []))))) [], Err ErrArraySize).
Proof. repeat split; vm_compute; reflexivity. Qed.
