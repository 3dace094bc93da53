(** Proofs about the choice of codecs. *)

Require Import ZArith String Ascii List Bool Lia ZifyBool ZifyNat.
From Verif Require Import Bits BitsFacts Stream Scalars Float16 Traits Delta Schema AstExpr AstTypes AstTypesSpec AstTypesThms CodecChoice CodecChoiceSpec.
Import ListNotations.
Open Scope Z_scope.

(** What is generated for a field, an array and a packed field of the type is the code
    of the codec [b] over the Go type [g]. *)
Definition consistent (t : tref) (w : length_expr) (b : basic) (g : string) : Prop :=
  GoType t = Some g /\
  (forall E v, run_write (encode_call t w) E v = Some (write_basic E b v)) /\ write_type (encode_call t w) g = Some g /\
  (forall E, run_read (decode_call t w) g E = Some (read_basic E b)) /\ read_type (decode_call t w) g = Some g /\
  (forall E v, of_go_type g v -> run_size t w g E v = Some (size_basic E b v)) /\
  (exists i ty, instantiate t w = Some i /\ (forall E, run_instance i E = Some (codec_of E b)) /\
     instance_type i = Some ty /\ traits_type t = Some ty /\ assoc ty element_types = Some g) /\
  IsDeltaPackable t = packable b.

Lemma named_consistent : forall n b g, In (n, (b, g)) named_types -> consistent (mkT n 0 false) (fun _ => None) (Std b) g.
Proof.
  intros n b g H. unfold named_types in H.
  repeat (destruct H as [H|H]; [injection H as <- <- <-|]); try contradiction;
  (split; [reflexivity|]; split; [intros E v; destruct v; reflexivity|]; split; [reflexivity|]; split; [intro E; reflexivity|]; split; [reflexivity|];
   split; [intros E v Hv; destruct v as [| | |[[? ?]|]| |]; cbn [of_go_type In] in Hv; try reflexivity; exfalso; intuition discriminate|]; split; [|reflexivity];
   eexists _, _; split; [reflexivity|]; split; [intro E; reflexivity|]; split; [reflexivity|]; split; reflexivity).
Qed.

Lemma visit_bits : forall (signed : bool) ds, ds <> [] -> Forall (fun d => (d <= 9)%nat) ds -> number_of ds <= 255 ->
  let n := number_of ds in
  VisitTypeReference ((if signed then "int:" else "bit:") ++ text_of ds) =
  if (n =? 8) || (n =? 16) || (n =? 32) || (n =? 64)
  then mkT ((if signed then "int" else "uint") ++ goBits n) 0 false
  else mkT (if signed then "int" else "bit") n false.
Proof.
  intros signed ds Hne Hd Hle n.
  pose proof (field_reference signed ds Hne Hd) as H. cbv zeta in H. fold n in H, Hle.
  replace ((if signed then "int" else "bit") ++ ":" ++ text_of ds)%string with ((if signed then "int:" else "bit:") ++ text_of ds)%string in H by (now destruct signed).
  destruct (VisitTypeReference _) as [nm bt dy]. cbn [t_name t_bits t_dynamic] in H. destruct H as (Hb & Hdy & Hn & _). subst dy.
  destruct ((n =? 8) || (n =? 16) || (n =? 32) || (n =? 64)); subst nm bt; [reflexivity|]. f_equal. lia.
Qed.

Lemma bits_consistent : forall (signed : bool) n w g, 1 <= n <= 63 -> smallest n w -> In (w, g) (go_ints_of signed) ->
  consistent (mkT (if signed then "int" else "bit") n false) (fun _ => None) (Bits signed (gint signed w) (fun _ => Some n)) g.
Proof.
  intros signed n w g Hn Hw Hg.
  assert (Egb : goBits n = match w with 8 => "8" | 16 => "16" | 32 => "32" | _ => "64" end%string).
  { destruct Hw as (Hin & Hle & Hmin). unfold goBits.
    pose proof (Hmin 8) as H8. pose proof (Hmin 16) as H16. pose proof (Hmin 32) as H32. cbn [In] in *.
    destruct Hin as [<-|[<-|[<-|[<-|[]]]]].
    - replace (n =? 0) with false by lia. replace (n <=? 8) with true by lia. reflexivity.
    - replace (n =? 0) with false by lia. replace (n <=? 8) with false by lia. replace (n <=? 16) with true by lia. reflexivity.
    - replace (n =? 0) with false by lia. replace (n <=? 8) with false by lia. replace (n <=? 16) with false by lia.
      replace (n <=? 32) with true by lia. reflexivity.
    - replace (n =? 0) with false by lia. replace (n <=? 8) with false by lia. replace (n <=? 16) with false by lia.
      replace (n <=? 32) with false by lia. reflexivity. }
  assert (Eg : GoType (mkT (if signed then "int" else "bit") n false) = Some g /\ assoc g go_ints = Some (gint signed w) /\
    assoc ((if signed then "ztype.SignedBitFieldArrayTraits" else "ztype.BitFieldArrayTraits") ++ "[" ++ g ++ "]") element_types = Some g).
  { unfold GoType. destruct signed; cbn [t_name t_dynamic t_bits String.eqb Ascii.eqb Bool.eqb orb]; rewrite Egb;
    unfold go_ints_of in Hg; cbn [In] in Hg; destruct Hg as [Hg|[Hg|[Hg|[Hg|[]]]]]; injection Hg as <- <-; repeat split; reflexivity. }
  destruct Eg as (Eg & Ei & Ee). split; [exact Eg|].
  assert (Hpos : (0 <? n) = true) by lia.
  split; [|split; [|split; [|split; [|split; [|split]]]]].
  - intros E v. unfold encode_call. cbn [t_bits t_dynamic t_name]. rewrite Hpos. cbn [orb run_write bit_size t_dynamic t_bits].
    unfold write_basic. destruct signed; reflexivity.
  - unfold encode_call. cbn [t_bits t_dynamic t_name]. rewrite Hpos. reflexivity.
  - intros E. unfold decode_call. cbn [t_bits t_dynamic t_name]. rewrite Hpos. cbn [orb run_read bit_size t_dynamic t_bits].
    rewrite Ei. cbn [option_map]. unfold read_basic. destruct signed; reflexivity.
  - unfold decode_call. cbn [t_bits t_dynamic t_name]. rewrite Hpos. reflexivity.
  - intros E v Hv. unfold run_size. cbn [t_bits]. rewrite Hpos. cbn [size_basic]. unfold i64.
    f_equal. f_equal. symmetry. apply to_s_small; [lia|]. change (2^(64-1)) with 9223372036854775808. lia.
  - exists (IGet signed g (fun _ => Some n)), ((if signed then "ztype.SignedBitFieldArrayTraits" else "ztype.BitFieldArrayTraits") ++ "[" ++ g ++ "]")%string.
    split; [|split; [|split; [|split]]].
    + unfold instantiate. rewrite Eg. destruct signed; cbn [GoArrayTraits t_name t_bits]; cbn; rewrite Hpos; reflexivity.
    + intro E. cbn [run_instance codec_of]. rewrite Ei. cbn [option_map]. destruct signed; reflexivity.
    + reflexivity.
    + unfold traits_type. rewrite Eg. destruct signed; reflexivity.
    + exact Ee.
  - now destruct signed.
Qed.

Lemma angle_consistent : forall (signed : bool) w,
  consistent (mkT (if signed then "int" else "bit") 0 true) w (Bits signed (gint signed 64) w) (if signed then "int64" else "uint64").
Proof.
  intros signed w. destruct signed;
  (split; [reflexivity|]; split; [intros E v; reflexivity|]; split; [reflexivity|]; split; [intro E; reflexivity|]; split; [reflexivity|];
   split; [intros E v Hv; reflexivity|]; split; [|reflexivity];
   eexists _, _; split; [reflexivity|]; split; [intro E; reflexivity|]; split; [reflexivity|]; split; reflexivity).
Qed.

Lemma types_consistent : forall text angle b g, builtin_text text angle b g ->
  consistent (VisitTypeInstantiation text angle) (length_of angle) b g.
Proof.
  intros text angle b g H. destruct H as [n b g H|signed ds w g Hne Hd Hn Hs Hw Hg|signed ds g Hne Hd Hg|signed w].
  - pose proof (named_consistent n b g H) as C. unfold VisitTypeInstantiation.
    assert (E : VisitTypeReference n = mkT n 0 false).
    { clear C. unfold named_types in H. repeat (destruct H as [H|H]; [injection H as <- <- <-; reflexivity|]). contradiction. }
    now rewrite E.
  - unfold VisitTypeInstantiation. rewrite visit_bits by (lia || assumption).
    assert (number_of ds <> 8 /\ number_of ds <> 16 /\ number_of ds <> 32 /\ number_of ds <> 64).
    { cbn [In] in Hs. repeat split; intro X; apply Hs; rewrite X; tauto. }
    replace ((number_of ds =? 8) || (number_of ds =? 16) || (number_of ds =? 32) || (number_of ds =? 64)) with false by lia.
    apply bits_consistent; [lia|assumption|assumption].
  - unfold VisitTypeInstantiation.
    assert (Hn : number_of ds <= 255) by (unfold go_ints_of in Hg; destruct signed; cbn [In] in Hg; destruct Hg as [Hg|[Hg|[Hg|[Hg|[]]]]]; injection Hg as Hg _; lia).
    rewrite visit_bits by assumption. unfold go_ints_of in Hg.
    destruct signed; cbn [In] in Hg; destruct Hg as [Hg|[Hg|[Hg|[Hg|[]]]]]; injection Hg as <- <-; cbn [Z.eqb orb Pos.eqb goBits Z.leb Z.compare Pos.compare Pos.compare_cont append];
      (apply (named_consistent); cbn; tauto).
  - destruct signed; apply angle_consistent with (signed := true) || apply angle_consistent with (signed := false).
Qed.

Lemma packable_integer : forall text angle b g, builtin_text text angle b g -> (IsDeltaPackable (VisitTypeInstantiation text angle) = true <-> is_integer b).
Proof.
  intros text angle b g H. destruct (types_consistent _ _ _ _ H) as (_ & _ & _ & _ & _ & _ & _ & ->).
  destruct H as [n b g H|signed ds w g Hne Hd Hn Hs Hw Hg|signed ds g Hne Hd Hg|signed w].
  - unfold named_types in H. repeat (destruct H as [H|H]; [injection H as <- <- <-; cbn; split; intro X; (discriminate || reflexivity || tauto || (repeat (destruct X as [X|X]; [discriminate|]); contradiction))|]).
    contradiction.
  - cbn. tauto.
  - destruct signed; cbn; tauto.
  - cbn. tauto.
Qed.

(** ** Enums and bitmasks *)

(** The types whose size function gets the value without a conversion. *)
Definition unconverted : list string := ["varuint"; "varuint64"; "varsize"; "varint"; "varint64"]%string.

Lemma enum_consistent : forall text b g enum, builtin_text text None b g -> is_integer b -> ~ In enum ["uint64"; "int64"; "string"]%string ->
  let t := VisitTypeInstantiation text None in
  exists c, enum_write_call t = Call c /\
    (forall E v, run_write c E v = Some (write_basic E b v)) /\ write_type c g = Some g /\
    (forall E, run_read (scalar_read_call t) g E = Some (read_basic E b)) /\ read_type (scalar_read_call t) g = Some g /\
    (forall E z, run_size t (fun _ => None) enum E (VInt z) = if in_dec string_dec text unconverted then None else Some (size_basic E b (VInt z))).
Proof.
  intros text b g enum H Hi Henum t.
  assert (Hinst : VisitTypeInstantiation text None = VisitTypeReference text) by reflexivity.
  inversion H as [n b0 g0 Hn|signed ds w g0 Hne Hd Hn Hs Hw Hg|signed ds g0 Hne Hd Hg|]; subst.
  - unfold named_types in Hn.
    assert (Eu : String.eqb enum "uint64" = false) by (apply String.eqb_neq; intros ->; apply Henum; cbn; tauto).
    assert (Es : String.eqb enum "int64" = false) by (apply String.eqb_neq; intros ->; apply Henum; cbn; tauto).
    repeat (destruct Hn as [Hn|Hn]; [injection Hn as <- <- <-|]); try contradiction;
    try (exfalso; cbn in Hi; repeat (destruct Hi as [Hi|Hi]; [discriminate|]); contradiction);
    (eexists; split; [reflexivity|]; split; [intros E v; destruct v; reflexivity|]; split; [reflexivity|]; split; [intro E; reflexivity|];
     split; [reflexivity|]; intros E z; destruct (in_dec _ _ _) as [X|X]; [|try reflexivity];
     [try (exfalso; cbn in X; repeat (destruct X as [X|X]; [discriminate|]); contradiction)|..]).
    all: try (unfold run_size; cbn -[String.eqb]; cbn [String.eqb Ascii.eqb Bool.eqb t_name t_bits t_dynamic]; rewrite ?Eu, ?Es; reflexivity).
    all: try (exfalso; apply X; cbn; tauto).
  - assert (Et : VisitTypeReference ((if signed then "int:" else "bit:") ++ text_of ds) = mkT (if signed then "int" else "bit") (number_of ds) false).
    { rewrite visit_bits by (lia || assumption).
      assert (number_of ds <> 8 /\ number_of ds <> 16 /\ number_of ds <> 32 /\ number_of ds <> 64).
      { cbn [In] in Hs. repeat split; intro X; apply Hs; rewrite X; tauto. }
      replace ((number_of ds =? 8) || (number_of ds =? 16) || (number_of ds =? 32) || (number_of ds =? 64)) with false by lia. reflexivity. }
    pose proof (types_consistent _ _ _ _ H) as C. unfold VisitTypeInstantiation in C. rewrite Et in C.
    destruct C as (Eg & Hwr & Hwt & Hrd & Hrt & Hsz & _). subst t. unfold VisitTypeInstantiation. rewrite Et.
    change (length_of (@None Schema.expr)) with (length_of (@None length_expr)) in *.
    assert (Hpos : (0 <? number_of ds) = true) by lia. assert (Hz : (number_of ds =? 0) = false) by lia.
    assert (E1 : encode_call (mkT (if signed then "int" else "bit") (number_of ds) false) (length_of None) = BitsCall signed (fun _ => Some (number_of ds))).
    { unfold encode_call. cbn [t_bits]. rewrite Hpos. now destruct signed. }
    assert (E2 : decode_call (mkT (if signed then "int" else "bit") (number_of ds) false) (length_of None) = BitsCall signed (fun _ => Some (number_of ds))).
    { unfold decode_call. cbn [t_bits]. rewrite Hpos. now destruct signed. }
    assert (E3 : scalar_read_call (mkT (if signed then "int" else "bit") (number_of ds) false) = BitsCall signed (fun _ => Some (number_of ds))).
    { unfold scalar_read_call. cbn [t_bits]. rewrite Hz. now destruct signed. }
    rewrite E1 in Hwr, Hwt. rewrite E2 in Hrd, Hrt. rewrite E3.
    exists (BitsCall signed (fun _ => Some (number_of ds))).
    split; [unfold enum_write_call; cbn [t_bits]; rewrite Hz; now destruct signed|]. split; [exact Hwr|].
    split; [reflexivity|]. split; [exact Hrd|]. split; [reflexivity|].
    intros E z. destruct (in_dec _ _ _) as [X|X].
    + exfalso. unfold unconverted in X. cbn [In] in X. destruct signed; cbn [append] in X; intuition discriminate.
    + unfold run_size. cbn [t_bits]. rewrite Hpos. cbn [size_basic]. f_equal. f_equal. symmetry. apply to_s_small; [lia|].
      change (2^(64-1)) with 9223372036854775808. lia.
  - assert (Hn : number_of ds <= 255) by (unfold go_ints_of in Hg; destruct signed; cbn [In] in Hg; destruct Hg as [Hg|[Hg|[Hg|[Hg|[]]]]]; injection Hg as Hg _; lia).
    unfold t. rewrite Hinst, visit_bits by assumption. unfold go_ints_of in Hg.
    assert (Hx : ~ In ((if signed then "int:" else "bit:") ++ text_of ds)%string unconverted).
    { unfold unconverted. cbn [In]. destruct signed; cbn [append]; intuition discriminate. }
    destruct (in_dec string_dec ((if signed then "int:" else "bit:") ++ text_of ds)%string unconverted); [contradiction|].
    destruct signed; cbn [In] in Hg; destruct Hg as [Hg|[Hg|[Hg|[Hg|[]]]]]; injection Hg as <- <-;
      cbn [Z.eqb orb Pos.eqb goBits Z.leb Z.compare Pos.compare Pos.compare_cont append];
      (eexists; split; [reflexivity|]; split; [intros E v; destruct v; reflexivity|]; split; [reflexivity|]; split; [intro E; reflexivity|];
       split; [reflexivity|]; intros E z; reflexivity).
Qed.

(** A bitmask declared over a bit field writes like an enum; over a subtype of one it
    writes 0 bits. *)
Lemma bitmask_direct : forall t, bitmask_write_call t t = enum_write_call t.
Proof. reflexivity. Qed.

Lemma bitmask_subtype : forall (signed : bool) n name z E, 1 <= n <= 64 -> 0 <= z < 2^64 ->
  exists c, bitmask_write_call (subtype_ref name) (mkT (if signed then "int" else "bit") n false) = Call c /\
  run_write c E (VInt z) = Some (if signed || (0 <? z) then werr ErrValueOutOfBitRange else put []).
Proof.
  intros signed n name z E Hn Hz. exists (BitsCall signed (fun _ => Some 0)).
  split; [unfold bitmask_write_call; cbn [t_bits t_name subtype_ref]; replace (n =? 0) with false by lia; now destruct signed|].
  cbn [run_write]. f_equal. change (to_u 8 0) with 0. destruct signed; cbn [orb].
  - unfold WriteSignedBits. cbn [Z.ltb Z.compare].
    change (i64 (- shl1_i64 (to_u 8 (0 - 1)))) with 0. change (i64 (shl1_i64 (to_u 8 (0 - 1)) - 1)) with (-1).
    generalize (i64 z). intro y. destruct (Z.ltb_spec y 0), (Z.ltb_spec (-1) y); cbn [orb]; reflexivity || lia.
  - unfold WriteUnsignedBits. change (u64 (shl1_u64 0 - 1)) with 0. unfold u64, to_u. rewrite Z.mod_small by lia.
    destruct (Z.ltb_spec 0 z); [reflexivity|]. reflexivity.
Qed.
