(** Proofs about enums and bitmasks. *)

Require Import ZArith String Ascii List Bool Lia DecimalString.
Require DecimalZ DecimalFacts.
From Verif Require Import Bits BitsFacts Stream Spec Scalars FixedFacts Files FilesSpec FilesFacts EnumText EnumTextSpec.
Import ListNotations.
Open Scope Z_scope.

Lemma value_found : forall e n v, NoDup (map fst e) -> In (n, v) e -> value_of_name e n = Some v.
Proof.
  induction e as [|[m x] e IH]; intros n v Hn H; [destruct H|]. cbn. inversion Hn as [|? ? Hm He]; subst. destruct H as [H|H].
  - injection H as -> ->. destruct (list_eq_dec ascii_dec n n); [reflexivity|congruence].
  - destruct (list_eq_dec ascii_dec m n) as [->|]; [|now apply IH]. exfalso. apply Hm. apply (in_map fst) in H. exact H.
Qed.

Lemma name_found : forall e n v, NoDup (map snd e) -> In (n, v) e -> name_of_value e v = Some n.
Proof.
  induction e as [|[m x] e IH]; intros n v Hn H; [destruct H|]. cbn. inversion Hn as [|? ? Hm He]; subst. destruct H as [H|H].
  - injection H as -> ->. now rewrite Z.eqb_refl.
  - destruct (Z.eqb_spec x v) as [->|]; [|now apply IH]. exfalso. apply Hm. apply (in_map snd) in H. exact H.
Qed.

Lemma value_none : forall e s, value_of_name e s = None <-> ~ In s (map fst e).
Proof.
  induction e as [|[m x] e IH]; intro s; cbn; [tauto|]. destruct (list_eq_dec ascii_dec m s) as [->|H].
  - split; [discriminate|]. intro H. exfalso. apply H. now left.
  - rewrite IH. tauto.
Qed.

Lemma name_none : forall e v, name_of_value e v = None <-> ~ In v (map snd e).
Proof.
  induction e as [|[m x] e IH]; intro v; cbn; [tauto|]. destruct (Z.eqb_spec x v) as [->|H].
  - split; [discriminate|]. intro H. exfalso. apply H. now left.
  - rewrite IH. tauto.
Qed.

Lemma to_int_norm : forall z, Z.to_int z <> Decimal.Pos Decimal.Nil /\ Z.to_int z <> Decimal.Neg Decimal.Nil.
Proof.
  intro z. pose proof (DecimalZ.to_of (Z.to_int z)) as H. rewrite DecimalZ.of_to in H.
  split; intro Hc; rewrite Hc in H; discriminate.
Qed.

Lemma show_inj : forall a b, show a = show b -> a = b.
Proof.
  intros a b H. apply str_inj in H. apply (f_equal NilZero.int_of_string) in H.
  destruct (to_int_norm a), (to_int_norm b).
  rewrite !NilZero.isi in H by assumption. injection H as H. now apply DecimalZ.to_int_inj.
Qed.

Lemma item_text : forall e n v, NoDup (map fst e) -> NoDup (map snd e) -> In (n, v) e ->
  EnumString e n = Some v /\ ToString e v = n.
Proof.
  intros e n v Hn Hv H. unfold EnumString, ToString. rewrite (value_found _ _ _ Hn H), (name_found _ _ _ Hv H). now split.
Qed.

Lemma unknown_text : forall e v, proper e -> ~ In v (EnumValues e) ->
  ToString e v = str "unknown(" ++ show v ++ str ")" /\ ~ In (ToString e v) (EnumStrings e) /\
  EnumString e (ToString e v) = None /\
  forall w, ~ In w (EnumValues e) -> ToString e w = ToString e v -> w = v.
Proof.
  intros e v Hp Hv. unfold EnumValues in Hv. pose proof (proj2 (name_none e v) Hv) as E.
  assert (Hs : ToString e v = str "unknown(" ++ show v ++ str ")") by (unfold ToString; now rewrite E).
  assert (Hn : ~ In (ToString e v) (EnumStrings e)).
  { intro H. apply in_map_iff in H as ([m x] & Hm & Hin). cbn in Hm. apply (Hp m x Hin). rewrite Hm, Hs. cbn. tauto. }
  refine (conj Hs (conj Hn (conj _ _))).
  - now apply value_none.
  - intros w Hw H. apply name_none in Hw. unfold ToString in H. rewrite E, Hw in H. apply app_inv_head in H. apply app_inv_tail in H. now apply show_inj.
Qed.

Lemma sql_roundtrip : forall e v old, NoDup (map fst e) -> NoDup (map snd e) -> proper e ->
  (In v (EnumValues e) -> Scan e old (SrcString (SqlValue e v)) = Some v /\ Scan e old (SrcBytes (SqlValue e v)) = Some v) /\
  (~ In v (EnumValues e) -> Scan e old (SrcString (SqlValue e v)) = None /\ Scan e old (SrcBytes (SqlValue e v)) = None).
Proof.
  intros e v old Hn Hv Hp. split; intro H.
  - apply in_map_iff in H as ([n x] & Hx & Hin). cbn in Hx. subst x. cbn [Scan]. unfold SqlValue.
    destruct (item_text e n v Hn Hv Hin) as [H1 ->]. now split.
  - cbn [Scan]. unfold SqlValue. now destruct (unknown_text e v Hp H) as (_ & _ & -> & _).
Qed.

(** ** Bitmasks *)

Lemma bitmask_direct : forall n v, 1 <= n <= 64 -> 0 <= v < 2 ^ n ->
  roundtrips (BitmaskMarshal n n v) (BitmaskUnmarshal n) (bits_of (Z.to_nat n) v) v /\
  BitmaskBitSize n v = Z.of_nat (length (bits_of (Z.to_nat n) v)).
Proof.
  intros n v Hn Hv. unfold BitmaskMarshal, BitmaskUnmarshal, BitmaskBitSize. assert (Hu : u64 v = v).
  { unfold u64. apply Z.mod_small. split; [lia|]. apply Z.lt_le_trans with (2 ^ n); [lia|]. apply Z.pow_le_mono_r; lia. }
  rewrite Hu. split.
  - split; [apply WriteUnsignedBits_ok|apply ReadUnsignedBits_ok]; lia.
  - rewrite bits_of_length. lia.
Qed.

Lemma bitmask_subtype : forall n v, 1 <= n <= 64 -> 0 <= v < 2 ^ n ->
  (v = 0 -> encodes (BitmaskMarshal 0 n v) [] /\ BitmaskBitSize n v = n) /\
  (v <> 0 -> rejects (BitmaskMarshal 0 n v) ErrValueOutOfBitRange).
Proof.
  intros n v Hn Hv. unfold BitmaskMarshal, BitmaskBitSize. assert (Hu : u64 v = v).
  { unfold u64. apply Z.mod_small. split; [lia|]. apply Z.lt_le_trans with (2 ^ n); [lia|]. apply Z.pow_le_mono_r; lia. }
  rewrite Hu. split; intro H.
  - subst v. split; [|reflexivity]. exact (WriteUnsignedBits_ok 0 0 ltac:(lia) ltac:(cbn; lia)).
  - apply WriteUnsignedBits_rejects; [lia|]. cbn. lia.
Qed.
