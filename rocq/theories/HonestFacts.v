(** Writers that propagate every failure. *)

Require Import ZArith List Bool Lia ZifyBool ZifyNat.
From Verif Require Import Bits BitsFacts Stream Spec HonestSpec StreamFacts Scalars Float16 ScalarTable ScalarFacts ScalarThms Traits.
Import ListNotations.
Open Scope Z_scope.

Lemma honest_ret : forall {A} (a : A), honest (wret a).
Proof. intros A a w w' b H. unfold wret in *. injection H as <- <-. reflexivity. Qed.
Lemma honest_err : forall {A} e, honest (@werr A e).
Proof. intros A e w w' b H. discriminate. Qed.
Lemma honest_panic : forall {A}, honest (@wpanic A).
Proof. intros A w w' b H. discriminate. Qed.
Lemma honest_put : forall bs, honest (put bs).
Proof.
  intros bs [wb wf] w' a H. unfold put in *. cbn [wbits wfaults] in *.
  destruct wf as [|[] wf]; try discriminate; injection H as <- <-; reflexivity.
Qed.
Lemma honest_bind : forall {A B} (m : writer A) (f : A -> writer B),
  honest m -> (forall a, honest (f a)) -> honest (wbind m f).
Proof.
  intros A B m f Hm Hf w w' b H. unfold wbind in *.
  destruct (m w) as [w1 [a| | |]] eqn:E; try discriminate. rewrite (Hm _ _ _ E). exact (Hf a w1 w' b H).
Qed.
Lemma honest_if : forall {A} (b : bool) (m1 m2 : writer A), honest m1 -> honest m2 -> honest (if b then m1 else m2).
Proof. now intros A [] m1 m2. Qed.

Lemma honest_align : forall b, honest (walign b).
Proof.
  intros b w w' a H. unfold walign in *. cbn [wbits].
  destruct (b =? 0)%nat; [discriminate|]. destruct (_ =? 0)%nat.
  - injection H as <- <-. reflexivity.
  - set (d := discard _ _) in *. unfold wbind in *. unfold write_bits in *.
    destruct (put (bits_of d 0) w) as [w1 [[]| | |]] eqn:E; try discriminate.
    rewrite (honest_put _ _ _ _ E). injection H as <- <-. reflexivity.
Qed.

Lemma write_loop_error : forall byte k i e w, (forall u, e <> Ok u) -> write_loop byte k i e w = (w, e).
Proof.
  intros byte. induction k as [|k IH]; intros i e w He; [reflexivity|]. cbn.
  destruct e as [[]| | |]; try (now apply IH). now specialize (He tt).
Qed.

Lemma honest_write_loop : forall byte k i, honest (write_loop byte k i (Ok tt)).
Proof.
  intros byte. induction k as [|k IH]; intros i w w' a H.
  - cbn in *. injection H as <- <-. reflexivity.
  - cbn [write_loop] in *. unfold write_byte in *. destruct (put (bits_of 8 (byte i)) w) as [w1 e1] eqn:E.
    destruct e1 as [[]| | |]; try (rewrite write_loop_error in H by discriminate; discriminate).
    rewrite (honest_put _ _ _ _ E). now apply IH.
Qed.

Ltac honest :=
  repeat match goal with
  | |- honest (if _ then _ else _) => apply honest_if
  | |- honest (wbind _ _) => apply honest_bind; intros
  | |- honest (put _) => apply honest_put
  | |- honest (wret _) => apply honest_ret
  | |- honest (werr _) => apply honest_err
  | |- honest wpanic => apply honest_panic
  | |- honest (write_loop _ _ _ _) => apply honest_write_loop
  | |- honest (let _ := _ in _) => cbv zeta
  | |- honest (match ?x with _ => _ end) => destruct x
  | |- honest (write_bits _ _) => apply honest_put
  | |- honest (write_bool _) => apply honest_put
  | |- honest (write_byte _) => apply honest_put
  | |- honest (write_bytes _) => apply honest_put
  end.

Lemma honest_WriteUnsignedBits : forall v n, honest (WriteUnsignedBits v n).
Proof. intros. unfold WriteUnsignedBits. honest. Qed.
Lemma honest_WriteSignedBits : forall v n, honest (WriteSignedBits v n).
Proof. intros. unfold WriteSignedBits. honest. Qed.
Lemma honest_writeVarUint : forall v m, honest (writeVarUint v m).
Proof. intros. unfold writeVarUint. honest. Qed.
Lemma honest_writeVarInt : forall v m, honest (writeVarInt v m).
Proof. intros. unfold writeVarInt. honest. Qed.
Lemma honest_WriteVarsize : forall v, honest (WriteVarsize v).
Proof. intros. unfold WriteVarsize. honest. apply honest_writeVarUint. Qed.
Lemma honest_WriteVarint : forall v, honest (WriteVarint v).
Proof. intros. unfold WriteVarint. honest. apply honest_writeVarInt. Qed.
Lemma honest_WriteString : forall v, honest (WriteString v).
Proof. intros. unfold WriteString. honest. apply honest_WriteVarsize. Qed.
Lemma honest_WriteBytes : forall n v, honest (WriteBytes n v).
Proof. intros. unfold WriteBytes. honest. apply honest_WriteVarsize. Qed.
Lemma honest_WriteExtern : forall n v, honest (WriteExtern n v).
Proof. intros. unfold WriteExtern. honest. apply honest_WriteVarsize. Qed.
Lemma honest_WriteFloat16 : forall v, honest (WriteFloat16 v).
Proof. intros. unfold WriteFloat16. honest. Qed.

#[export] Hint Resolve honest_WriteUnsignedBits honest_WriteSignedBits honest_writeVarUint honest_writeVarInt
  honest_WriteVarsize honest_WriteVarint honest_WriteString honest_WriteBytes honest_WriteExtern honest_WriteFloat16
  honest_put : honest.

Lemma scalar_honest : forall A w r P, scalar_type A w r P -> forall v, honest (w v).
Proof.
  intros A w r P H v. destruct H;
    unfold WriteUint8, WriteUint16, WriteUint32, WriteUint64, WriteInt8, WriteInt16, WriteInt32, WriteInt64,
      WriteVaruint16, WriteVaruint32, WriteVaruint64, WriteVaruint, WriteVarint16, WriteVarint32, WriteVarint64;
    auto with honest; try apply honest_put.
Qed.

Lemma trait_honest : forall b v, honest (t_write (traits_of b) v).
Proof.
  intros b v. destruct b; cbn [traits_of t_write elt] in *;
    try (cbn; unfold WriteVaruint16, WriteVaruint32, WriteVaruint64, WriteVaruint, WriteVarint16, WriteVarint32,
    WriteVarint64; auto with honest; fail); try apply honest_put.
  all: cbn; destruct v as [[n buf]|]; auto with honest; apply honest_panic.
Qed.

(** In the form of the property: the bits of the encoding have been appended. *)
Lemma scalar_success : forall A w r P, scalar_type A w r P -> forall v bs st st', encodes (w v) bs ->
  w v st = (st', Ok tt) -> wbits st' = wbits st ++ bs.
Proof.
  intros A w r P H v bs st st' He Hr. pose proof (scalar_honest A w r P H v st st' tt Hr) as Hh.
  rewrite (He (mkW (wbits st) []) eq_refl) in Hh. cbn [wbits] in Hh. now injection Hh as <-.
Qed.

(** ** numbits *)

Lemma NumBits_least : forall v, 2 <= v < 2 ^ 64 ->
  v <= 2 ^ NumBits v /\ (forall k, 0 <= k -> v <= 2 ^ k -> NumBits v <= k).
Proof.
  intros v Hv. unfold NumBits. replace (v =? 0) with false by lia. replace (v =? 1) with false by lia.
  unfold u64. rewrite to_u_small by lia. unfold len64. replace (v - 1 <=? 0) with false by lia.
  pose proof (Z.log2_spec (v - 1) ltac:(lia)) as [H1 H2]. pose proof (Z.log2_nonneg (v - 1)).
  split; [lia|]. intros k Hk Hvk.
  apply Z.le_succ_l. apply Z.log2_lt_pow2; lia.
Qed.
