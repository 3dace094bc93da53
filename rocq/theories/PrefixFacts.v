(** Prefix determinacy and panic freedom are closed under sequencing, and hold of
    every scalar reader. *)

Require Import ZArith List Bool Lia ZifyBool ZifyNat.
From Verif Require Import Bits BitsFacts Stream StreamFacts Scalars FixedFacts.
Import ListNotations.
Open Scope Z_scope.
Open Scope io_scope.

Lemma cut_of_length : forall s c, cut_of s c -> (length s < length c)%nat.
Proof.
  intros s c (t & Ht & ->). rewrite app_length. destruct t; [congruence|cbn; lia].
Qed.

Lemma cut_of_nil : forall s, ~ cut_of s [].
Proof. intros s H. apply cut_of_length in H. cbn in H. lia. Qed.

Lemma cut_of_app : forall s c1 c2, cut_of s (c1 ++ c2) ->
  cut_of s c1 \/ exists s2, s = c1 ++ s2 /\ cut_of s2 c2.
Proof.
  intros s c1 c2 (t & Ht & E).
  destruct (Nat.lt_ge_cases (length s) (length c1)) as [L|L].
  - left. exists (skipn (length s) c1). split.
    + intros H. apply (f_equal (@length bool)) in H. rewrite skipn_length in H. cbn in H. lia.
    + assert (H : firstn (length s) (c1 ++ c2) = s) by (rewrite E; apply firstn_app_exact).
      rewrite firstn_app in H. replace (length s - length c1)%nat with 0%nat in H by lia.
      cbn in H. rewrite app_nil_r in H. rewrite <- H at 1. symmetry. apply firstn_skipn.
  - right. exists (skipn (length c1) s). 
    assert (H : skipn (length c1) (c1 ++ c2) = skipn (length c1) s ++ t).
    { rewrite E, skipn_app. replace (length c1 - length s)%nat with 0%nat by lia. reflexivity. }
    rewrite skipn_app_exact in H. split; [|now exists t].
    assert (H1 : firstn (length c1) (s ++ t) = c1) by (rewrite <- E; apply firstn_app_exact).
    rewrite firstn_app in H1. replace (length c1 - length s)%nat with 0%nat in H1 by lia.
    cbn in H1. rewrite app_nil_r in H1. rewrite <- H1 at 1. symmetry. apply firstn_skipn.
Qed.

Lemma pd_ret : forall {A} (a : A), prefix_determined (rret a).
Proof.
  intros A a pos rem r' a' H. unfold rret in H. injection H as <- <-.
  exists []. repeat split; cbn; auto.
  - intros. unfold rret. now rewrite Nat.add_0_r.
  - intros s Hs. now apply cut_of_nil in Hs.
Qed.

Lemma pd_err : forall {A} e, prefix_determined (@rerr A e).
Proof. intros A e pos rem r' a H. discriminate. Qed.

Lemma pd_panic : forall {A}, prefix_determined (@rpanic A).
Proof. intros A pos rem r' a H. discriminate. Qed.

Lemma pd_bind : forall {A B} (m : reader A) (f : A -> reader B),
  prefix_determined m -> (forall a, prefix_determined (f a)) -> prefix_determined (rbind m f).
Proof.
  intros A B m f Hm Hf pos rem r' b H. unfold rbind in H.
  destruct (m (mkR pos rem)) as [r1 [a|e| |]] eqn:E1; try discriminate.
  destruct (Hm _ _ _ _ E1) as (c1 & -> & Hp1 & Hall1 & Hcut1).
  destruct r1 as [p1 rem1]. cbn [rpos rrem] in *. subst p1.
  destruct (Hf a _ _ _ _ H) as (c2 & -> & Hp2 & Hall2 & Hcut2).
  exists (c1 ++ c2). split; [now rewrite app_assoc|].
  split; [rewrite app_length; lia|]. split.
  - intros rest. unfold rbind. rewrite <- app_assoc, Hall1, Hall2.
    rewrite app_length. f_equal. f_equal. lia.
  - intros s Hs. unfold rbind. destruct (cut_of_app _ _ _ Hs) as [Hs1|(s2 & -> & Hs2)].
    + destruct (Hcut1 _ Hs1) as (r & e & ->). eauto.
    + rewrite Hall1. destruct (Hcut2 _ Hs2) as (r & e & ->). eauto.
Qed.

Lemma pd_read_bits : forall n, prefix_determined (read_bits n).
Proof.
  intros n pos rem r' a H. unfold read_bits in H. cbn [rrem rpos] in H.
  destruct (Nat.leb_spec n (length rem)) as [L|L]; [|discriminate].
  injection H as <- <-. exists (firstn n rem). cbn [rrem rpos].
  rewrite firstn_length_le by lia. repeat split.
  - symmetry. apply firstn_skipn.
  - intros rest. unfold read_bits. cbn [rrem rpos].
    rewrite app_length, firstn_length_le by lia.
    replace (n <=? n + length rest)%nat with true by (symmetry; apply Nat.leb_le; lia).
    pose proof (skipn_app_exact (firstn n rem) rest) as E1.
    pose proof (firstn_app_exact (firstn n rem) rest) as E2.
    rewrite firstn_length_le in E1, E2 by lia. rewrite E1, E2. reflexivity.
  - intros s Hs. apply cut_of_length in Hs. rewrite firstn_length_le in Hs by lia.
    unfold read_bits. cbn [rrem rpos].
    replace (n <=? length s)%nat with false by (symmetry; apply Nat.leb_gt; lia). eauto.
Qed.

Lemma take_bytes_firstn : forall k l1 l2, (8 * k <= length l1)%nat ->
  take_bytes k (l1 ++ l2) = take_bytes k l1.
Proof.
  induction k as [|k IH]; intros l1 l2 H; [reflexivity|]. cbn [take_bytes].
  rewrite firstn_app, skipn_app. replace (8 - length l1)%nat with 0%nat by lia.
  rewrite firstn_O, skipn_O, app_nil_r. rewrite IH; [reflexivity|].
  rewrite skipn_length. lia.
Qed.

Lemma pd_read_full : forall k, 0 <= k -> prefix_determined (read_full k).
Proof.
  intros k Hk pos rem r' a H. unfold read_full in H. cbn [rrem rpos] in H.
  set (n := (8 * Z.to_nat k)%nat) in *.
  destruct (Z.leb_spec (8 * k) (Z.of_nat (length rem))) as [L|L]; [|discriminate].
  injection H as <- <-. exists (firstn n rem). cbn [rrem rpos].
  assert (Hn : (n <= length rem)%nat) by lia.
  rewrite firstn_length_le by lia. repeat split.
  - symmetry. apply firstn_skipn.
  - intros rest. unfold read_full. cbn [rrem rpos].
    rewrite app_length, firstn_length_le by lia.
    replace (8 * k <=? Z.of_nat (n + length rest)) with true by lia.
    fold n.
    pose proof (skipn_app_exact (firstn n rem) rest) as E1.
    rewrite firstn_length_le in E1 by lia. rewrite E1. f_equal. f_equal.
    rewrite take_bytes_firstn by (rewrite firstn_length_le; lia).
    rewrite <- (firstn_skipn n rem) at 2.
    symmetry. apply take_bytes_firstn. rewrite firstn_length_le; lia.
  - intros s Hs. apply cut_of_length in Hs. rewrite firstn_length_le in Hs by lia.
    unfold read_full. cbn [rrem rpos].
    replace (8 * k <=? Z.of_nat (length s)) with false by lia. eauto.
Qed.

Lemma pd_read_byte : prefix_determined read_byte.
Proof. apply pd_read_bits. Qed.

Lemma pd_if : forall {A} (b : bool) (m1 m2 : reader A), prefix_determined m1 -> prefix_determined m2 ->
  prefix_determined (if b then m1 else m2).
Proof. intros A [|]; auto. Qed.

Lemma pd_read_bool : prefix_determined read_bool.
Proof. apply pd_bind; [apply pd_read_bits|intros; apply pd_ret]. Qed.

Lemma pd_read_middle : forall conv k v h, prefix_determined (read_middle conv k v h).
Proof.
  intros conv k. induction k as [|k IH]; intros v h; cbn [read_middle]; [apply pd_ret|].
  apply pd_if; [|apply pd_ret]. apply pd_bind; [apply pd_read_byte|auto].
Qed.

Lemma pd_read_last : forall conv v h, prefix_determined (read_last conv v h).
Proof.
  intros. apply pd_if; [|apply pd_ret]. apply pd_bind; [apply pd_read_byte|intros; apply pd_ret].
Qed.

Lemma pd_read_varuint : forall conv k, prefix_determined (read_varuint conv k).
Proof.
  intros. apply pd_bind; [apply pd_read_byte|intros b].
  apply pd_bind; [apply pd_read_middle|intros; apply pd_read_last].
Qed.

Lemma pd_read_varint_from : forall conv k b, prefix_determined (read_varint_from conv k b).
Proof.
  intros. apply pd_bind; [apply pd_read_middle|intros vh].
  apply pd_bind; [apply pd_read_last|intros; apply pd_ret].
Qed.

Lemma pd_ReadVarsize : prefix_determined ReadVarsize.
Proof.
  apply pd_bind; [apply pd_read_varuint|intros v]. apply pd_if; [apply pd_err|apply pd_ret].
Qed.

Lemma pd_ReadSignedBits : forall n, prefix_determined (ReadSignedBits n).
Proof.
  intros. apply pd_if; [apply pd_panic|]. apply pd_bind; [apply pd_read_bits|intros u].
  apply pd_if; apply pd_ret.
Qed.

(** ReadVarsize never yields a negative size; needed because [read_full] is
    total only for non-negative sizes. *)
Lemma varuint_nonneg : forall k, forall r r' v, read_varuint (to_u 64) k r = (r', Ok v) -> 0 <= v.
Proof.
  intros k r r' v H. unfold read_varuint, rbind in H.
  destruct (read_byte r) as [r1 [b|e| |]] eqn:Eb; try discriminate.
  assert (Hb : forall r r' b, read_byte r = (r', Ok b) -> 0 <= b).
  { clear. intros r r' b H. unfold read_byte, read_bits in H.
    destruct (_ <=? _)%nat; [|discriminate]. injection H as _ <-.
    apply to_u_range; lia. }
  assert (Hm : forall k r r' v h v' h', 0 <= v ->
             read_middle (to_u 64) k v h r = (r', Ok (v', h')) -> 0 <= v').
  { clear - Hb. induction k as [|k IH]; intros r r' v h v' h' Hv H; cbn [read_middle] in H.
    - unfold rret in H. injection H as _ <- _. exact Hv.
    - destruct h; [|unfold rret in H; injection H as _ <- _; exact Hv].
      unfold rbind in H. destruct (read_byte r) as [r1 [b|e| |]] eqn:Eb; try discriminate.
      eapply IH; [|exact H]. apply Z.lor_nonneg. split.
      + apply to_u_range. lia.
      + apply Z.land_nonneg. lia. }
  destruct (read_middle (to_u 64) k (Z.land b 127) (negb (Z.land b 128 =? 0)) r1)
    as [r2 [[v' h']|e| |]] eqn:Em; try discriminate.
  apply Hm in Em; [|apply Z.land_nonneg; lia].
  cbn [fst snd] in H. unfold read_last in H. destruct h'.
  - unfold rbind in H. destruct (read_byte r2) as [r3 [b'|e| |]] eqn:Eb'; try discriminate.
    unfold rret in H. injection H as _ <-. apply Z.lor_nonneg. split.
    + apply to_u_range; lia.
    + now apply Hb in Eb'.
  - unfold rret in H. injection H as _ <-. exact Em.
Qed.

Lemma ReadVarsize_range : forall r r' v, ReadVarsize r = (r', Ok v) -> 0 <= v <= MaxVarsize.
Proof.
  intros r r' v H. unfold ReadVarsize, rbind in H.
  destruct (read_varuint (to_u 64) 3 r) as [r1 [x|e| |]] eqn:E; try discriminate.
  apply varuint_nonneg in E.
  destruct (Z.ltb_spec MaxVarsize x); [discriminate|]. unfold rret in H. injection H as _ <-. lia.
Qed.

(** A variant of [pd_bind] where the continuation may use facts about the result. *)
Lemma pd_bind_inv : forall {A B} (P : A -> Prop) (m : reader A) (f : A -> reader B),
  prefix_determined m -> (forall r r' a, m r = (r', Ok a) -> P a) ->
  (forall a, P a -> prefix_determined (f a)) -> prefix_determined (rbind m f).
Proof.
  intros A B P m f Hm HP Hf pos rem r' b H. unfold rbind in H.
  destruct (m (mkR pos rem)) as [r1 [a|e| |]] eqn:E1; try discriminate.
  pose proof (HP _ _ _ E1) as Pa.
  destruct (Hm _ _ _ _ E1) as (c1 & -> & Hp1 & Hall1 & Hcut1).
  destruct r1 as [p1 rem1]. cbn [rpos rrem] in *. subst p1.
  destruct (Hf a Pa _ _ _ _ H) as (c2 & -> & Hp2 & Hall2 & Hcut2).
  exists (c1 ++ c2). split; [now rewrite app_assoc|].
  split; [rewrite app_length; lia|]. split.
  - intros rest. unfold rbind. rewrite <- app_assoc, Hall1, Hall2.
    rewrite app_length. f_equal. f_equal. lia.
  - intros s Hs. unfold rbind. destruct (cut_of_app _ _ _ Hs) as [Hs1|(s2 & -> & Hs2)].
    + destruct (Hcut1 _ Hs1) as (r & e & ->). eauto.
    + rewrite Hall1. destruct (Hcut2 _ Hs2) as (r & e & ->). eauto.
Qed.

Lemma pd_ReadString : prefix_determined ReadString.
Proof.
  eapply pd_bind_inv; [apply pd_ReadVarsize|exact ReadVarsize_range|].
  intros a Ha. cbn in Ha. apply pd_read_full. lia.
Qed.

Lemma pd_ReadBytes : prefix_determined ReadBytes.
Proof.
  eapply pd_bind_inv; [apply pd_ReadVarsize|exact ReadVarsize_range|].
  intros a Ha. cbn in Ha. apply pd_bind; [apply pd_read_full; lia|intros; apply pd_ret].
Qed.

Lemma pd_ReadExtern : prefix_determined ReadExtern.
Proof.
  eapply pd_bind_inv; [apply pd_ReadVarsize|exact ReadVarsize_range|].
  intros a Ha. cbn in Ha.
  apply pd_bind; [apply pd_read_full; apply Z.div_pos; lia|intros l].
  apply pd_if; [apply pd_ret|]. apply pd_bind; [apply pd_read_bits|intros; apply pd_ret].
Qed.

(** ** Panic freedom *)

Lemma np_ret : forall {A} (a : A), never_panics (rret a).
Proof. intros A a r. left. now exists a. Qed.

Lemma np_err : forall {A} e, never_panics (@rerr A e).
Proof. intros A e r. right. now exists e. Qed.

Lemma np_bind : forall {A B} (m : reader A) (f : A -> reader B),
  never_panics m -> (forall a, never_panics (f a)) -> never_panics (rbind m f).
Proof.
  intros A B m f Hm Hf r. unfold rbind. specialize (Hm r).
  destruct (m r) as [r1 [a|e| |]]; cbn in Hm.
  - apply Hf.
  - right. now exists e.
  - destruct Hm as [[? ?]|[? ?]]; discriminate.
  - destruct Hm as [[? ?]|[? ?]]; discriminate.
Qed.

Lemma np_if : forall {A} (b : bool) (m1 m2 : reader A), never_panics m1 -> never_panics m2 ->
  never_panics (if b then m1 else m2).
Proof. intros A [|]; auto. Qed.

Lemma np_read_bits : forall n, never_panics (read_bits n).
Proof. intros n r. unfold read_bits. destruct (_ <=? _)%nat; cbn; eauto. Qed.

Lemma np_read_full : forall k, never_panics (read_full k).
Proof. intros n r. unfold read_full. destruct (_ <=? _); cbn; eauto. Qed.

Lemma np_read_byte : never_panics read_byte.
Proof. apply np_read_bits. Qed.

Lemma np_read_bool : never_panics read_bool.
Proof. apply np_bind; [apply np_read_bits|intros; apply np_ret]. Qed.

Lemma np_read_middle : forall conv k v h, never_panics (read_middle conv k v h).
Proof.
  intros conv k. induction k as [|k IH]; intros v h; cbn [read_middle]; [apply np_ret|].
  apply np_if; [|apply np_ret]. apply np_bind; [apply np_read_byte|auto].
Qed.

Lemma np_read_last : forall conv v h, never_panics (read_last conv v h).
Proof.
  intros. apply np_if; [|apply np_ret]. apply np_bind; [apply np_read_byte|intros; apply np_ret].
Qed.

Lemma np_read_varuint : forall conv k, never_panics (read_varuint conv k).
Proof.
  intros. apply np_bind; [apply np_read_byte|intros b].
  apply np_bind; [apply np_read_middle|intros; apply np_read_last].
Qed.

Lemma np_read_varint_from : forall conv k b, never_panics (read_varint_from conv k b).
Proof.
  intros. apply np_bind; [apply np_read_middle|intros vh].
  apply np_bind; [apply np_read_last|intros; apply np_ret].
Qed.

Lemma np_ReadVarsize : never_panics ReadVarsize.
Proof.
  apply np_bind; [apply np_read_varuint|intros v]. apply np_if; [apply np_err|apply np_ret].
Qed.

Lemma np_ReadSignedBits : forall n, n <= 64 -> never_panics (ReadSignedBits n).
Proof.
  intros n Hn. unfold ReadSignedBits. replace (64 <? n) with false by lia.
  apply np_bind; [apply np_read_bits|intros u]. apply np_if; apply np_ret.
Qed.

Lemma np_ReadString : never_panics ReadString.
Proof. apply np_bind; [apply np_ReadVarsize|intros; apply np_read_full]. Qed.

Lemma np_ReadBytes : never_panics ReadBytes.
Proof.
  apply np_bind; [apply np_ReadVarsize|intros].
  apply np_bind; [apply np_read_full|intros; apply np_ret].
Qed.

Lemma np_ReadExtern : never_panics ReadExtern.
Proof.
  apply np_bind; [apply np_ReadVarsize|intros].
  apply np_bind; [apply np_read_full|intros].
  apply np_if; [apply np_ret|]. apply np_bind; [apply np_read_bits|intros; apply np_ret].
Qed.
