(** Every scalar reader consumes at least as many bits as the value it returns is
    written with. *)

Require Import ZArith List Bool Lia ZifyBool ZifyNat.
From Verif Require Import Bits BitsFacts Stream StreamFacts Spec Scalars FixedFacts VarFacts PrefixFacts ScalarFacts ScalarTable
  ScalarThms Float16 Float16Facts Traits TraitSpec TraitFacts Schema DecodeSpec DecodeRange.
Import ListNotations.
Open Scope Z_scope.
Open Scope io_scope.

(** Readers that consume the same number of bits whatever they return. *)
Definition fixed {A} (m : reader A) (n : nat) : Prop := forall r r' a, m r = (r', Ok a) -> (rpos r' = rpos r + n)%nat.

(** The value is written with at most the bits it was read from. *)
Definition no_longer {A} (m : reader A) (write : A -> writer unit) : Prop :=
  forall r r' a bs, m r = (r', Ok a) -> encodes (write a) bs -> (rpos r + length bs <= rpos r')%nat.

Lemma encodes_unique : forall m b1 b2, encodes m b1 -> encodes m b2 -> b1 = b2.
Proof.
  intros m b1 b2 H1 H2. specialize (H1 (mkW [] []) eq_refl). specialize (H2 (mkW [] []) eq_refl). cbn in *. congruence.
Qed.

Lemma fixed_ret : forall {A} (a : A), fixed (rret a) 0.
Proof. intros A a r r' x H. unfold rret in H. injection H as <- _. lia. Qed.

Lemma fixed_bind : forall {A B} (m : reader A) (f : A -> reader B) n k, fixed m n -> (forall a, fixed (f a) k) -> fixed (rbind m f) (n + k).
Proof.
  intros A B m f n k Hm Hf r r' b H. unfold rbind in H. destruct (m r) as [r1 [a|e| |]] eqn:E; try discriminate.
  apply Hm in E. apply Hf in H. lia.
Qed.

Lemma fixed_map : forall {A B} (m : reader A) (f : A -> B) n, fixed m n -> fixed (rbind m (fun a => rret (f a))) n.
Proof. intros A B m f n H. replace n with (n + 0)%nat by lia. apply fixed_bind; [exact H|]. intros a. apply fixed_ret. Qed.

Lemma fixed_bits : forall n, fixed (read_bits n) n.
Proof. intros n r r' v H. unfold read_bits in H. destruct (n <=? length (rrem r))%nat; [|discriminate]. injection H as <- _. reflexivity. Qed.

Lemma fixed_full : forall k, fixed (read_full k) (8 * Z.to_nat k).
Proof. intros n r r' v H. unfold read_full in H. destruct (8 * n <=? Z.of_nat (length (rrem r))); [|discriminate]. injection H as <- _. reflexivity. Qed.

Lemma fixed_signed : forall n, 1 <= n -> fixed (ReadSignedBits n) (Z.to_nat n).
Proof.
  intros n Hn. unfold ReadSignedBits. destruct (64 <? n); [intros r r' v H; discriminate|].
  replace (Z.to_nat n) with (Z.to_nat n + 0)%nat at 2 by lia. apply fixed_bind; [apply fixed_bits|].
  intros u. destruct (negb (Z.land u (shl1_u64 (to_u 8 (n - 1))) =? 0)); apply fixed_ret.
Qed.

Lemma fixed_bool : fixed ReadBool 1.
Proof. exact (fixed_map _ _ 1 (fixed_bits 1)). Qed.

(** What a fixed reader returns for an encoding. *)
Lemma fixed_no_longer : forall {A} (m : reader A) write n (P : A -> Prop), fixed m n -> yields m P ->
  (forall a, P a -> exists bs, roundtrips (write a) m bs a) -> no_longer m write.
Proof.
  intros A m write n P HF HY HR r r' a bs H He. destruct (HR a (HY _ _ _ H)) as (bs' & He' & Hd).
  rewrite (encodes_unique _ _ _ He He'). specialize (Hd 0%nat []). apply HF in Hd. apply HF in H. cbn in Hd. lia.
Qed.

Lemma unsigned_no_longer : forall rd m, unsigned_var_reader rd m -> limit m -> yields rd (fun v => 0 <= v < 2 ^ 64) ->
  no_longer rd (fun v => writeVarUint v m).
Proof.
  intros rd m Hr Hm HY r r' v bs H He. pose proof (unsigned_size_exact v m (HY _ _ _ H) Hm) as X.
  destruct (UnsignedBitSize v m) as [s|e| |] eqn:Es; try contradiction.
  - destruct X as (bs' & He' & <-). rewrite (encodes_unique _ _ _ He He').
    pose proof (unsigned_readers_shortest rd m Hr v _ r r' Es H) as C. unfold consumed in C. lia.
  - specialize (He (mkW [] []) eq_refl). rewrite X in He. discriminate.
Qed.

Lemma signed_no_longer : forall rd m, signed_var_reader rd m -> limit m -> yields rd (in_s 64) ->
  no_longer rd (fun v => writeVarInt v m).
Proof.
  intros rd m Hr Hm HY r r' v bs H He. pose proof (signed_size_exact v m (HY _ _ _ H) Hm) as X.
  destruct (SignedBitSize v m) as [s|e| |] eqn:Es; try contradiction.
  - destruct X as (bs' & He' & <-). rewrite (encodes_unique _ _ _ He He').
    pose proof (signed_readers_shortest rd m Hr v _ r r' (HY _ _ _ H) Es H) as C. unfold consumed in C. lia.
  - specialize (He (mkW [] []) eq_refl). rewrite X in He. discriminate.
Qed.

Lemma varsize_no_longer : forall r r' n, ReadVarsize r = (r', Ok n) -> exists bs, encodes (WriteVarsize n) bs /\ (rpos r + length bs <= rpos r')%nat.
Proof.
  intros r r' n H. pose proof (ReadVarsize_range _ _ _ H) as R. destruct (WriteVarsize_rt n R) as (k & Hk & Hsz & He & Hd).
  exists (uwire n k 5). split; [exact He|].
  pose proof (unsigned_readers_shortest _ 5 UVsize n _ r r' Hsz H) as C. unfold consumed in C.
  unfold uwire. rewrite bytes_bits_length, vu_tail_length. destruct Hk as (Hk & _). lia.
Qed.

Lemma string_no_longer : no_longer ReadString WriteString.
Proof.
  intros r r' s bs H He. unfold ReadString, rbind in H. destruct (ReadVarsize r) as [r1 [n|e| |]] eqn:E; try discriminate.
  pose proof (ReadVarsize_range _ _ _ E) as R. destruct (yields_full n ltac:(lia) _ _ _ H) as [_ L].
  apply fixed_full in H. destruct (varsize_no_longer _ _ _ E) as (b1 & H1 & L1).
  rewrite <- L in H1. rewrite (encodes_unique _ _ (b1 ++ bytes_bits s) He); [|apply encodes_bind; [exact H1|apply encodes_put]].
  rewrite app_length, bytes_bits_length. lia.
Qed.

Lemma bytes_no_longer : no_longer ReadBytes (fun x => WriteBytes (fst x) (snd x)).
Proof.
  intros r r' [n buf] bs H He. pose proof (ReadBytes_size _ _ _ _ H) as L. unfold ReadBytes, rbind in H.
  destruct (ReadVarsize r) as [r1 [m|e| |]] eqn:E; try discriminate.
  destruct (read_full m r1) as [r2 [l|e| |]] eqn:E2; try discriminate. unfold rret in H. injection H as <- <- <-.
  apply fixed_full in E2. destruct (varsize_no_longer _ _ _ E) as (b1 & H1 & L1).
  cbn [fst snd] in He. rewrite (encodes_unique _ _ (b1 ++ bytes_bits l) He); [|apply encodes_bind; [exact H1|apply encodes_put]].
  rewrite app_length, bytes_bits_length. lia.
Qed.

Lemma extern_no_longer : no_longer ReadExtern (fun x => WriteExtern (fst x) (snd x)).
Proof.
  intros r r' [n buf] bs H He. unfold ReadExtern, rbind at 1 in H.
  destruct (ReadVarsize r) as [r1 [m|e| |]] eqn:E; try discriminate. pose proof (ReadVarsize_range _ _ _ E) as R.
  destruct (varsize_no_longer _ _ _ E) as (b1 & H1 & L1). cbv zeta in H. unfold rbind at 1 in H.
  pose proof (Z.div_pos m 8 ltac:(lia) ltac:(lia)) as D. pose proof (Z.mod_pos_bound m 8 ltac:(lia)) as MB.
  destruct (read_full (m / 8) r1) as [r2 [l|e| |]] eqn:E2; try discriminate.
  destruct (yields_full (m / 8) D _ _ _ E2) as [_ L]. apply fixed_full in E2. cbn [fst snd] in He.
  destruct (Z.eqb_spec (m mod 8) 0) as [Em|Em].
  - unfold rret in H. injection H as <- <- <-. rewrite (encodes_unique _ _ (b1 ++ bytes_bits l ++ []) He).
    + rewrite !app_length, bytes_bits_length. cbn [length]. lia.
    + apply encodes_bind; [exact H1|]. cbv beta zeta. rewrite L, Z.ltb_irrefl, Em. change (0 =? 0) with true. cbv iota.
      apply encodes_bind; [|apply encodes_ret]. rewrite <- L, Nat2Z.id, firstn_all. apply encodes_put.
  - unfold rbind in H. destruct (read_bits (Z.to_nat (m mod 8)) r2) as [r3 [x|e| |]] eqn:E3; try discriminate.
    unfold rret in H. injection H as <- <- <-. apply fixed_bits in E3.
    rewrite (encodes_unique _ _ (b1 ++ bytes_bits l ++ bits_of (Z.to_nat (m mod 8)) (Z.shiftr (to_u 8 (u64 (Z.shiftl x (8 - m mod 8)))) (8 - m mod 8))) He).
    + rewrite !app_length, bytes_bits_length, bits_of_length. lia.
    + apply encodes_bind; [exact H1|]. cbv beta zeta. rewrite app_length. cbn [length].
      replace (Z.of_nat (length l + 1) <? m / 8) with false by lia. apply encodes_bind.
      * replace (Z.to_nat (m / 8)) with (length l) by lia. rewrite firstn_app_exact. apply encodes_put.
      * replace (m mod 8 =? 0) with false by lia. rewrite rev_app_distr. cbn [rev app]. apply encodes_put.
Qed.

Ltac by_fixed n := match goal with
  | T : scalar_type _ _ _ _ |- _ => eapply (fixed_no_longer _ _ n _); [|exact (scalar_in_range _ _ _ _ T)|exact (scalar_roundtrip _ _ _ _ T)] end.

Lemma scalar_no_longer : forall A w r P, scalar_type A w r P -> no_longer r w.
Proof.
  intros A w r P H. pose proof H as T. destruct H.
  - by_fixed (Z.to_nat n). apply fixed_bits.
  - by_fixed (Z.to_nat n). apply fixed_signed. lia.
  - by_fixed 8%nat. exact (fixed_map _ _ 8 (fixed_bits 8)).
  - by_fixed 16%nat. exact (fixed_map _ _ 16 (fixed_bits 16)).
  - by_fixed 32%nat. exact (fixed_map _ _ 32 (fixed_bits 32)).
  - by_fixed 64%nat. exact (fixed_map _ _ 64 (fixed_bits 64)).
  - by_fixed 8%nat. apply fixed_map. apply (fixed_signed 8). lia.
  - by_fixed 16%nat. apply fixed_map. apply (fixed_signed 16). lia.
  - by_fixed 32%nat. apply fixed_map. apply (fixed_signed 32). lia.
  - by_fixed 64%nat. apply fixed_map. apply (fixed_signed 64). lia.
  - by_fixed 1%nat. exact fixed_bool.
  - apply (unsigned_no_longer _ 2 UV16); [apply limits_ok|]. eapply yields_weaken; [exact (scalar_in_range _ _ _ _ T)|].
    intros v Hv. unfold MaxVaruint16 in Hv. lia.
  - apply (unsigned_no_longer _ 4 UV32); [apply limits_ok|]. eapply yields_weaken; [exact (scalar_in_range _ _ _ _ T)|].
    intros v Hv. unfold MaxVaruint32 in Hv. lia.
  - apply (unsigned_no_longer _ 8 UV64); [apply limits_ok|]. eapply yields_weaken; [exact (scalar_in_range _ _ _ _ T)|].
    intros v Hv. unfold MaxVaruint64 in Hv. lia.
  - apply (unsigned_no_longer _ 9 UV); [apply limits_ok|]. eapply yields_weaken; [exact (scalar_in_range _ _ _ _ T)|].
    intros v Hv. unfold MaxUint64 in Hv. lia.
  - intros s s' v bs E He. destruct (varsize_no_longer _ _ _ E) as (b1 & H1 & L1). now rewrite (encodes_unique _ _ _ He H1).
  - apply (signed_no_longer _ 2 SV16); [apply limits_ok|]. eapply yields_weaken; [exact (scalar_in_range _ _ _ _ T)|].
    intros v Hv. unfold MaxVarint16, in_s in *. lia.
  - apply (signed_no_longer _ 4 SV32); [apply limits_ok|]. eapply yields_weaken; [exact (scalar_in_range _ _ _ _ T)|].
    intros v Hv. unfold MaxVarint32, in_s in *. lia.
  - apply (signed_no_longer _ 8 SV64); [apply limits_ok|]. eapply yields_weaken; [exact (scalar_in_range _ _ _ _ T)|].
    intros v Hv. unfold MaxVarint64, in_s in *. lia.
  - intros s s' v bs E He. destruct (Z.eqb_spec v MinInt64) as [->|Hne].
    + rewrite (encodes_unique _ _ _ He (proj1 WriteVarint_min)).
      pose proof (signed_readers_shortest _ 9 SV MinInt64 8 s s' (scalar_in_range _ _ _ _ T _ _ _ E) eq_refl E) as C.
      unfold consumed in C. rewrite bits_of_length. lia.
    + apply (signed_no_longer _ 9 SV (proj2 (proj2 (proj2 (proj2 limits_ok)))) (scalar_in_range _ _ _ _ T) s s' v bs E).
      unfold WriteVarint in He. now replace (v =? MinInt64) with false in He by lia.
  - by_fixed 32%nat. apply fixed_map. exact (fixed_full 4).
  - by_fixed 64%nat. apply fixed_map. exact (fixed_full 8).
  - exact string_no_longer.
  - exact bytes_no_longer.
  - exact extern_no_longer.
Qed.
