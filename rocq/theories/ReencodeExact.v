(** Types of fixed width are written with exactly the bits they were read from. *)

Require Import ZArith List Bool Lia ZifyBool ZifyNat.
From Verif Require Import Bits BitsFacts Stream StreamFacts Spec Scalars FixedFacts PrefixFacts ScalarFacts ScalarTable ScalarThms
  Traits TraitSpec TraitFacts Schema SchemaSpec SchemaFacts DecodeSpec DecodeRange ReencodeScalars ReencodeFacts ReencodeFollow ReencodeSpec.
Import ListNotations.
Open Scope Z_scope.
Open Scope io_scope.

Definition exact {A} (m : reader A) (write : A -> writer unit) : Prop :=
  forall r r' a, m r = (r', Ok a) -> exists c, rrem r = c ++ rrem r' /\ encodes (write a) c.

Lemma exact_fixed : forall {A} (m : reader A) write n, fixed m n -> prefix_determined m ->
  (forall c, length c = n -> exists a, roundtrips (write a) m c a) -> exact m write.
Proof.
  intros A m write n HF HP HR [pos rem] r' a H. destruct (HP _ _ _ _ H) as (c & Hc & Hpos & Hd & _).
  apply HF in H. cbn [rpos rrem] in *. destruct (HR c ltac:(lia)) as (a' & He & Hd'). exists c. split; [exact Hc|].
  specialize (Hd []). rewrite (Hd' pos []) in Hd. injection Hd as <-. exact He.
Qed.

Lemma some_unsigned : forall c, exists v, 0 <= v < 2 ^ Z.of_nat (length c) /\ bits_of (length c) v = c.
Proof. intros c. exists (val_of c). split; [apply val_of_range|apply bits_of_val_of]. Qed.

Lemma some_signed : forall c n, 1 <= n -> length c = Z.to_nat n ->
  exists v, - 2 ^ (n - 1) <= v < 2 ^ (n - 1) /\ bits_of (Z.to_nat n) v = c.
Proof.
  intros c n Hn Hl. exists (to_s n (val_of c)). split; [apply to_s_range; lia|].
  rewrite <- (bits_of_val_of c) at 2. rewrite Hl. rewrite <- (bits_of_modn n (to_s n _)), <- (bits_of_modn n (val_of c)) by lia.
  f_equal. apply to_s_mod. lia.
Qed.

Lemma exact_float : forall b, b = BFloat32 \/ b = BFloat64 -> exact (t_read (traits_of b)) (t_write (traits_of b)).
Proof.
  intros b [-> | ->]; cbn [traits_of t_read t_write Float32ArrayTraits Float64ArrayTraits].
  - apply (exact_fixed _ _ 32); [apply fixed_map; exact (fixed_full 4)|apply pd_bind; [apply pd_read_full; lia|intros; apply pd_ret]|].
    intros c Hc. destruct (some_unsigned c) as (v & Hv & Ev). rewrite Hc in *. exists v. rewrite <- Ev. now apply WriteFloat32_rt.
  - apply (exact_fixed _ _ 64); [apply fixed_map; exact (fixed_full 8)|apply pd_bind; [apply pd_read_full; lia|intros; apply pd_ret]|].
    intros c Hc. destruct (some_unsigned c) as (v & Hv & Ev). rewrite Hc in *. exists v. rewrite <- Ev. now apply WriteFloat64_rt.
Qed.

Lemma exact_bool : exact ReadBool WriteBool.
Proof.
  apply (exact_fixed _ _ 1); [exact fixed_bool|apply pd_bind; [apply pd_read_bits|intros; apply pd_ret]|].
  intros [|x [|y l]] Hc; try discriminate. exists x. split; [apply encodes_put|apply decodes_read_bool].
Qed.

Lemma exact_t : forall b, wf_builtin b -> one_encoding b -> exact (t_read (traits_of b)) (t_write (traits_of b)).
Proof.
  intros b W O. destruct b; try contradiction; try (now apply exact_float; auto).
  - exact exact_bool.
  - destruct g as [w|w]; [|contradiction]. destruct W as [Hw Hn].
    apply (exact_fixed _ _ (Z.to_nat n)); [apply fixed_map; apply fixed_bits|apply pd_bind; [apply pd_read_bits|intros; apply pd_ret]|].
    intros c Hc. destruct (some_unsigned c) as (v & Hv & Ev). rewrite Hc, Z2Nat.id in * by lia. exists v. rewrite <- Ev. now apply bitfield_rt.
  - destruct g as [w|w]; [contradiction|]. destruct W as [Hw Hn].
    apply (exact_fixed _ _ (Z.to_nat n)); [apply fixed_map; apply fixed_bits|apply pd_bind; [apply pd_read_bits|intros; apply pd_ret]|].
    intros c Hc. destruct (some_signed c n ltac:(lia) Hc) as (v & Hv & Ev). exists v. rewrite <- Ev. now apply sbitfield_rt.
Qed.

Lemma exact_map : forall {A B} (m : reader A) (f : A -> B) write write', (forall a, write' (f a) = write a) ->
  exact m write -> exact (rbind m (fun a => rret (f a))) write'.
Proof.
  intros A B m f write write' E HN r r' b H. unfold rbind in H. destruct (m r) as [r1 [a|e| |]] eqn:Em; try discriminate.
  unfold rret in H. injection H as <- <-. rewrite E. exact (HN _ _ _ Em).
Qed.

Lemma exact_unsigned : forall n, 1 <= n <= 64 -> exact (ReadUnsignedBits n) (fun v => WriteUnsignedBits v n).
Proof.
  intros n Hn. apply (exact_fixed _ _ (Z.to_nat n)); [apply fixed_bits|apply pd_read_bits|].
  intros c Hc. destruct (some_unsigned c) as (v & Hv & Ev). rewrite Hc, Z2Nat.id in * by lia. exists v. rewrite <- Ev.
  split; [apply WriteUnsignedBits_ok|apply ReadUnsignedBits_ok]; lia.
Qed.

Lemma exact_signed : forall n, 1 <= n <= 64 -> exact (ReadSignedBits n) (fun v => WriteSignedBits v n).
Proof.
  intros n Hn. apply (exact_fixed _ _ (Z.to_nat n)); [apply fixed_signed; lia|apply pd_ReadSignedBits|].
  intros c Hc. destruct (some_signed c n ltac:(lia) Hc) as (v & Hv & Ev). exists v. rewrite <- Ev.
  split; [apply WriteSignedBits_ok|apply ReadSignedBits_ok]; lia.
Qed.

(** [f] changes no value that the reader returns. *)
Lemma exact_conv : forall {A B} (m : reader A) (f : A -> B) write write' (P : A -> Prop), yields m P ->
  (forall a, P a -> write' (f a) = write a) -> exact m write -> exact (rbind m (fun a => rret (f a))) write'.
Proof.
  intros A B m f write write' P HY E HN r r' b H. unfold rbind in H. destruct (m r) as [r1 [a|e| |]] eqn:Em; try discriminate.
  unfold rret in H. injection H as <- <-. rewrite (E a (HY _ _ _ Em)). exact (HN _ _ _ Em).
Qed.

Lemma exact_basic : forall E t, wf_basic E t -> (forall b, builtin_of E t = Some b -> one_encoding b) ->
  exact (read_basic E t) (write_basic E t).
Proof.
  intros E t W O. destruct t as [b|signed g w].
  - specialize (W b eq_refl). specialize (O b eq_refl). cbn [read_basic].
    apply (exact_map _ _ (std_write b)); [intros e; cbn [write_basic]; now rewrite proj_inj|].
    destruct b; try contradiction; try exact (exact_t _ W O).
    + destruct g as [w|w]; [|contradiction]. destruct W as [Hw Hn]. pose proof (go_width_pos w Hw).
      apply (exact_conv _ _ (fun v => WriteUnsignedBits v n) _ _ (yields_unsigned n ltac:(lia))); [|apply exact_unsigned; lia].
      intros a Ha. cbn [std_write gconv]. now rewrite (proj2 (unsigned_field w n a Hw Hn Ha)).
    + destruct g as [w|w]; [contradiction|]. destruct W as [Hw Hn]. pose proof (go_width_pos w Hw).
      apply (exact_conv _ _ (fun v => WriteSignedBits v n) _ _ (yields_signed n ltac:(lia))); [|apply exact_signed; lia].
      intros a Ha. cbn [std_write gconv]. now rewrite (proj2 (signed_field w n a Hw Hn Ha)).
  - unfold wf_basic in W. cbn [builtin_of] in W. destruct (w E) as [k|] eqn:Ew.
    2: { intros r r' a H. cbn [read_basic] in H. rewrite Ew in H. discriminate. }
    specialize (W _ eq_refl). set (n := to_u 8 k) in *. cbn [read_basic]. rewrite Ew. fold n. destruct signed.
    + destruct g as [gw|gw]; [contradiction|]. destruct W as [Hw Hn]. pose proof (go_width_pos gw Hw).
      apply (exact_conv _ (fun z => VInt (gconv (GS gw) z)) (fun v => WriteSignedBits v n) _ _ (yields_signed n ltac:(lia))); [|apply exact_signed; lia].
      intros a Ha. cbn [write_basic gconv]. rewrite Ew. fold n. destruct (signed_field gw n a Hw Hn Ha) as [E1 E2]. now rewrite E2, E1.
    + destruct g as [gw|gw]; [|contradiction]. destruct W as [Hw Hn]. pose proof (go_width_pos gw Hw).
      apply (exact_conv _ (fun z => VInt (gconv (GU gw) z)) (fun v => WriteUnsignedBits v n) _ _ (yields_unsigned n ltac:(lia))); [|apply exact_unsigned; lia].
      intros a Ha. cbn [write_basic gconv]. rewrite Ew. fold n. destruct (unsigned_field gw n a Hw Hn Ha) as [E1 E2]. now rewrite E2, E1.
Qed.

(** The bits written and the bits still to be read are the whole input. *)
Definition split_of (whole : list bool) (w : wst) (r : rst) : Prop := wfaults w = [] /\ wbits w ++ rrem r = whole.

Lemma exact_follows : forall {A} whole (m : reader A) write, exact m write -> follows (split_of whole) m write.
Proof.
  intros A whole m write HE r r' a H w [Hw Hs]. destruct (HE _ _ _ H) as (c & Hc & He). rewrite (He w Hw).
  eexists. split; [reflexivity|]. split; [reflexivity|]. cbn. rewrite <- Hs, Hc. now rewrite app_assoc.
Qed.

Lemma keeps_split : forall whole, keeps (split_of whole) one_encoding False (fun n => n = 0%nat).
Proof.
  intros whole. constructor.
  - intros E t W O. now apply exact_follows, exact_basic.
  - intros b W O. apply exact_follows. cbn [vtraits t_read t_write].
    apply (exact_map (t_read (traits_of b)) (inj b) (t_write (traits_of b))); [intros e; now rewrite proj_inj|now apply exact_t].
  - contradiction.
  - intros n ->. intros r r' u H w Hw. cbn in H. unfold rret in H. injection H as <- _. exists w. auto.
  - apply exact_follows, exact_bool.
Qed.

Lemma keeps_behind : keeps behind (fun _ => True) True (fun _ => True).
Proof.
  constructor.
  - intros E t W _. exact (shrinks_basic E E t W (same_refl _ _)).
  - intros b W _. cbn [vtraits t_read t_write]. apply (shrinks_no_longer _ _ (fun v => exists e, in_range b e /\ v = inj b e)).
    + apply (no_longer_map (t_read (traits_of b)) (inj b) (t_write (traits_of b))); [intros e; now rewrite proj_inj|now apply no_longer_t].
    + eapply yields_bind; [apply yields_t_read; exact W|]. intros e He. apply yields_ret. eauto.
    + intros a (e & He & ->). rewrite proj_inj. destruct (builtin_roundtrip b e W He) as [X _]. eauto.
  - intros _ r r' n H w [Hw L]. destruct (varsize_no_longer _ _ _ H) as (bs & He & Lb). rewrite (He w Hw).
    eexists. split; [reflexivity|]. split; [reflexivity|]. cbn. rewrite app_length. lia.
  - intros n _. apply shrinks_align_opt.
  - intros r r' b H w [Hw L]. apply fixed_bool in H. unfold WriteBool, write_bool, put. rewrite Hw.
    eexists. split; [reflexivity|]. split; [reflexivity|]. cbn. rewrite app_length. cbn. lia.
Qed.
