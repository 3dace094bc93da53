(** Decoded objects are written with at most the bits they were read from. *)

Require Import ZArith List Bool Lia ZifyBool ZifyNat.
From Verif Require Import Bits BitsFacts Stream StreamFacts Spec PosSpec Scalars PrefixFacts ScalarFacts ScalarTable ScalarThms BitIOFacts
  Float16 Float16Facts Traits TraitSpec TraitFacts Delta Array Schema SchemaSpec SchemaFacts SchemaSize SchemaObjects SchemaThms
  DecodeSpec DecodeFacts DecodeTotal DecodeRange DecodeValid ReencodeScalars.
Import ListNotations.
Open Scope Z_scope.
Open Scope io_scope.

(** What [m] returned is written without an error, and the relation between writer
    and reader is kept. *)
Definition follows (R : wst -> rst -> Prop) {A} (m : reader A) (write : A -> writer unit) : Prop :=
  forall r r' a, m r = (r', Ok a) -> forall w, R w r -> exists w', write a w = (w', Ok tt) /\ R w' r'.

(** The writer is not ahead of the reader. *)
Definition behind (w : wst) (r : rst) : Prop := wfaults w = [] /\ (length (wbits w) <= rpos r)%nat.
Definition shrinks {A} (m : reader A) (write : A -> writer unit) : Prop := follows behind m write.

Lemma shrinks_no_longer : forall {A} (m : reader A) write (P : A -> Prop), no_longer m write -> yields m P ->
  (forall a, P a -> exists bs, encodes (write a) bs) -> shrinks m write.
Proof.
  intros A m write P HN HY HE r r' a H w [Hw L]. destruct (HE a (HY _ _ _ H)) as (bs & He).
  pose proof (HN _ _ _ _ H He) as B. exists (mkW (wbits w ++ bs) []). rewrite (He w Hw). split; [reflexivity|]. split; [reflexivity|]. cbn. rewrite app_length. lia.
Qed.

(** ** Elements and scalar fields *)

Lemma no_longer_map : forall {A B} (m : reader A) (f : A -> B) write write', (forall a, write' (f a) = write a) ->
  no_longer m write -> no_longer (rbind m (fun a => rret (f a))) write'.
Proof.
  intros A B m f write write' E HN r r' b bs H He. unfold rbind in H. destruct (m r) as [r1 [a|e| |]] eqn:Em; try discriminate.
  unfold rret in H. injection H as <- <-. rewrite E in He. exact (HN _ _ _ _ Em He).
Qed.

Lemma no_longer_t : forall b, wf_builtin b -> no_longer (t_read (traits_of b)) (t_write (traits_of b)).
Proof.
  intros b W.
  assert (F : forall n, fixed (t_read (traits_of b)) n -> no_longer (t_read (traits_of b)) (t_write (traits_of b))).
  { intros n Hn. apply (fixed_no_longer _ _ n _ Hn (yields_t_read b W)). intros e He.
    eexists. exact (builtin_roundtrip b e W He). }
  destruct b as [| | | | | | | | | | | | | | | |g n|g n].
  - exact (scalar_no_longer _ _ _ _ ST_varint).
  - exact (scalar_no_longer _ _ _ _ ST_varint16).
  - exact (scalar_no_longer _ _ _ _ ST_varint32).
  - exact (scalar_no_longer _ _ _ _ ST_varint64).
  - exact (scalar_no_longer _ _ _ _ ST_varuint).
  - exact (scalar_no_longer _ _ _ _ ST_varuint16).
  - exact (scalar_no_longer _ _ _ _ ST_varuint32).
  - exact (scalar_no_longer _ _ _ _ ST_varuint64).
  - exact (scalar_no_longer _ _ _ _ ST_varsize).
  - exact (scalar_no_longer _ _ _ _ ST_bool).
  - exact (scalar_no_longer _ _ _ _ ST_string).
  - apply (F 16%nat). apply fixed_map. exact (fixed_full 2).
  - exact (scalar_no_longer _ _ _ _ ST_float32).
  - exact (scalar_no_longer _ _ _ _ ST_float64).
  - eapply no_longer_map; [|exact (scalar_no_longer _ _ _ _ ST_bytes)]. intros [n buf]. reflexivity.
  - eapply no_longer_map; [|exact (scalar_no_longer _ _ _ _ ST_extern)]. intros [n buf]. reflexivity.
  - apply (F (Z.to_nat n)). apply fixed_map. apply fixed_bits.
  - apply (F (Z.to_nat n)). apply fixed_map. apply fixed_bits.
Qed.

Lemma no_longer_std : forall b, wf_builtin b -> no_longer (std_read b) (std_write b).
Proof.
  intros b W. assert (F : forall n, fixed (std_read b) n -> no_longer (std_read b) (std_write b)).
  { intros n Hn. apply (fixed_no_longer _ _ n _ Hn (yields_std_read b W)). intros e He. exact (std_roundtrip b e W He). }
  destruct b; try exact (no_longer_t _ W).
  - apply (F (Z.to_nat n)). apply fixed_map. apply fixed_bits.
  - apply (F (Z.to_nat n)). apply fixed_map. apply fixed_signed. destruct g; [contradiction|]. destruct W. lia.
Qed.

Lemma same_refl : forall E t, same_type E E (TBasic t).
Proof. intros E [b|s g w]; cbn; auto. Qed.

Lemma no_longer_basic : forall E t, wf_basic E t -> no_longer (read_basic E t) (write_basic E t).
Proof.
  intros E t W. destruct t as [b|signed g w].
  - apply (no_longer_map (std_read b) (inj b) (std_write b)); [intros e; cbn [write_basic]; now rewrite proj_inj|].
    exact (no_longer_std b (W b eq_refl)).
  - destruct (w E) as [n|] eqn:Ew.
    + apply (fixed_no_longer _ _ (Z.to_nat (to_u 8 n)) (basic_value E (Bits signed g w))).
      * cbn [read_basic]. rewrite Ew. apply fixed_map. specialize (W (if signed then BSBits g (to_u 8 n) else BBits g (to_u 8 n))).
        cbn [builtin_of] in W. rewrite Ew in W. specialize (W eq_refl).
        destruct signed; [apply fixed_signed|apply fixed_bits]. destruct g; destruct W; lia.
      * now apply yields_basic.
      * intros v Hv. exact (basic_roundtrip E E _ v Hv (same_refl _ _)).
    + intros r r' a bs H. cbn [read_basic] in H. rewrite Ew in H. discriminate.
Qed.

Lemma shrinks_basic : forall E E' t, wf_basic E' t -> same_type E E' (TBasic t) -> shrinks (read_basic E' t) (write_basic E t).
Proof.
  intros E E' t W HS.
  assert (X : forall v, write_basic E t v = write_basic E' t v) by (intros v; destruct t; cbn in *; [reflexivity|now rewrite HS]).
  intros r r' v H w. rewrite X. revert w.
  refine (shrinks_no_longer _ _ (basic_value E' t) (no_longer_basic E' t W) (yields_basic E' t W) _ _ _ _ H).
  intros a Ha. destruct (basic_roundtrip E' E' t a Ha (same_refl _ _)) as (bs & He & _). eauto.
Qed.

(** ** Alignment *)

Lemma discard_up : forall a b n, (0 < n)%nat -> (a <= b)%nat -> (a + discard a n <= b + discard b n)%nat.
Proof.
  intros a b n Hn Hab. unfold discard.
  pose proof (Nat.div_mod a n ltac:(lia)) as Da. pose proof (Nat.div_mod b n ltac:(lia)) as Db.
  pose proof (Nat.mod_upper_bound a n ltac:(lia)) as Ua. pose proof (Nat.mod_upper_bound b n ltac:(lia)) as Ub.
  assert (Q : (a / n <= b / n)%nat) by (apply Nat.div_le_mono; lia).
  destruct (Nat.eqb_spec (a mod n) 0), (Nat.eqb_spec (b mod n) 0); try nia.
  destruct (Nat.eq_dec (a / n) (b / n)) as [Eq|Ne]; [nia|].
  assert (a / n + 1 <= b / n)%nat by lia. nia.
Qed.

Lemma shrinks_align : forall n, shrinks (ralign n ;;r rret tt) (fun _ => walign n ;;w wret tt).
Proof.
  intros n r r' u H w [Hw L]. unfold rbind, wbind, ralign, walign in *. destruct (Nat.eqb_spec n 0) as [->|Hn]; [discriminate|].
  pose proof (discard_up (length (wbits w)) (rpos r) n ltac:(lia) L) as D.
  assert (R : rpos r' = (rpos r + discard (rpos r) n)%nat).
  { destruct (Nat.eqb_spec (discard (rpos r) n) 0) as [->|E]; [unfold rret in H; inversion H; subst; lia|].
    unfold rbind in H. destruct (read_bits (discard (rpos r) n) r) as [r1 [x|e| |]] eqn:Er; try discriminate.
    unfold rret in H. inversion H; subst. exact (fixed_bits _ _ _ _ Er). }
  destruct (Nat.eqb_spec (discard (length (wbits w)) n) 0) as [E|E].
  - exists w. split; [reflexivity|]. split; [exact Hw|lia].
  - unfold wbind, write_bits, put. rewrite Hw. eexists. split; [reflexivity|]. split; [reflexivity|]. cbn [wbits].
    rewrite app_length, bits_of_length. lia.
Qed.

Lemma shrinks_align_opt : forall n, shrinks (ralign_opt n) (fun _ => walign_opt n).
Proof.
  intros n. unfold ralign_opt, walign_opt. destruct (n =? 0)%nat; [|apply shrinks_align].
  intros r r' u H w Hw. unfold rret in H. inversion H; subst. exists w. auto.
Qed.

