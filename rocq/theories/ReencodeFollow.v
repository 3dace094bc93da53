(** Writing what was read, for any relation between writer and reader that the
    parts keep. *)

Require Import ZArith List Bool Lia ZifyBool ZifyNat.
From Verif Require Import Bits BitsFacts Stream Spec Scalars PrefixFacts ScalarTable
  Traits TraitSpec Delta Array Schema SchemaSpec SchemaFacts SchemaSize SchemaObjects SchemaThms
  DecodeSpec DecodeFacts DecodeTotal DecodeRange DecodeValid ReencodeFacts.
Import ListNotations.
Open Scope Z_scope.
Open Scope io_scope.

(** What the parts keep: builtin types in [P], length fields and union tags if [V],
    alignments in [A]. *)
Record keeps (R : wst -> rst -> Prop) (P : builtin -> Prop) (V : Prop) (A : nat -> Prop) : Prop := {
  keep_basic : forall E t, wf_basic E t -> (forall b, builtin_of E t = Some b -> P b) -> follows R (read_basic E t) (write_basic E t);
  keep_element : forall b, wf_builtin b -> P b -> follows R (t_read (vtraits b)) (t_write (vtraits b));
  keep_size : V -> follows R ReadVarsize WriteVarsize;
  keep_align : forall n, A n -> follows R (ralign_opt n) (fun _ => walign_opt n);
  keep_bool : follows R ReadBool WriteBool }.

(** The schema uses nothing else. *)
Definition uses_only (P : builtin -> Prop) (V : Prop) (A : nat -> Prop) (S : schema) : Prop :=
  (forall id t b, nth_error S id = Some (DScalar t) -> builtin_of (mkE [] []) t = Some b -> P b) /\
  (forall id fs, nth_error S id = Some (DUnion fs) -> V) /\
  forall id d f, nth_error S id = Some d -> In f (fields_of d) ->
    A (f_align f) /\ (forall packed, f_array f = Some (None, packed) -> V) /\
    forall t, f_type f = TBasic t -> forall E b, builtin_of E t = Some b -> P b.

(** ** Arrays *)

Lemma follows_elems : forall {A N} R (K K' : elemops A N) cfg, a_packed cfg = false -> a_check cfg = false ->
  (forall i, follows R (k_read K' i) (k_write K i)) ->
  forall n i c r c' r' es, read_elems K' cfg i n (c, r) = ((c', r'), Ok es) ->
  forall d w, R w r -> exists w', write_elems K cfg i es (d, w) = ((d, w'), Ok tt) /\ R w' r'.
Proof.
  intros A N R K K' cfg Hp Hc HK. induction n as [|n IH]; intros i c r c' r' es H d w Hw; cbn [read_elems] in H.
  - unfold sret in H. injection H as _ <- <-. exists w. cbn. auto.
  - unfold sbind at 1 in H. destruct (read_elem K' cfg i (c, r)) as [[c1 r1] [a|x| |]] eqn:E1; try discriminate.
    unfold sbind at 1 in H. destruct (read_elems K' cfg (S i) n (c1, r1)) as [[c2 r2] [es'|x| |]] eqn:E2; try discriminate.
    unfold sret in H. injection H as <- <- <-. cbn [write_elems]. unfold sbind at 1.
    assert (X : exists w1, write_elem K cfg i a (d, w) = ((d, w1), Ok tt) /\ R w1 r1).
    { unfold read_elem in E1. unfold write_elem. rewrite Hp, Hc in *. unfold sbind, sret in *. unfold on_stream in E1 |- *. unfold signore.
      destruct (k_read K' i r) as [r3 o] eqn:Ek. injection E1 as <- <- ->.
      destruct (HK i _ _ _ Ek w Hw) as (w1 & -> & Q). exists w1. auto. }
    destruct X as (w1 & -> & X2). exact (IH _ _ _ _ _ _ E2 d w1 X2).
Qed.

Lemma follows_array : forall {A N} R (K K' : elemops A N) cfg, a_packed cfg = false -> a_check cfg = false ->
  (a_auto cfg = true -> follows R ReadVarsize WriteVarsize) ->
  (forall i, follows R (k_read K' i) (k_write K i)) -> follows R (read_array K' cfg) (write_array K cfg).
Proof.
  intros A N R K K' cfg Hp Hck HV HK r r' es H w Hw. pose proof (yields_array _ _ Hp _ _ _ H) as [Q _].
  unfold read_array, write_array, with_ctx in *.
  destruct (array_unmarshal K' cfg (None, r)) as [[c r1] o] eqn:E. injection H as <- ->.
  assert (X : exists w', array_marshal K cfg es (None, w) = ((None, w'), Ok tt) /\ R w' r1).
  { unfold array_unmarshal in E. unfold array_marshal. unfold sbind at 1 in E. unfold sbind at 1.
    assert (Y : exists n w0 r0, (if a_auto cfg then on_stream (WriteVarsize (u64 (Z.of_nat (length es)))) else sret tt) (@None N, w) = ((None, w0), Ok tt) /\
      (if a_auto cfg then on_stream (rbind ReadVarsize (fun v => rret (i64 v))) else sret (a_fixed cfg)) (@None N, r) = ((None, r0), Ok n) /\
      R w0 r0 /\ n = Z.of_nat (length es)).
    { destruct (a_auto cfg) eqn:Ea.
      - unfold on_stream, rbind, rret in *. destruct (ReadVarsize r) as [r0 [v|x| |]] eqn:Ev; try discriminate.
        pose proof (ReadVarsize_range _ _ _ Ev) as B. assert (Hi : i64 v = v) by (unfold i64; rewrite to_s_small; unfold MaxVarsize in *; lia).
        assert (Hn : Z.of_nat (length es) = v).
        { rewrite Hi in E. destruct (v <? 0) eqn:Ev0; [discriminate|]. destruct (Z.eqb_spec v 0) as [->|Hv].
          - unfold sret in E. injection E as _ _ <-. reflexivity.
          - rewrite Hp in E. unfold sbind, sret in E. apply read_elems_length in E. lia. }
        destruct (HV eq_refl _ _ _ Ev w Hw) as (w0 & E0 & R0).
        exists v, w0, r0. rewrite Hn, Hi.
        replace (u64 v) with v by (unfold u64; rewrite to_u_small; unfold MaxVarsize in *; lia). rewrite E0. auto.
      - exists (a_fixed cfg), w, r. unfold sret. auto. }
    destruct Y as (n & w0 & r0 & -> & Y2 & Y3 & ->). rewrite Y2 in E. cbv iota beta in E.
    destruct (Z.of_nat (length es) <? 0) eqn:E0; [discriminate|]. destruct (Z.eqb_spec (Z.of_nat (length es)) 0) as [El|El].
    - unfold sret in E. injection E as _ <- _. destruct es; [|cbn in El; lia]. exists w0. cbn. auto.
    - rewrite Hp in *. unfold sbind, sret in E. unfold sbind, sret. destruct es as [|e es]; [cbn in El; lia|].
      exact (follows_elems R K K' cfg Hp Hck HK _ _ _ _ _ _ _ E None w0 Y3). }
  destruct X as (w' & -> & X). exists w'. auto.
Qed.

(** ** Fields *)

Lemma follows_bind : forall {A B} R (m : reader A) (f : A -> reader B) (wa : writer unit) (wb : B -> writer unit),
  follows R m (fun _ => wa) -> (forall a, follows R (f a) wb) -> follows R (rbind m f) (fun b => wa ;;w wb b).
Proof.
  intros A B R m f wa wb Hm Hf r r' b H w Hw. unfold rbind in H. destruct (m r) as [r1 [a|e| |]] eqn:E; try discriminate.
  destruct (Hm _ _ _ E w Hw) as (w1 & E1 & H1). unfold wbind. rewrite E1. exact (Hf a _ _ _ H w1 H1).
Qed.

Lemma follows_field : forall R P V A M (I : nat -> list value -> Prop) E E' f, keeps R P V A -> agree f E E' ->
  (forall id ps, I id ps -> follows R (m_unmarshal M id ps) (m_marshal M id ps)) ->
  regular_field I E' f -> ~ packed_array f ->
  A (f_align f) -> (forall packed, f_array f = Some (None, packed) -> V) ->
  (forall t, f_type f = TBasic t -> forall b, builtin_of E' t = Some b -> P b) ->
  follows R (read_field M E' f) (write_field M E f).
Proof.
  intros R P V A M I E E' f HK (A1 & A2 & A3) HM [_ Hf] Hp Hal Hauto Hty.
  assert (C : follows R (read_content M E' f) (write_content M E f)).
  { unfold read_content, write_content. destruct (f_array f) as [[len packed]|] eqn:Ea.
    - assert (packed = false) by (destruct packed; [exfalso; apply Hp; exists len; exact Ea|reflexivity]). subst packed.
      assert (G : array_config E len false = array_config E' len false).
      { destruct len as [l|]; cbn [array_config]; [now rewrite A3|reflexivity]. }
      assert (P0 : forall cfg, array_config E' len false = Some cfg -> a_packed cfg = false /\ a_check cfg = false /\
        (a_auto cfg = true -> follows R ReadVarsize WriteVarsize)).
      { intros cfg Hc. destruct len as [l|]; cbn [array_config] in *; [destruct (l E'); [|discriminate]|]; injection Hc as <-; cbn; repeat split; try discriminate.
        intros _. apply (keep_size _ _ _ _ HK). eapply Hauto. reflexivity. }
      assert (K : forall (cfg : acfg) (es : list value),
        (if a_auto cfg then Z.of_nat (length es) <= MaxVarsize else a_fixed cfg = Z.of_nat (length es)) ->
        negb (a_auto cfg) && negb (a_fixed cfg =? Z.of_nat (length es)) = false).
      { intros cfg es Q. destruct (a_auto cfg); cbn [negb andb]; [reflexivity|]. rewrite Q, Z.eqb_refl. reflexivity. }
      intros r r' v H w Hw. unfold rbind, read_field_array in H. destruct (f_type f) as [t|id args] eqn:Et.
      + destruct (codec_of E' t) as [T|x| |] eqn:Ec; try discriminate. destruct (array_config E' len false) as [cfg|] eqn:Eg; [|discriminate].
        destruct (P0 cfg eq_refl) as (P1 & P2 & P3).
        destruct (read_array (trait_ops T) cfg r) as [r1 [es|x| |]] eqn:Er; try discriminate.
        unfold rret in H. injection H as <- <-. pose proof (yields_array _ _ P1 _ _ _ Er) as [Q _].
        unfold write_field_array. rewrite G, Et. rewrite <- (codec_of_same E E' t A2), Ec, (K _ _ Q).
        refine (follows_array R (trait_ops T) (trait_ops T) cfg P1 P2 P3 _ _ _ _ Er w Hw). intros i. cbn [k_read k_write trait_ops].
        assert (W : exists b, wf_builtin b /\ P b /\ T = vtraits b).
        { destruct t as [b|signed g n]; cbn [codec_of] in Ec.
          - injection Ec as <-. exists b. split; [exact (Hf b eq_refl)|]. split; [exact (Hty _ eq_refl b eq_refl)|reflexivity].
          - unfold wf_basic in Hf. specialize (Hty _ eq_refl). cbn [builtin_of] in Hf, Hty. destruct (n E') as [k|]; [|discriminate]. cbv zeta in Ec.
            destruct (64 <=? to_u 8 k); [discriminate|]. injection Ec as <-. eexists.
            split; [exact (Hf _ eq_refl)|]. split; [exact (Hty _ eq_refl)|reflexivity]. }
        destruct W as (b & Wb & Pb & ->). exact (keep_element _ _ _ _ HK b Wb Pb).
      + destruct (array_config E' len false) as [cfg|] eqn:Eg; [|discriminate]. destruct (P0 cfg eq_refl) as (P1 & P2 & P3).
        destruct (read_array (object_ops M E' id args) cfg r) as [r1 [es|x| |]] eqn:Er; try discriminate.
        unfold rret in H. injection H as <- <-. pose proof (yields_array _ _ P1 _ _ _ Er) as [Q Q2].
        unfold write_field_array. rewrite G, Et, (K _ _ Q). cbn [same_type] in A2.
        assert (Hargs : arguments_ok E args (length es) = true).
        { apply forallb_forall. intros i Hi. apply in_seq in Hi. destruct (nth_error es i) as [e|] eqn:Ei; [|apply nth_error_None in Ei; lia].
          destruct (Q2 i e Ei) as (s1 & s2 & Hr). cbn [k_read object_ops] in Hr. rewrite A2. destruct (args E' i); [reflexivity|discriminate]. }
        rewrite Hargs.
        refine (follows_array R (object_ops M E id args) (object_ops M E' id args) cfg P1 P2 P3 _ _ _ _ Er w Hw).
        intros i. cbn [k_read k_write object_ops]. rewrite A2. destruct (args E' i) as [ps|] eqn:Ei; [|intros s s' a X; discriminate].
        exact (HM id ps (Hf i ps Ei)).
    - destruct (f_type f) as [t|id args].
      + assert (X : forall v, write_basic E t v = write_basic E' t v) by (intros v; destruct t; cbn in *; [reflexivity|now rewrite A2]).
        intros r r' v H w. rewrite X. revert w. exact (keep_basic _ _ _ _ HK E' t Hf (Hty t eq_refl) _ _ _ H).
      + cbn [same_type] in A2. intros r r' v H w Hw. rewrite A2. destruct (args E' 0%nat) as [ps|] eqn:Ei; [|discriminate].
        exact (HM id ps (Hf _ ps Ei) _ _ _ H w Hw). }
  unfold read_field, write_field. rewrite A1. destruct (included E' f) as [[|]|]; [| |intros r r' s H; discriminate].
  2: { intros r r' s H w Hw. unfold rret in H. injection H as <- _. exists w. auto. }
  apply (follows_bind R (ralign_opt (f_align f)) _ (walign_opt (f_align f)) _ (keep_align _ _ _ _ HK _ Hal)). intros _. destruct (f_optional f).
  - intros r r' s H w Hw. unfold rbind at 1 in H. destruct (ReadBool r) as [r1 [p|x| |]] eqn:Eb; try discriminate.
    destruct (keep_bool _ _ _ _ HK _ _ _ Eb w Hw) as (w1 & B1 & B2). destruct p.
    + unfold rbind in H. destruct (read_content M E' f r1) as [r2 [v|x| |]] eqn:Ev; try discriminate.
      unfold rret in H. injection H as <- <-. cbn [is_some]. unfold wbind. rewrite B1. exact (C _ _ _ Ev w1 B2).
    + unfold rret in H. injection H as <- <-. cbn [is_some]. unfold wbind. rewrite B1. exists w1. auto.
  - intros r r' s H w Hw. unfold rbind in H. destruct (read_content M E' f r) as [r2 [v|x| |]] eqn:Ev; try discriminate.
    unfold rret in H. injection H as <- <-. exact (C _ _ _ Ev w Hw).
Qed.

(** ** Objects *)

Lemma follows_fields : forall R M ps fs done r r' slots, read_fields M ps done fs r = (r', Ok slots) ->
  (forall k f, nth_error fs k = Some f ->
    follows R (read_field M (mkE ps (before (length done + k) slots)) f) (write_field M (mkE ps slots) f)) ->
  forall w, R w r -> exists w', write_fields M (mkE ps slots) (length done) fs w = (w', Ok tt) /\ R w' r'.
Proof.
  intros R M ps. induction fs as [|f fs IH]; intros done r r' slots H HF w Hw; cbn [read_fields write_fields] in *.
  - unfold rret in H. injection H as <- _. exists w. auto.
  - unfold rbind in H. destruct (read_field M _ f r) as [r1 [s|x| |]] eqn:E; try discriminate.
    destruct (read_fields_inv _ _ _ _ _ _ _ H) as (H1 & H2 & _). rewrite app_length in *. cbn [length] in *.
    assert (Hd : firstn (length done) slots = done).
    { replace (length done) with (Nat.min (length done) (length done + 1)) at 1 by lia.
      rewrite <- firstn_firstn, H2, firstn_app, firstn_all, Nat.sub_diag. cbn. apply app_nil_r. }
    assert (Hs : nth_slot (length done) slots = s).
    { rewrite <- (firstn_skipn (length done + 1) slots), H2. unfold nth_slot.
      rewrite <- app_assoc, app_nth2, Nat.sub_diag by lia. reflexivity. }
    pose proof (HF 0%nat f eq_refl) as F0. rewrite Nat.add_0_r in F0. unfold before in F0. rewrite Hd, H1 in F0.
    replace (length done + 1 + length fs - length done)%nat with (Datatypes.S (length fs)) in F0 by lia.
    destruct (F0 _ _ _ E w Hw) as (w1 & E1 & Hw1). unfold wbind. cbn [e_slots]. rewrite Hs, E1.
    specialize (IH (done ++ [s]) _ _ _ H). rewrite app_length in IH. cbn [length] in IH.
    replace (Datatypes.S (length done)) with (length done + 1)%nat by lia. apply IH; [|exact Hw1].
    intros k g Hk. specialize (HF (Datatypes.S k) g Hk). now replace (length done + 1 + k)%nat with (length done + Datatypes.S k)%nat by lia.
Qed.

Theorem decode_follows : forall R P V A S I, keeps R P V A -> uses_only P V A S ->
  causal S -> regular S I -> no_packed_arrays S ->
  forall fuel id ps, I id ps -> follows R (UnmarshalZserio S fuel id ps) (MarshalZserio S fuel id ps).
Proof.
  intros R P V A S I HK (Uscalar & Uunion & Ufield) Hcausal [Hscalar Hfields] Hpacked.
  induction fuel as [|fuel IH]; intros id ps HI r r' v H w Hw; [discriminate H|].
  assert (HF : forall d i f slots, nth_error S id = Some d -> nth_error (fields_of d) i = Some f -> (i < length slots)%nat ->
    follows R (read_field (run S fuel) (mkE ps (before i slots)) f) (write_field (run S fuel) (mkE ps slots) f)).
  { intros d i f slots Hd Hf Hi. pose proof (nth_error_In _ _ Hf) as Hin. destruct (Ufield id d f Hd Hin) as (U1 & U2 & U3).
    apply (follows_field R P V A _ I); auto.
    - exact (Hcausal id d i f Hd Hf ps slots Hi).
    - exact (Hfields id d f (mkE ps (before i slots)) Hd Hin HI).
    - exact (Hpacked id d f Hd Hin).
    - intros t Ht. exact (U3 t Ht _). }
  unfold UnmarshalZserio, MarshalZserio in *. cbn [run m_unmarshal m_marshal] in *. unfold of_def in *.
  destruct (nth_error S id) as [d|] eqn:Hd; [|discriminate].
  destruct d as [t|fs|selector cases default|fs]; cbn [unmarshal_def marshal_def] in *.
  - refine (keep_basic _ _ _ _ HK _ t _ _ _ _ _ H w Hw); intros b; [exact (Hscalar id t b Hd)|exact (Uscalar id t b Hd)].
  - unfold rbind in H. destruct (read_fields (run S fuel) ps [] fs r) as [r1 [slots|x| |]] eqn:E; try discriminate.
    unfold rret in H. injection H as <- <-. refine (follows_fields R _ _ _ [] _ _ _ E _ w Hw).
    destruct (read_fields_inv _ _ _ _ _ _ _ E) as (Ls & _ & _). cbn [length Nat.add] in *.
    intros k f Hk. apply (HF _ k f slots eq_refl Hk). rewrite Ls. apply nth_error_Some. congruence.
  - destruct (selector ps) as [sel|] eqn:Es; [|discriminate].
    destruct (select sel 0 cases default) as [[i f]|] eqn:Esel.
    + unfold rbind in H. match type of H with context [read_field ?M ?E f r] => destruct (read_field M E f r) as [r1 [s|x| |]] eqn:Er end; try discriminate.
      unfold rret in H. injection H as <- <-. set (n := length (choice_fields cases default)) in *.
      pose proof (SchemaObjects.select_nth _ _ _ _ _ Esel) as Hf.
      assert (i < n)%nat by (apply nth_error_Some; congruence). rewrite only_at by assumption.
      refine (HF _ i f (only n i s) eq_refl Hf _ _ _ _ _ w Hw); [now rewrite only_length|].
      rewrite only_field_before, only_length; [exact Er|apply only_field_only|now rewrite only_length].
    + unfold rret in H. injection H as <- <-. exists w. auto.
  - unfold rbind at 1 in H. destruct (ReadVarsize r) as [r1 [tag|x| |]] eqn:Et; try discriminate.
    destruct (keep_size _ _ _ _ HK (Uunion id fs Hd) _ _ _ Et w Hw) as (w1 & E1 & Hw1).
    destruct (if tag <? 1 then None else nth_error fs (Z.to_nat (tag - 1))) as [f|] eqn:Ef.
    + unfold rbind in H. match type of H with context [read_field ?M ?E f r1] => destruct (read_field M E f r1) as [r2 [s|x| |]] eqn:Er end; try discriminate.
      unfold rret in H. injection H as <- <-. set (n := length fs) in *. set (i := Z.to_nat (tag - 1)) in *.
      assert (Hf : nth_error fs i = Some f) by (destruct (tag <? 1); [discriminate|exact Ef]).
      assert (i < n)%nat by (apply nth_error_Some; congruence). unfold wbind. rewrite E1, Ef, only_at by assumption.
      refine (HF _ i f (only n i s) eq_refl Hf _ _ _ _ _ w1 Hw1); [now rewrite only_length|].
      rewrite only_field_before, only_length; [exact Er|apply only_field_only|now rewrite only_length].
    + unfold rret in H. injection H as <- <-. unfold wbind. rewrite E1, Ef. exists w1. auto.
Qed.
