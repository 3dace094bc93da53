(** Truncation of generated decoders. *)

Require Import ZArith List Bool Lia ZifyBool ZifyNat.
From Verif Require Import Bits BitsFacts Stream StreamFacts Scalars FixedFacts Spec PrefixFacts Float16 Float16Facts
  Traits TraitSpec Delta Array Schema SchemaSpec DecodeSpec.
Import ListNotations.
Open Scope Z_scope.
Open Scope io_scope.

(** ** Builtin readers *)

Ltac pd := repeat first
  [ apply pd_ret | apply pd_err | apply pd_panic | apply pd_ReadVarsize | apply pd_ReadSignedBits
  | apply pd_ReadString | apply pd_ReadBytes | apply pd_ReadExtern | apply pd_ReadFloat16
  | apply pd_read_varuint | apply pd_read_varint_from | apply pd_read_full; lia
  | apply pd_read_bits | apply pd_if | apply pd_bind; [|intros] ].
Ltac np := repeat first
  [ apply np_ret | apply np_err | apply np_ReadVarsize | apply np_ReadSignedBits; lia
  | apply np_ReadString | apply np_ReadBytes | apply np_ReadExtern | apply np_ReadFloat16
  | apply np_read_varuint | apply np_read_varint_from | apply np_read_full
  | apply np_read_bits | apply np_if | apply np_bind; [|intros] ].

Lemma pd_t_read : forall b, prefix_determined (t_read (traits_of b)).
Proof. destruct b; pd. Qed.

Lemma pd_std_read : forall b, prefix_determined (std_read b).
Proof. destruct b; try apply pd_t_read; pd. Qed.

Lemma np_t_read : forall b, never_panics (t_read (traits_of b)).
Proof. destruct b; np. Qed.

Lemma wf_width : forall b, wf_builtin b ->
  match b with BBits _ n | BSBits _ n => 1 <= n <= 64 | _ => True end.
Proof.
  destruct b as [| | | | | | | | | | | | | | | |[w|w] n|[w|w] n]; cbn; auto; unfold go_width; lia.
Qed.

Lemma np_std_read : forall b, wf_builtin b -> never_panics (std_read b).
Proof. intros b H. apply wf_width in H. destruct b; try apply np_t_read; np. Qed.

Lemma pd_read_basic : forall E t, prefix_determined (read_basic E t).
Proof.
  intros E [b|signed g w]; unfold read_basic.
  - apply pd_bind; [apply pd_std_read|intros; apply pd_ret].
  - destruct (w E); [|apply pd_panic]. destruct signed; pd.
Qed.

Lemma pd_vtraits : forall b, prefix_determined (t_read (vtraits b)).
Proof. intros. apply pd_bind; [apply pd_t_read|intros; apply pd_ret]. Qed.

(** A reader that needs [k] bits. *)
Definition needs {A} (k : nat) (m : reader A) : Prop :=
  forall r, (length (rrem r) < k)%nat -> exists r' e, m r = (r', Err e).

Lemma needs_bits : forall k n, (k <= n)%nat -> needs k (read_bits n).
Proof.
  intros k n H r L. unfold read_bits. replace (n <=? length (rrem r))%nat with false by lia. eauto.
Qed.

Lemma needs_bind : forall {A B} k (m : reader A) (f : A -> reader B), needs k m -> needs k (rbind m f).
Proof. intros A B k m f H r L. unfold rbind. destruct (H r L) as (r' & e & ->). eauto. Qed.

Ltac needs := repeat first [ apply needs_bits; lia | apply needs_bind ].

Lemma needs_full : forall k n, Z.of_nat k <= 8 * n -> needs k (read_full n).
Proof.
  intros k n H r L. unfold read_full. replace (8 * n <=? Z.of_nat (length (rrem r))) with false by lia. eauto.
Qed.

Lemma needs_t_read : forall b, wide (Std b) -> needs 6 (t_read (traits_of b)).
Proof.
  destruct b; cbn [wide]; intros H; try contradiction; repeat first [apply needs_bits; lia|apply needs_full; lia|apply needs_bind].
Qed.

Lemma codec_pd : forall E t T, codec_of E t = Ok T -> prefix_determined (t_read T) /\ (wide t -> needs 6 (t_read T)).
Proof.
  intros E t T H. assert (V : exists b, T = vtraits b /\ (wide t -> wide (Std b))).
  { destruct t as [b|signed g w]; cbn [codec_of] in H.
    - injection H as <-. eauto.
    - cbv zeta in H. destruct (w E) as [n|] eqn:Ew; [|discriminate]. destruct (64 <=? to_u 8 n); [discriminate|].
      injection H as <-. eexists. split; [reflexivity|]. intros W. specialize (W E n Ew).
      destruct signed; exact W. }
  destruct V as (b & -> & W). split; [apply pd_vtraits|]. intros H1. apply needs_bind, needs_t_read, W, H1.
Qed.

(** ** Readers with a context *)

(** [prefix_determined] for computations with a context beside the reader. *)
Definition ppd {C A} (m : prog (C * rst) A) : Prop :=
  forall c0 pos rem c1 r' a, m (c0, mkR pos rem) = ((c1, r'), Ok a) ->
  exists c, rem = c ++ rrem r' /\ rpos r' = (pos + length c)%nat /\
    (forall rest, m (c0, mkR pos (c ++ rest)) = ((c1, mkR (pos + length c) rest), Ok a)) /\
    (forall short, cut_of short c -> exists s e, m (c0, mkR pos short) = (s, Err e)).

Lemma ppd_ret : forall {C A} (a : A), ppd (@sret (C * rst) A a).
Proof.
  intros C A a c0 pos rem c1 r' a' H. unfold sret in H. injection H as <- <- <-.
  exists []. cbn. refine (conj eq_refl (conj _ (conj _ _))); [lia| |].
  - intros. unfold sret. now rewrite Nat.add_0_r.
  - intros s Hs. now apply cut_of_nil in Hs.
Qed.

Lemma ppd_fail : forall {C A} (m : prog (C * rst) A), (forall s a, snd (m s) <> Ok a) -> ppd m.
Proof. intros C A m H c0 pos rem c1 r' a E. exfalso. apply (H (c0, mkR pos rem) a). now rewrite E. Qed.

Lemma ppd_bind : forall {C A B} (m : prog (C * rst) A) (f : A -> prog (C * rst) B),
  ppd m -> (forall a, ppd (f a)) -> ppd (sbind m f).
Proof.
  intros C A B m f Hm Hf c0 pos rem c2 r' b H. unfold sbind in H.
  destruct (m (c0, mkR pos rem)) as [[c1 [p1 rem1]] [a|e| |]] eqn:E1; try discriminate.
  destruct (Hm _ _ _ _ _ _ E1) as (d1 & -> & Hp1 & Hall1 & Hcut1).
  cbn [rpos rrem] in *. subst p1.
  destruct (Hf a _ _ _ _ _ _ H) as (d2 & -> & Hp2 & Hall2 & Hcut2).
  exists (d1 ++ d2). split; [now rewrite app_assoc|].
  split; [rewrite app_length; lia|]. split.
  - intros rest. unfold sbind. rewrite <- app_assoc, Hall1, Hall2.
    rewrite app_length. do 3 f_equal. lia.
  - intros s Hs. unfold sbind. destruct (cut_of_app _ _ _ Hs) as [Hs1|(s2 & -> & Hs2)].
    + destruct (Hcut1 _ Hs1) as (r & e & ->). eauto.
    + rewrite Hall1. destruct (Hcut2 _ Hs2) as (r & e & ->). eauto.
Qed.

Lemma ppd_stream : forall {C A} (m : reader A), prefix_determined m -> ppd (@on_stream C rst A m).
Proof.
  intros C A m Hm c0 pos rem c1 r' a H. unfold on_stream in H.
  destruct (m (mkR pos rem)) as [r1 o] eqn:E. injection H as <- <- ->.
  destruct (Hm _ _ _ _ E) as (c & -> & Hp & Hall & Hcut).
  exists c. refine (conj eq_refl (conj Hp (conj _ _))).
  - intros rest. unfold on_stream. now rewrite Hall.
  - intros s Hs. unfold on_stream. destruct (Hcut s Hs) as (r & e & ->). eauto.
Qed.

Lemma ppd_on_ctx : forall {C} (f : C -> C), ppd (@on_ctx C rst f).
Proof.
  intros C f c0 pos rem c1 r' a H. unfold on_ctx in H. injection H as <- <- <-.
  exists []. cbn. refine (conj eq_refl (conj _ (conj _ _))); [lia| |].
  - intros. now rewrite Nat.add_0_r.
  - intros s Hs. now apply cut_of_nil in Hs.
Qed.

Lemma ppd_get : forall {C A} (f : C -> prog (C * rst) A), (forall c, ppd (f c)) -> ppd (sbind get_ctx f).
Proof. intros C A f H c0 pos rem c1 r' a E. cbn in E. exact (H c0 _ _ _ _ _ _ E). Qed.

(** The same results, except that both may be errors. *)
Definition similar {S A} (m m' : prog S A) : Prop :=
  forall s, m s = m' s \/ (exists x e y e', m s = (x, Err e) /\ m' s = (y, Err e')).

Lemma ppd_similar : forall {C A} (m m' : prog (C * rst) A), similar m m' -> ppd m' -> ppd m.
Proof.
  intros C A m m' E H c0 pos rem c1 r' a Hm.
  assert (T : forall s x b, m s = (x, Ok b) <-> m' s = (x, Ok b)).
  { intros s x b. destruct (E s) as [->|(? & ? & ? & ? & -> & ->)]; [tauto|]. split; discriminate. }
  apply T in Hm. destruct (H _ _ _ _ _ _ Hm) as (c & -> & Hp & Hall & Hcut).
  exists c. refine (conj eq_refl (conj Hp (conj _ _))).
  - intros rest. apply T. apply Hall.
  - intros s Hs. destruct (Hcut s Hs) as (x & e & Hx).
    destruct (E (c0, mkR pos s)) as [->|(? & ? & ? & ? & -> & _)]; eauto.
Qed.

Lemma ppd_child : forall {A} i (m : prog (node * rst) A), ppd m -> ppd (on_child i m).
Proof.
  intros A i m Hm [o ch] pos rem c1 r' a H. unfold on_child in H.
  destruct (nth_error ch i) as [nd|] eqn:En; [|discriminate].
  destruct (m (nd, mkR pos rem)) as [[n1 r1] o1] eqn:E. injection H as <- <- ->.
  destruct (Hm _ _ _ _ _ _ E) as (c & -> & Hp & Hall & Hcut).
  exists c. refine (conj eq_refl (conj Hp (conj _ _))).
  - intros rest. unfold on_child. now rewrite En, Hall.
  - intros s Hs. unfold on_child. rewrite En. destruct (Hcut s Hs) as ([x y] & e & ->). eauto.
Qed.

Lemma ppd_delta : forall {A} (m : prog (dctx * rst) A), ppd m -> ppd (on_delta m).
Proof.
  intros A m Hm [[d|] ch] pos rem c1 r' a H; [|discriminate]. unfold on_delta in H.
  destruct (m (d, mkR pos rem)) as [[n1 r1] o1] eqn:E. injection H as <- <- ->.
  destruct (Hm _ _ _ _ _ _ E) as (c & -> & Hp & Hall & Hcut).
  exists c. refine (conj eq_refl (conj Hp (conj _ _))).
  - intros rest. unfold on_delta. now rewrite Hall.
  - intros s Hs. unfold on_delta. destruct (Hcut s Hs) as ([x y] & e & ->). eauto.
Qed.

Lemma ppd_packed : forall {N A} (m : prog (N * rst) A), ppd m -> ppd (on_packed m).
Proof.
  intros N A m Hm [d|] pos rem c1 r' a H; [|discriminate]. unfold on_packed in H.
  destruct (m (d, mkR pos rem)) as [[n1 r1] o1] eqn:E. injection H as <- <- ->.
  destruct (Hm _ _ _ _ _ _ E) as (c & -> & Hp & Hall & Hcut).
  exists c. refine (conj eq_refl (conj Hp (conj _ _))).
  - intros rest. unfold on_packed. now rewrite Hall.
  - intros s Hs. unfold on_packed. destruct (Hcut s Hs) as ([x y] & e & ->). eauto.
Qed.

Lemma pd_with_ctx : forall {C A} c0 (m : prog (C * rst) A), ppd m -> prefix_determined (with_ctx c0 m).
Proof.
  intros C A c0 m Hm pos rem r' a H. unfold with_ctx in H.
  destruct (m (c0, mkR pos rem)) as [[c1 r1] o1] eqn:E. injection H as <- ->.
  destruct (Hm _ _ _ _ _ _ E) as (c & -> & Hp & Hall & Hcut).
  exists c. refine (conj eq_refl (conj Hp (conj _ _))).
  - intros rest. unfold with_ctx. now rewrite Hall.
  - intros s Hs. unfold with_ctx. destruct (Hcut s Hs) as ([x y] & e & ->). eauto.
Qed.

(** ** Delta contexts *)

Open Scope prog_scope.

Lemma ppd_descriptor : ppd ReadDescriptor.
Proof.
  apply (ppd_similar _ (b <-s on_stream read_bool;
    if (b : bool) then on_ctx (set_packed true) ;;s m <-s on_stream (read_bits (Z.to_nat maxBitNumberBits)); on_ctx (set_max m)
    else on_ctx (set_packed false))).
  - intros [c r]. unfold ReadDescriptor, sbind, on_stream, on_ctx.
    destruct (read_bool r) as [r1 [[|]|e| |]] eqn:E1.
    + destruct (read_bits _ r1) as [r2 [m|e| |]] eqn:E2.
      * now left.
      * right. repeat eexists.
      * pose proof (np_read_bits (Z.to_nat maxBitNumberBits) r1) as N. rewrite E2 in N.
        destruct N as [[? N]|[? N]]; discriminate N.
      * pose proof (np_read_bits (Z.to_nat maxBitNumberBits) r1) as N. rewrite E2 in N.
        destruct N as [[? N]|[? N]]; discriminate N.
    + now left.
    + right. repeat eexists.
    + pose proof (np_read_bool r) as N. rewrite E1 in N. destruct N as [[? N]|[? N]]; discriminate N.
    + pose proof (np_read_bool r) as N. rewrite E1 in N. destruct N as [[? N]|[? N]]; discriminate N.
  - apply ppd_bind; [apply ppd_stream, pd_read_bool|]. intros [|]; [|apply ppd_on_ctx].
    apply ppd_bind; [apply ppd_on_ctx|intros _].
    apply ppd_bind; [apply ppd_stream, pd_read_bits|intros; apply ppd_on_ctx].
Qed.

Lemma ppd_readUnpacked : forall {A} (T : traits A), prefix_determined (t_read T) -> ppd (readUnpacked T).
Proof.
  intros A T H. apply ppd_bind; [now apply ppd_stream|intros e].
  apply ppd_bind; [apply ppd_on_ctx|intros; apply ppd_ret].
Qed.

(** After a failed descriptor a codec that needs six bits fails as well. *)
Lemma descriptor_error : forall c r x e, ReadDescriptor (c, r) = (x, Err e) -> (length (rrem (snd x)) < 6)%nat.
Proof.
  intros c r x e H. unfold ReadDescriptor, read_bool, rbind in H.
  unfold read_bits at 1 in H. destruct (Nat.leb_spec 1 (length (rrem r))) as [L|L].
  - cbn [rret] in H. unfold rret in H. destruct (negb _); [|discriminate].
    unfold read_bits in H. cbn [rrem rpos] in H. change (Z.to_nat maxBitNumberBits) with 6%nat in H.
    revert H. generalize (skipn 1 (rrem r)) as l. intros l H.
    destruct (Nat.leb_spec 6 (length l)) as [L1|L1]; [discriminate|].
    injection H as <- _. cbn [snd rrem]. unfold failed_rest.
    assert (M : (length l mod 8 < 6)%nat) by (rewrite Nat.mod_small; lia).
    destruct (_ <=? _)%nat; [rewrite repeat_length|rewrite firstn_length]; lia.
  - injection H as <- _. cbn [snd rrem]. unfold failed_rest.
    assert (M : (length (rrem r) = 0)%nat) by lia. rewrite M.
    destruct (_ <=? _)%nat; [rewrite repeat_length|rewrite firstn_length]; cbn; lia.
Qed.

Lemma ppd_d_read : forall {A} (T : traits A), prefix_determined (t_read T) -> needs 6 (t_read T) -> ppd (d_read T).
Proof.
  intros A T H W. unfold d_read. apply ppd_get. intros c.
  destruct (negb (d_started c)); [|destruct (negb (d_packed c)); [now apply ppd_readUnpacked|]].
  - apply ppd_bind; [apply ppd_on_ctx|intros _].
    apply (ppd_similar _ (ReadDescriptor ;;s readUnpacked T)).
    + intros [c1 r]. unfold sbind, signore.
      destruct (ReadDescriptor (c1, r)) as [x [?|e| |]] eqn:E; auto.
      right. apply descriptor_error in E. destruct x as [c2 r2]. cbn [snd] in E.
      destruct (W r2 E) as (r3 & e3 & E3). 
      exists (c2, r3), e3, (c2, r2), e. split; [|reflexivity].
      unfold readUnpacked, sbind, on_stream. now rewrite E3.
    + apply ppd_bind; [apply ppd_descriptor|intros; now apply ppd_readUnpacked].
  - destruct (0 <? d_max c).
    + apply ppd_bind; [apply ppd_stream, pd_ReadSignedBits|intros delta].
      destruct (d_prev c); [|apply ppd_fail; discriminate].
      apply ppd_bind; [apply ppd_on_ctx|intros; apply ppd_ret].
    + destruct (d_prev c); [apply ppd_ret|apply ppd_fail; discriminate].
Qed.

(** ** Arrays *)

Lemma ppd_if : forall {C A} (b : bool) (m1 m2 : prog (C * rst) A), ppd m1 -> ppd m2 -> ppd (if b then m1 else m2).
Proof. intros C A [|]; auto. Qed.

Lemma pd_ralign : forall n, prefix_determined (ralign n).
Proof.
  intros n pos rem r' a H. unfold ralign in *. destruct (n =? 0)%nat; [discriminate|].
  cbn [rpos] in *. destruct (discard pos n =? 0)%nat eqn:Ed.
  - injection H as <- <-. exists []. cbn. refine (conj eq_refl (conj _ (conj _ _))); [lia| |].
    + intros. now rewrite Nat.add_0_r.
    + intros s Hs. now apply cut_of_nil in Hs.
  - set (k := discard pos n) in *.
    assert (P : prefix_determined (rbind (read_bits k) (fun _ r' => (r', Ok (pos + k)%nat)))).
    { apply pd_bind; [apply pd_read_bits|intros; apply pd_ret]. }
    assert (Q : forall rem, rbind (read_bits k) (fun _ r' => (r', Ok (rpos r'))) (mkR pos rem) =
      rbind (read_bits k) (fun _ r' => (r', Ok (pos + k)%nat)) (mkR pos rem)).
    { intros rem0. unfold rbind, read_bits. cbn [rpos rrem]. destruct (_ <=? _)%nat; reflexivity. }
    rewrite Q in H. destruct (P _ _ _ _ H) as (c & -> & Hp & Hall & Hcut).
    exists c. refine (conj eq_refl (conj Hp (conj _ _))).
    + intros rest. rewrite Q. apply Hall.
    + intros s Hs. rewrite Q. now apply Hcut.
Qed.

Lemma pd_ralign_opt : forall n, prefix_determined (ralign_opt n).
Proof. intros. apply pd_if; [apply pd_ret|]. apply pd_bind; [apply pd_ralign|intros; apply pd_ret]. Qed.

Lemma ppd_new_context : forall {A N} (K : elemops A N), ppd (@new_context A N rst K).
Proof.
  intros A N K c0 pos rem c1 r' a H. unfold new_context in *. destruct (k_create K) as [n|e| |]; try discriminate.
  injection H as <- <- <-. exists []. cbn. refine (conj eq_refl (conj _ (conj _ _))); [lia| |].
  - intros. now rewrite Nat.add_0_r.
  - intros s Hs. now apply cut_of_nil in Hs.
Qed.

Lemma pd_read_array : forall {A N} (K : elemops A N) cfg,
  (a_packed cfg = false -> forall i, prefix_determined (k_read K i)) ->
  (a_packed cfg = true -> forall i, ppd (k_pread K i)) ->
  prefix_determined (read_array K cfg).
Proof.
  intros A N K cfg H1 H2. apply pd_with_ctx. unfold array_unmarshal.
  apply ppd_bind.
  - apply ppd_if; [|apply ppd_ret]. apply ppd_stream. apply pd_bind; [apply pd_ReadVarsize|intros; apply pd_ret].
  - intros size. apply ppd_if; [apply ppd_fail; discriminate|]. apply ppd_if; [apply ppd_ret|].
    apply ppd_bind; [apply ppd_if; [apply ppd_new_context|apply ppd_ret]|intros _].
    generalize (Z.to_nat size) as n, 0%nat as i. induction n as [|n IH]; intros i; cbn [read_elems]; [apply ppd_ret|].
    apply ppd_bind; [|intros e; apply ppd_bind; [apply IH|intros; apply ppd_ret]].
    unfold read_elem. apply ppd_bind.
    + apply ppd_if; [|apply ppd_ret]. apply ppd_stream. apply pd_bind; [apply pd_ralign|intros; apply pd_ret].
    + intros _. destruct (a_packed cfg).
      * apply ppd_packed. now apply H2.
      * apply ppd_stream. now apply H1.
Qed.

(** ** Generated code *)

Lemma pd_field_array : forall M E f len packed,
  (packed = true -> match f_type f with TBasic t => wide t | TRef id _ => forall ps, ppd (m_punmarshal M id ps) end) ->
  (packed = false -> forall id ps, prefix_determined (m_unmarshal M id ps)) ->
  prefix_determined (read_field_array M E f len packed).
Proof.
  intros M E f len packed Hp Hn. unfold read_field_array.
  assert (C : forall cfg, array_config E len packed = Some cfg -> a_packed cfg = packed).
  { intros cfg H. destruct len as [l|]; cbn in H; [destruct (l E)|]; try discriminate; injection H as <-; reflexivity. }
  destruct (f_type f) as [t|id args].
  - destruct (codec_of E t) as [T|e| |] eqn:Ec; try apply pd_panic.
    destruct (array_config E len packed) as [cfg|] eqn:Ea; [|apply pd_panic].
    destruct (codec_pd _ _ _ Ec) as [Pd W]. specialize (C _ eq_refl).
    apply pd_read_array; rewrite C; intros -> i; cbn.
    + exact Pd.
    + apply ppd_d_read; auto.
  - destruct (array_config E len packed) as [cfg|] eqn:Ea; [|apply pd_panic]. specialize (C _ eq_refl).
    apply pd_read_array; rewrite C; intros -> i; cbn [k_read k_pread object_ops].
    + destruct (args E i); [auto|apply pd_panic].
    + destruct (args E i); [auto|apply ppd_fail; discriminate].
Qed.

Lemma pd_field : forall M E f,
  (packed_array f -> match f_type f with TBasic t => wide t | TRef id _ => forall ps, ppd (m_punmarshal M id ps) end) ->
  (forall id ps, prefix_determined (m_unmarshal M id ps)) ->
  prefix_determined (read_field M E f).
Proof.
  intros M E f Hp Hn. unfold read_field. destruct (included E f) as [[|]|]; [|apply pd_ret|apply pd_panic].
  apply pd_bind; [apply pd_ralign_opt|intros _].
  assert (C : prefix_determined (read_content M E f)).
  { unfold read_content. destruct (f_array f) as [[len packed]|] eqn:Ea.
    - apply pd_bind; [|intros; apply pd_ret]. apply pd_field_array; [|auto]. intros ->. apply Hp. now exists len.
    - destruct (f_type f) as [t|id args]; [apply pd_read_basic|]. destruct (args E 0%nat); [auto|apply pd_panic]. }
  apply pd_if; [|apply pd_bind; [exact C|intros; apply pd_ret]].
  apply pd_bind; [apply pd_read_bool|intros b]. apply pd_if; [|apply pd_ret].
  apply pd_bind; [exact C|intros; apply pd_ret].
Qed.

Lemma ppd_field : forall M E f,
  match f_type f with
  | TBasic t => f_array f <> None \/ packable t = true -> wide t
  | TRef id _ => forall ps, ppd (m_punmarshal M id ps)
  end ->
  ppd (pread_field M E f).
Proof.
  intros M E f H. unfold pread_field. destruct (included E f) as [[|]|]; [|apply ppd_ret|apply ppd_fail; discriminate].
  assert (C : ppd (pread_content M E f)).
  { unfold pread_content. destruct (f_array f) as [[len packed]|] eqn:Ea.
    - apply ppd_bind; [|intros; apply ppd_ret]. apply ppd_stream, pd_field_array; [|discriminate]. intros _.
      destruct (f_type f); [|exact H]. apply H. left. discriminate.
    - destruct (f_type f) as [t|id args].
      + destruct (packable t) eqn:Ep; [|apply ppd_stream, pd_read_basic].
        destruct (codec_of E t) as [T|e| |] eqn:Ec; try (apply ppd_fail; discriminate).
        destruct (codec_pd _ _ _ Ec) as [Pd W]. apply ppd_delta, ppd_d_read; auto.
      + destruct (args E 0%nat); [auto|apply ppd_fail; discriminate]. }
  assert (C1 : ppd (on_stream (ralign_opt (f_align f)) ;;s v <-s pread_content M E f; sret (Some v))).
  { apply ppd_bind; [apply ppd_stream, pd_ralign_opt|intros _].
    apply ppd_bind; [exact C|intros; apply ppd_ret]. }
  apply ppd_if; [|exact C1]. apply ppd_bind; [apply ppd_stream, pd_read_bool|intros b].
  apply ppd_if; [exact C1|apply ppd_ret].
Qed.

Lemma select_in : forall sel cases default i0 i f, select sel i0 cases default = Some (i, f) ->
  In f (choice_fields cases default).
Proof.
  intros sel cases default. unfold choice_fields.
  induction cases as [|[conds [g|]] cs IH]; intros i0 i f H; cbn [select] in H; cbn [flat_map snd app].
  - destruct default as [g|]; [|discriminate]. injection H as _ ->. now left.
  - destruct (match conds with c :: _ => sel =? c | [] => false end).
    + injection H as _ ->. now left.
    + right. eapply IH. exact H.
  - eapply IH. exact H.
Qed.

Theorem decode_prefix_determined : forall S P, wide_packed S P -> forall fuel id,
  (forall ps, prefix_determined (UnmarshalZserio S fuel id ps)) /\
  (P id -> forall ps, ppd (m_punmarshal (run S fuel) id ps)).
Proof.
  intros S P [Hs Hb Ht]. induction fuel as [|fuel IH]; intros id.
  - split; [intros ps pos rem r' a H; discriminate|intros _ ps; apply ppd_fail; discriminate].
  - unfold UnmarshalZserio. cbn [run m_unmarshal m_punmarshal]. set (M := run S fuel) in *.
    assert (IH1 : forall id ps, prefix_determined (m_unmarshal M id ps)) by (intros; apply IH).
    assert (IH2 : forall id, P id -> forall ps, ppd (m_punmarshal M id ps)) by (intros; now apply IH).
    clear IH. unfold of_def. destruct (nth_error S id) as [d|] eqn:Ed.
    2:{ split; [intros; apply pd_panic|intros; apply ppd_fail; discriminate]. }
    assert (F : forall f E, In f (fields_of d) -> prefix_determined (read_field M E f)).
    { intros f E Hf. apply pd_field; [|exact IH1]. intros Hp. destruct (f_type f) as [t|id' args] eqn:Et.
      - eapply Hb; eauto.
      - intros. apply IH2. eapply Ht; eauto. }
    assert (PF : P id -> forall f E, In f (fields_of d) -> ppd (pread_field M E f)).
    { intros Hid f E Hf. apply ppd_field. destruct (f_type f) as [t|id' args] eqn:Et.
      - intros. eapply Hb; eauto.
      - intros. apply IH2. eapply Ht; eauto. }
    split.
    + intros ps. destruct d as [t|fs|selector cases default|fs]; cbn [unmarshal_def fields_of] in *.
      * apply pd_read_basic.
      * apply pd_bind; [|intros; apply pd_ret]. generalize (@nil (option value)) as done. 
        assert (F' : forall f, In f fs -> In f fs) by auto. revert F'. generalize fs at 1 3 as l.
        induction l as [|f l IHl]; intros F' done; cbn [read_fields]; [apply pd_ret|].
        apply pd_bind; [apply F, F'; now left|intros]. apply IHl. intros. apply F'. now right.
      * destruct (selector ps) as [sel|]; [|apply pd_panic].
        destruct (select sel 0 cases default) as [[i f]|] eqn:Es; [|apply pd_ret].
        apply pd_bind; [|intros; apply pd_ret]. apply F. eapply select_in; eauto.
      * apply pd_bind; [apply pd_ReadVarsize|intros tag].
        destruct (if tag <? 1 then None else nth_error fs (Z.to_nat (tag - 1))) as [f|] eqn:En; [|apply pd_ret].
        apply pd_bind; [|intros; apply pd_ret]. apply F.
        destruct (tag <? 1); [discriminate|]. now apply nth_error_In in En.
    + intros Hid ps. specialize (PF Hid). destruct d as [t|fs|selector cases default|fs]; cbn [punmarshal_def fields_of] in *.
      * destruct (codec_of (mkE [] []) t) as [T|e| |] eqn:Ec; try (apply ppd_fail; discriminate).
        destruct (codec_pd _ _ _ Ec) as [Pd W]. apply ppd_delta, ppd_d_read; [exact Pd|]. eauto.
      * apply ppd_bind; [|intros; apply ppd_ret]. generalize (@nil (option value)) as done. 
        assert (F' : forall f, In f fs -> In f fs) by auto. revert F'. generalize fs at 1 3 as l.
        induction l as [|f l IHl]; intros F' done; cbn [pread_fields]; [apply ppd_ret|].
        apply ppd_bind; [apply ppd_child, PF, F'; now left|intros]. apply IHl. intros. apply F'. now right.
      * apply ppd_if; [|apply ppd_ret]. destruct (selector ps) as [sel|]; [|apply ppd_fail; discriminate].
        destruct (select sel 0 cases default) as [[i f]|] eqn:Es; [|apply ppd_ret].
        apply ppd_bind; [|intros; apply ppd_ret]. apply ppd_child, PF. eapply select_in; eauto.
      * apply ppd_ret.
Qed.

Lemma no_packed_wide : forall S, no_packed_arrays S -> wide_packed S (fun _ => False).
Proof.
  intros S H. constructor.
  - contradiction.
  - intros id d f t Hd Hf Ht [Hp|[[] _]]. exfalso. eapply H; eauto.
  - intros id d f id' args Hd Hf Ht [Hp|[]]. eapply H; eauto.
Qed.
