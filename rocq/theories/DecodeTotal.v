(** Generated decoders return on every input. *)

Require Import ZArith List Bool Lia ZifyBool ZifyNat.
From Verif Require Import Bits BitsFacts Stream StreamFacts Scalars FixedFacts Spec PrefixFacts Float16 Float16Facts
  Traits TraitSpec Delta Array Schema SchemaSpec SchemaThms DecodeSpec DecodeFacts DecodeRange.
Import ListNotations.
Open Scope Z_scope.
Open Scope io_scope.

(** ** Readers that return, with [n] bits left at most *)

Definition tot {A} (n : nat) (Q : A -> Prop) (m : reader A) : Prop :=
  forall r, (length (rrem r) <= n)%nat ->
  match m r with
  | (r', Ok a) => (length (rrem r') <= length (rrem r))%nat /\ Q a
  | (_, Err _) => True
  | _ => False
  end.

(** The same with a context that satisfies an invariant. *)
Definition ptot {C A} (n : nat) (I : C -> Prop) (Q : A -> Prop) (m : prog (C * rst) A) : Prop :=
  forall c r, I c -> (length (rrem r) <= n)%nat ->
  match m (c, r) with
  | ((c', r'), Ok a) => I c' /\ (length (rrem r') <= length (rrem r))%nat /\ Q a
  | (_, Err _) => True
  | _ => False
  end.

(** A reader that consumes at least one bit. *)
Definition eats {A} (m : reader A) : Prop :=
  forall r r' a, m r = (r', Ok a) -> (length (rrem r') < length (rrem r))%nat.

Lemma tot_mono : forall {A} n n' (Q : A -> Prop) m, tot n Q m -> (n' <= n)%nat -> tot n' Q m.
Proof. intros A n n' Q m H L r Hr. apply H. lia. Qed.

Lemma tot_weaken : forall {A} n (Q Q' : A -> Prop) m, tot n Q m -> (forall a, Q a -> Q' a) -> tot n Q' m.
Proof.
  intros A n Q Q' m H HQ r Hr. specialize (H r Hr). destruct (m r) as [r' [a|e| |]]; try exact H.
  destruct H. auto.
Qed.

Lemma tot_ret : forall {A} n (Q : A -> Prop) a, Q a -> tot n Q (rret a).
Proof. intros A n Q a H r Hr. cbn. auto. Qed.

Lemma tot_bind : forall {A B} n (Q : A -> Prop) (Q' : B -> Prop) m f,
  tot n Q m -> (forall a, Q a -> tot n Q' (f a)) -> tot n Q' (rbind m f).
Proof.
  intros A B n Q Q' m f Hm Hf r Hr. specialize (Hm r Hr). unfold rbind.
  destruct (m r) as [r1 [a|e| |]]; try exact Hm. destruct Hm as [L Ha].
  specialize (Hf a Ha r1 ltac:(lia)). destruct (f a r1) as [r2 [b|e| |]]; try exact Hf.
  destruct Hf. split; [lia|assumption].
Qed.

Lemma tot_bind_eats : forall {A B} n (Q : A -> Prop) (Q' : B -> Prop) m f,
  tot n Q m -> eats m -> (forall a n', Q a -> (n' < n)%nat -> tot n' Q' (f a)) -> tot n Q' (rbind m f).
Proof.
  intros A B n Q Q' m f Hm He Hf r Hr. specialize (Hm r Hr). unfold rbind. specialize (He r).
  destruct (m r) as [r1 [a|e| |]]; try exact Hm. destruct Hm as [L Ha].
  specialize (He _ _ eq_refl).
  specialize (Hf a (length (rrem r1)) Ha ltac:(lia) r1 ltac:(lia)). destruct (f a r1) as [r2 [b|e| |]]; try exact Hf.
  destruct Hf. split; [lia|assumption].
Qed.

Lemma tot_basic : forall {A} n (m : reader A), prefix_determined m -> never_panics m -> tot n (fun _ => True) m.
Proof.
  intros A n m Hp Hn r Hr. specialize (Hn r). destruct r as [pos rem].
  destruct (m (mkR pos rem)) as [r' [a|e| |]] eqn:E; cbn in Hn.
  - destruct (Hp _ _ _ _ E) as (c & -> & _). cbn [rrem]. rewrite app_length. split; [lia|exact I].
  - exact I.
  - destruct Hn as [[? Hn]|[? Hn]]; discriminate Hn.
  - destruct Hn as [[? Hn]|[? Hn]]; discriminate Hn.
Qed.

Lemma eats_bits : forall n, (0 < n)%nat -> eats (read_bits n).
Proof.
  intros n Hn r r' a H. unfold read_bits in H. destruct (Nat.leb_spec n (length (rrem r))); [|discriminate].
  injection H as <- _. cbn [rrem]. rewrite skipn_length. lia.
Qed.

Lemma eats_bind : forall {A B} (m : reader A) (f : A -> reader B), eats m -> (forall a, prefix_determined (f a)) ->
  eats (rbind m f).
Proof.
  intros A B m f Hm Hf r r' b H. unfold rbind in H. destruct (m r) as [[p rem] [a|e| |]] eqn:E; try discriminate.
  apply Hm in E. destruct (Hf a _ _ _ _ H) as (c & -> & _). cbn [rrem] in *. rewrite app_length in E. lia.
Qed.

Lemma eats_bool : eats ReadBool.
Proof. apply eats_bind; [apply eats_bits; lia|intros; apply pd_ret]. Qed.

Lemma eats_varsize : eats ReadVarsize.
Proof.
  apply eats_bind; [|intros; pd]. apply eats_bind; [apply eats_bits; lia|intros b].
  apply pd_bind; [apply pd_read_middle|intros; apply pd_read_last].
Qed.

Lemma tot_bool : forall n, tot n (fun _ => True) ReadBool.
Proof. intros. apply tot_basic; [apply pd_read_bool|apply np_read_bool]. Qed.

Lemma tot_varsize : forall n, tot n (fun v => 0 <= v <= MaxVarsize) ReadVarsize.
Proof.
  intros n r Hr. pose proof (tot_basic n _ pd_ReadVarsize np_ReadVarsize r Hr) as T.
  destruct (ReadVarsize r) as [r' [a|e| |]] eqn:E; try exact T. destruct T. split; [assumption|].
  eapply ReadVarsize_range; eauto.
Qed.

Lemma np_ralign_opt : forall n, never_panics (ralign_opt n).
Proof.
  intros n. unfold ralign_opt. destruct (n =? 0)%nat eqn:En; [apply np_ret|].
  apply np_bind; [|intros; apply np_ret]. intros r. unfold ralign. rewrite En.
  destruct (discard (rpos r) n =? 0)%nat; cbn; eauto.
  unfold rbind. pose proof (np_read_bits (discard (rpos r) n) r) as N.
  destruct (read_bits (discard (rpos r) n) r) as [r' [a|e| |]]; cbn in *; eauto;
    destruct N as [[? N]|[? N]]; discriminate N.
Qed.

Lemma tot_align : forall n k, tot n (fun _ => True) (ralign_opt k).
Proof. intros. apply tot_basic; [apply pd_ralign_opt|apply np_ralign_opt]. Qed.

(** *** With a context *)

Lemma ptot_ret : forall {C A} n (I : C -> Prop) (Q : A -> Prop) a, Q a -> ptot n I Q (sret a).
Proof. intros C A n I Q a H c r Hc Hr. cbn. auto. Qed.

Lemma ptot_bind : forall {C A B} n (I : C -> Prop) (Q : A -> Prop) (Q' : B -> Prop) m f,
  ptot n I Q m -> (forall a, Q a -> ptot n I Q' (f a)) -> ptot n I Q' (sbind m f).
Proof.
  intros C A B n I Q Q' m f Hm Hf c r Hc Hr. specialize (Hm c r Hc Hr). unfold sbind.
  destruct (m (c, r)) as [[c1 r1] [a|e| |]]; try exact Hm. destruct Hm as (Hc1 & L & Ha).
  specialize (Hf a Ha c1 r1 Hc1 ltac:(lia)). destruct (f a (c1, r1)) as [[c2 r2] [b|e| |]]; try exact Hf.
  destruct Hf as (? & ? & ?). repeat split; try assumption; lia.
Qed.

Lemma ptot_bind_eats : forall {C A B} n (I : C -> Prop) (Q : A -> Prop) (Q' : B -> Prop) m f,
  tot n Q m -> eats m -> (forall a n', Q a -> (n' < n)%nat -> ptot n' I Q' (f a)) ->
  ptot n I Q' (sbind (on_stream m) f).
Proof.
  intros C A B n I Q Q' m f Hm He Hf c r Hc Hr. specialize (Hm r Hr). unfold sbind, on_stream. specialize (He r).
  destruct (m r) as [r1 [a|e| |]]; try exact Hm. destruct Hm as [L Ha]. specialize (He _ _ eq_refl).
  specialize (Hf a (length (rrem r1)) Ha ltac:(lia) c r1 Hc ltac:(lia)).
  destruct (f a (c, r1)) as [[c2 r2] [b|e| |]]; try exact Hf.
  destruct Hf as (? & ? & ?). repeat split; try assumption; lia.
Qed.

Lemma ptot_stream : forall {C A} n (I : C -> Prop) (Q : A -> Prop) m, tot n Q m -> ptot n I Q (on_stream m).
Proof.
  intros C A n I Q m H c r Hc Hr. specialize (H r Hr). unfold on_stream.
  destruct (m r) as [r' [a|e| |]]; try exact H. destruct H. auto.
Qed.

Lemma ptot_mono : forall {C A} n n' (I : C -> Prop) (Q : A -> Prop) m, ptot n I Q m -> (n' <= n)%nat -> ptot n' I Q m.
Proof. intros C A n n' I Q m H L c r Hc Hr. apply H; auto. lia. Qed.

Lemma tot_with_ctx : forall {C A} n (I : C -> Prop) (Q : A -> Prop) c (m : prog (C * rst) A),
  I c -> ptot n I Q m -> tot n Q (with_ctx c m).
Proof.
  intros C A n I Q c m Hc Hm r Hr. specialize (Hm c r Hc Hr). unfold with_ctx.
  destruct (m (c, r)) as [[c1 r1] [a|e| |]]; try exact Hm. tauto.
Qed.

(** ** Delta contexts *)

(** After the first element there is a previous one, and the width is at most 63. *)
Definition good (c : dctx) : Prop :=
  (d_started c = true -> d_prev c <> None) /\ 0 <= d_max c < 64.

Lemma good_empty : good d_empty.
Proof. split; [discriminate|cbn; lia]. Qed.

Lemma bits6_range : forall r r' m, read_bits 6 r = (r', Ok m) -> 0 <= m < 64.
Proof. intros r r' m H. exact (bits_range 6 r r' m H). Qed.

Lemma failed_rest_length : forall n l, (length (failed_rest n l) <= length l)%nat.
Proof.
  intros n l. unfold failed_rest. pose proof (Nat.mod_le (length l) 8 ltac:(lia)).
  destruct (_ <=? _)%nat; [rewrite repeat_length|rewrite firstn_length]; lia.
Qed.

Lemma read_bits_length : forall n r, (length (rrem (fst (read_bits n r))) <= length (rrem r))%nat.
Proof.
  intros n r. unfold read_bits. destruct (_ <=? _)%nat; cbn [fst rrem]; [rewrite skipn_length; lia|apply failed_rest_length].
Qed.

Lemma descriptor_total : forall c r, 0 <= d_max c < 64 ->
  match ReadDescriptor (c, r) with
  | ((c', r'), Ok _) | ((c', r'), Err _) => 0 <= d_max c' < 64 /\ (length (rrem r') <= length (rrem r))%nat
  | _ => False
  end.
Proof.
  intros c r H. unfold ReadDescriptor, read_bool, rbind. pose proof (read_bits_length 1 r) as L1.
  pose proof (np_read_bits 1 r) as N1. destruct (read_bits 1 r) as [r1 [v|e| |]]; cbn [fst snd rret] in *.
  - unfold rret. destruct (negb (v =? 0)); [|cbn; auto].
    change (Z.to_nat maxBitNumberBits) with 6%nat.
    pose proof (read_bits_length 6 r1) as L2. pose proof (np_read_bits 6 r1) as N2. pose proof (bits6_range r1) as B.
    destruct (read_bits 6 r1) as [r2 [m|e| |]]; cbn [fst snd] in *.
    + specialize (B _ _ eq_refl). cbn. split; lia.
    + cbn. split; lia.
    + destruct N2 as [[? N]|[? N]]; discriminate N.
    + destruct N2 as [[? N]|[? N]]; discriminate N.
  - cbn. auto.
  - destruct N1 as [[? N]|[? N]]; discriminate N.
  - destruct N1 as [[? N]|[? N]]; discriminate N.
Qed.

Lemma ptot_readUnpacked : forall {A} n (Q : A -> Prop) (T : traits A) c r, tot n Q (t_read T) -> 0 <= d_max c < 64 ->
  (length (rrem r) <= n)%nat ->
  match readUnpacked T (c, r) with
  | ((c', r'), Ok a) => good c' /\ (length (rrem r') <= length (rrem r))%nat /\ Q a
  | (_, Err _) => True
  | _ => False
  end.
Proof.
  intros A n Q T c r H Hc Hr. specialize (H r Hr). unfold readUnpacked, sbind, on_stream, on_ctx, sret.
  destruct (t_read T r) as [r' [a|e| |]]; try exact H. destruct H. refine (conj _ (conj _ _)); auto.
  split; [discriminate|exact Hc].
Qed.

Lemma ptot_d_read : forall {A} n (Q : A -> Prop) (T : traits A), tot n Q (t_read T) -> (forall z, Q (t_from T z)) ->
  ptot n good Q (d_read T).
Proof.
  intros A n Q T Ht Hf c r [Hc Hm] Hr. unfold d_read. unfold sbind at 1, get_ctx. cbn [fst].
  destruct (d_started c) eqn:Es; cbn [negb].
  2:{ unfold sbind, on_ctx, signore. pose proof (descriptor_total (set_started c) r Hm) as D.
      destruct (ReadDescriptor (set_started c, r)) as [[c' r'] [u|e| |]]; try contradiction; destruct D as [D L].
      - pose proof (ptot_readUnpacked n Q T c' r' Ht D ltac:(lia)) as U.
        destruct (readUnpacked T (c', r')) as [[c2 r2] [a|e2| |]]; try exact U. destruct U as (? & ? & ?).
        repeat split; try assumption; try lia; apply H.
      - pose proof (ptot_readUnpacked n Q T c' r' Ht D ltac:(lia)) as U.
        destruct (readUnpacked T (c', r')) as [[c2 r2] [a|e2| |]]; try exact U. destruct U as (? & ? & ?).
        repeat split; try assumption; try lia; apply H. }
  destruct (negb (d_packed c)).
  - now apply ptot_readUnpacked with (n := n).
  - destruct (d_prev c) as [p|] eqn:Ep; [|now destruct (Hc eq_refl)].
    destruct (Z.ltb_spec 0 (d_max c)) as [Lm|Lm].
    + assert (U : to_u 8 (d_max c + 1) = d_max c + 1) by (apply to_u_small; cbn; lia). rewrite U.
      pose proof (tot_basic n _ (pd_ReadSignedBits (d_max c + 1)) (np_ReadSignedBits (d_max c + 1) ltac:(lia)) r Hr) as T1.
      unfold sbind, on_stream, on_ctx, sret.
      destruct (ReadSignedBits (d_max c + 1) r) as [r1 [delta|e| |]]; try exact T1. destruct T1.
      refine (conj _ (conj _ _)); auto. split; [discriminate|exact Hm].
    + unfold sret. refine (conj _ (conj _ _)); auto. split; [rewrite Ep; discriminate|exact Hm].
Qed.

(** ** Builtin types *)

Lemma tot_yields : forall {A} n (m : reader A) (Q : A -> Prop), prefix_determined m -> never_panics m -> yields m Q -> tot n Q m.
Proof.
  intros A n m Q Hp Hn Hy r Hr. pose proof (tot_basic n m Hp Hn r Hr) as T.
  destruct (m r) as [r' [a|e| |]] eqn:E; try exact T. destruct T as [T _]. split; [exact T|exact (Hy _ _ _ E)].
Qed.

Lemma tot_read_basic : forall n E t codec, readable E t codec -> tot n (basic_typed t) (read_basic E t).
Proof.
  intros n E [b|signed g w] codec H; cbn [read_basic readable] in *.
  - apply tot_bind with (Q := go_value b).
    + apply tot_yields; [apply pd_std_read|now apply np_std_read|].
      eapply yields_weaken; [now apply yields_std_read|]. intros e He. now apply range_go.
    + intros e He. apply tot_ret. cbn. eauto.
  - destruct H as (Hg & k & -> & Hk & _). apply tot_bind with (Q := fun _ => True).
    + apply tot_basic; destruct signed; pd; np.
    + intros z _. apply tot_ret. cbn. eexists. split; [reflexivity|]. now apply gconv_value.
Qed.

Lemma tot_codec : forall E t, readable E t true ->
  exists T, codec_of E t = Ok T /\ (forall n, tot n (basic_typed t) (t_read T)) /\ (forall z, basic_typed t (t_from T z)).
Proof.
  intros E [b|signed g w] H; cbn [codec_of readable] in *.
  - exists (vtraits b). refine (conj eq_refl (conj _ _)).
    + intros n. apply tot_bind with (Q := go_value b).
      * apply tot_yields; [apply pd_t_read|apply np_t_read|]. eapply yields_weaken; [now apply yields_t_read|].
        intros e He. now apply range_go.
      * intros e He. apply tot_ret. cbn. eauto.
    + intros z. cbn. eexists. split; [reflexivity|]. now apply from_go.
  - destruct H as (Hg & k & -> & Hk & Hc). cbv zeta. replace (64 <=? to_u 8 k) with false by (specialize (Hc eq_refl); lia).
    eexists. refine (conj eq_refl (conj _ _)).
    + intros n. destruct signed; (apply tot_bind with (Q := gvalue g); [|intros e He; apply tot_ret; cbn; eauto]);
        (apply tot_yields; [apply (pd_t_read (BSBits g (to_u 8 k))) || apply (pd_t_read (BBits g (to_u 8 k)))|
                            apply (np_t_read (BSBits g (to_u 8 k))) || apply (np_t_read (BBits g (to_u 8 k)))|]); cbn [traits_of t_read BitFieldArrayTraits SignedBitFieldArrayTraits];
        (eapply yields_bind; [apply yields_bits|]; intros v Hv; apply yields_ret; now apply gconv_value).
    + intros z. destruct signed; cbn; (eexists; split; [reflexivity|now apply gconv_value]).
Qed.

(** ** Arrays *)

Lemma tot_read_array : forall {A N} n (Q : A -> Prop) (J : N -> Prop) (K : elemops A N) cfg, a_check cfg = false ->
  (a_auto cfg = false -> 0 <= a_fixed cfg) ->
  (forall n', (n' <= n)%nat -> (a_auto cfg = true -> (n' < n)%nat) ->
     (a_packed cfg = false -> forall i, tot n' Q (k_read K i)) /\
     (a_packed cfg = true -> (exists c, k_create K = Ok c /\ J c) /\ forall i, ptot n' J Q (k_pread K i))) ->
  tot n (Forall Q) (read_array K cfg).
Proof.
  intros A N n Q J K cfg Hchk Hfix H. apply tot_with_ctx with (I := fun _ : option N => True); [exact I|].
  unfold array_unmarshal.
  assert (R : forall n' size, (n' <= n)%nat -> (a_auto cfg = true -> (n' < n)%nat) -> 0 <= size ->
    ptot n' (fun _ : option N => True) (Forall Q) ((if size <? 0 then (fun s => (s, Panic))
      else if size =? 0 then sret []
      else (if a_packed cfg then new_context K else sret tt) ;;s read_elems K cfg 0 (Z.to_nat size))%prog)).
  { intros n' size L1 L2 Hs. destruct (H n' L1 L2) as [H1 H2].
    replace (size <? 0) with false by lia. destruct (size =? 0); [apply ptot_ret; constructor|].
    set (J' := fun c : option N => a_packed cfg = true -> exists x, c = Some x /\ J x).
    assert (E : forall k i, ptot n' J' (Forall Q) (read_elems K cfg i k)).
    { induction k as [|k IH]; intros i; cbn [read_elems]; [apply ptot_ret; constructor|].
      apply ptot_bind with (Q := Q).
      - unfold read_elem. rewrite Hchk. apply ptot_bind with (Q := fun _ => True); [now apply ptot_ret|intros _ _].
        destruct (a_packed cfg) eqn:Ep; [|apply ptot_stream; now apply H1].
        destruct (H2 eq_refl) as [_ H3]. intros c r Hc Hr. destruct (Hc eq_refl) as (x & -> & Hx).
        specialize (H3 i x r Hx Hr). unfold on_packed.
        destruct (k_pread K i (x, r)) as [[x' r'] [a|e| |]]; try exact H3. destruct H3 as (? & ? & ?).
        repeat split; auto. intros _. eauto.
      - intros e He. apply ptot_bind with (Q := Forall Q); [apply IH|]. intros es Hes. apply ptot_ret. now constructor. }
    intros c r _ Hr. unfold sbind. destruct (a_packed cfg) eqn:Ep.
    - destruct (H2 eq_refl) as [(x & Hx & Jx) _]. unfold new_context. rewrite Hx. cbn [snd].
      specialize (E (Z.to_nat size) 0%nat (Some x) r ltac:(intros _; eauto) Hr).
      destruct (read_elems K cfg 0 (Z.to_nat size) (Some x, r)) as [[c' r'] [a|e| |]]; try exact E. tauto.
    - unfold sret at 1. specialize (E (Z.to_nat size) 0%nat c r ltac:(intros X; congruence) Hr).
      destruct (read_elems K cfg 0 (Z.to_nat size) (c, r)) as [[c' r'] [a|e| |]]; try exact E. tauto. }
  destruct (a_auto cfg) eqn:Ea.
  - apply ptot_bind_eats with (Q := fun v => 0 <= v).
    + apply tot_bind with (Q := fun v => 0 <= v <= MaxVarsize); [apply tot_varsize|].
      intros v Hv. apply tot_ret. unfold i64. rewrite to_s_small; [lia|lia|].
      unfold MaxVarsize in Hv. change (2 ^ 31) with 2147483648 in Hv. change (2 ^ (64 - 1)) with 9223372036854775808. lia.
    + apply eats_bind; [apply eats_varsize|intros; apply pd_ret].
    + intros size n' Hs L. apply R; auto. lia.
  - apply ptot_bind with (Q := fun v => 0 <= v); [apply ptot_ret; auto|].
    intros size Hs. apply R; auto. discriminate.
Qed.

(** ** Packing contexts *)

Definition delta_node (n : node) : Prop := exists c ch, n = Node (Some c) ch /\ good c.
Definition field_shape (sh : nat -> node -> Prop) (f : field) (n : node) : Prop :=
  match f_array f, f_type f with
  | Some _, _ => True
  | None, TBasic t => packable t = true -> delta_node n
  | None, TRef id _ => sh id n
  end.
Definition fields_shape (sh : nat -> node -> Prop) (fs : list field) (n : node) : Prop :=
  exists c ch, n = Node c ch /\ Forall2 (field_shape sh) fs ch.

(** The contexts that CreatePackingContext makes for a type. *)
Fixpoint shape (S : schema) (k : nat) (id : nat) (n : node) : Prop :=
  match k with
  | O => False
  | Datatypes.S k' =>
      exists d, nth_error S id = Some d /\
      match d with
      | DScalar _ => delta_node n
      | _ => fields_shape (shape S k') (fields_of d) n
      end
  end.

Lemma Forall2_update : forall {A B} (R : A -> B -> Prop) l1 l2 i a b, Forall2 R l1 l2 ->
  nth_error l1 i = Some a -> R a b -> Forall2 R l1 (update i b l2).
Proof.
  intros A B R l1 l2 i a b H. revert i. induction H as [|x y l1 l2 Hxy H IH]; intros [|i] Hi Hb; cbn in *; try discriminate.
  - injection Hi as ->. now constructor.
  - constructor; auto.
Qed.

Lemma Forall2_nth1 : forall {A B} (R : A -> B -> Prop) l1 l2 i a, Forall2 R l1 l2 -> nth_error l1 i = Some a ->
  exists b, nth_error l2 i = Some b /\ R a b.
Proof.
  intros A B R l1 l2 i a H. revert i. induction H as [|x y l1 l2 Hxy H IH]; intros [|i] Hi; cbn in *; try discriminate.
  - injection Hi as ->. eauto.
  - auto.
Qed.

Lemma Forall2_len : forall {A B} (R : A -> B -> Prop) l1 l2, Forall2 R l1 l2 -> length l1 = length l2.
Proof. intros A B R l1 l2 H. induction H; cbn; auto. Qed.

Lemma ptot_child : forall {A} n sh fs i f (Q : A -> Prop) m, nth_error fs i = Some f ->
  ptot n (field_shape sh f) Q m -> ptot n (fields_shape sh fs) Q (on_child i m).
Proof.
  intros A n sh fs i f Q m Hi Hm nd r (c & ch & -> & F) Hr. unfold on_child.
  destruct (Forall2_nth1 _ _ _ _ _ F Hi) as (x & -> & Hx). specialize (Hm x r Hx Hr).
  destruct (m (x, r)) as [[x' r'] [a|e| |]]; try exact Hm. destruct Hm as (? & ? & ?).
  refine (conj _ (conj _ _)); auto. exists c, (update i x' ch). split; [reflexivity|]. eapply Forall2_update; eauto.
Qed.

Lemma ptot_delta : forall {A} n (Q : A -> Prop) m, ptot n good Q m -> ptot n delta_node Q (on_delta m).
Proof.
  intros A n Q m Hm nd r (c & ch & -> & Hc) Hr. unfold on_delta. specialize (Hm c r Hc Hr).
  destruct (m (c, r)) as [[c' r'] [a|e| |]]; try exact Hm. destruct Hm as (? & ? & ?).
  refine (conj _ (conj _ _)); auto. now exists c', ch.
Qed.

Lemma create_fields_total : forall M sh fs,
  (forall f id args, In f fs -> f_array f = None -> f_type f = TRef id args ->
     exists nd, m_create M id (Node None []) = (nd, Ok tt) /\ sh id nd) ->
  forall c ch fs0, Forall2 (field_shape sh) fs0 ch ->
  exists nd, create_fields M fs (Node c ch) = (nd, Ok tt) /\ fields_shape sh (fs0 ++ fs) nd.
Proof.
  intros M sh. induction fs as [|f fs IH]; intros H c ch fs0 F.
  - cbn. eexists. split; [reflexivity|]. rewrite app_nil_r. now exists c, ch.
  - cbn [create_fields]. unfold sbind.
    assert (X : exists x, create_field M f (Node c ch) = (Node c (ch ++ [x]), Ok tt) /\ field_shape sh f x).
    { unfold create_field, field_shape. destruct (f_array f) as [?|] eqn:Ea; [eauto|].
      destruct (f_type f) as [t|id args] eqn:Et.
      - eexists. split; [reflexivity|]. intros ->. exists d_empty, []. split; [reflexivity|apply good_empty].
      - destruct (H f id args (or_introl eq_refl) Ea Et) as (nd & -> & Hn). eauto. }
    destruct X as (x & -> & Hx).
    destruct (IH ltac:(intros; eapply H; eauto; now right) c (ch ++ [x]) (fs0 ++ [f])) as (nd & E & Hn).
    { apply Forall2_app; auto. }
    exists nd. rewrite <- app_assoc in Hn. auto.
Qed.

(** ** Fields *)

Definition auto_array (f : field) : Prop := exists packed, f_array f = Some (None, packed).

(** The reader of type [id] returns when there are at most [k] bits. *)
Definition reads (M : methods) (I : nat -> list value -> Prop) (ty : nat -> value -> Prop) (k id : nat) : Prop :=
  forall ps, I id ps -> tot k (ty id) (m_unmarshal M id ps).
Definition preads (M : methods) (I : nat -> list value -> Prop) (ty : nat -> value -> Prop) (sh : nat -> node -> Prop) (k id : nat) : Prop :=
  forall ps, I id ps -> ptot k (sh id) (ty id) (m_punmarshal M id ps).
Definition creates (M : methods) (sh : nat -> node -> Prop) (id : nat) : Prop :=
  exists nd, m_create M id (Node None []) = (nd, Ok tt) /\ sh id nd.

Lemma tot_field_array : forall M I ty sh pk E f len (packed : bool) n,
  no_panic I pk E f -> included E f = Some true -> (exists p, f_array f = Some (len, p)) ->
  (forall id args k, f_type f = TRef id args -> (k <= n)%nat -> (len = None -> (k < n)%nat) ->
     if packed then creates M sh id /\ preads M I ty sh k id else reads M I ty k id) ->
  tot n (Forall (item_typed ty (f_type f))) (read_field_array M E f len packed).
Proof.
  intros M I ty sh pk E f len packed n (stored & Hs & Hp) Hi (p & Ha) H.
  rewrite Hi in Hs. injection Hs as <-. destruct (Hp eq_refl) as [H1 H2]. clear Hp. rewrite Ha in *.
  assert (C : exists cfg, array_config E len packed = Some cfg /\ a_check cfg = false /\ a_packed cfg = packed /\
    (a_auto cfg = true <-> len = None) /\ (a_auto cfg = false -> 0 <= a_fixed cfg)).
  { destruct len as [l|]; cbn [array_config].
    - destruct H2 as (m & -> & Hm). eexists. refine (conj eq_refl _). cbn. intuition discriminate.
    - eexists. refine (conj eq_refl _). cbn. intuition discriminate. }
  destruct C as (cfg & Ec & C1 & C2 & C3 & C4). unfold read_field_array.
  destruct (f_type f) as [t|id args] eqn:Et; cbn [item_typed].
  - destruct (tot_codec E t H1) as (T & -> & T1 & T2). rewrite Ec.
    apply tot_read_array with (J := good); auto. intros n' L1 L2. split.
    + intros _ i. apply T1.
    + intros _. split; [exists d_empty; split; [reflexivity|apply good_empty]|].
      intros i. cbn. now apply ptot_d_read.
  - rewrite Ec. apply tot_read_array with (J := sh id); auto. intros n' L1 L2.
    specialize (H id args n' eq_refl L1 ltac:(intros; apply L2; now apply C3)). rewrite C2. split.
    + intros -> i. cbn [k_read object_ops]. destruct (H1 i) as (ps & -> & Hps). now apply H.
    + intros ->. destruct H as [(nd & Hc & Hn) H]. split.
      * exists nd. cbn [k_create object_ops]. now rewrite Hc.
      * intros i. cbn [k_pread object_ops]. destruct (H1 i) as (ps & -> & Hps). now apply H.
Qed.

Lemma tot_field : forall M I ty sh E f n, no_panic I false E f ->
  (forall id args k, f_type f = TRef id args -> (k <= n)%nat -> (f_optional f = true \/ auto_array f -> (k < n)%nat) ->
     reads M I ty k id /\ (packed_array f -> creates M sh id /\ preads M I ty sh k id)) ->
  tot n (slot_typed ty f) (read_field M E f).
Proof.
  intros M I ty sh E f n Hp H. pose proof Hp as (stored & Hs & Hp'). unfold read_field. rewrite Hs.
  destruct stored.
  2:{ apply tot_ret. cbn. right. unfold included in Hs. destruct (f_clause f); discriminate. }
  destruct (Hp' eq_refl) as [H1 H2]. clear Hp'.
  apply tot_bind with (Q := fun _ => True); [apply tot_align|intros _ _].
  assert (C : forall n0, (n0 <= n)%nat -> (f_optional f = true -> (n0 < n)%nat) ->
    tot n0 (content_typed ty f) (read_content M E f)).
  { intros n0 L1 L2. unfold read_content, content_typed. destruct (f_array f) as [[len packed]|] eqn:Ea.
    - apply tot_bind with (Q := Forall (item_typed ty (f_type f))); [|intros es Hes; apply tot_ret; eauto].
      apply tot_field_array with (I := I) (sh := sh) (pk := false); eauto. intros id args k Et L3 L4.
      destruct (H id args k Et ltac:(lia)) as [R1 R2].
      { intros [X|[p X]]; [specialize (L2 X); lia|]. rewrite Ea in X. injection X as -> ->. specialize (L4 eq_refl). lia. }
      destruct packed; [|exact R1]. apply R2. now exists len.
    - destruct (f_type f) as [t|id args] eqn:Et; cbn [item_typed].
      + eapply tot_read_basic. exact H1.
      + destruct (H1 0%nat) as (ps & -> & Hps). refine (proj1 (H id args n0 eq_refl L1 _) ps Hps).
        intros [X|[p X]]; [auto|congruence]. }
  destruct (f_optional f) eqn:Eo.
  - apply tot_bind_eats with (Q := fun _ => True); [apply tot_bool|apply eats_bool|].
    intros [|] n' _ L.
    + apply tot_bind with (Q := content_typed ty f); [apply C; lia|]. intros v Hv. now apply tot_ret.
    + apply tot_ret. cbn. auto.
  - apply tot_bind with (Q := content_typed ty f); [apply C; [lia|discriminate]|]. intros v Hv. now apply tot_ret.
Qed.

Lemma ptot_field : forall M I ty sh E f n, no_panic I true E f ->
  (forall id args k, f_type f = TRef id args -> (k <= n)%nat -> (f_optional f = true \/ auto_array f -> (k < n)%nat) ->
     creates M sh id /\ preads M I ty sh k id) ->
  ptot n (field_shape sh f) (slot_typed ty f) (pread_field M E f).
Proof.
  intros M I ty sh E f n Hp H. pose proof Hp as (stored & Hs & Hp'). unfold pread_field. rewrite Hs.
  destruct stored.
  2:{ apply ptot_ret. cbn. right. unfold included in Hs. destruct (f_clause f); discriminate. }
  destruct (Hp' eq_refl) as [H1 H2]. clear Hp'.
  assert (C : forall n0, (n0 <= n)%nat -> (f_optional f = true -> (n0 < n)%nat) ->
    ptot n0 (field_shape sh f) (content_typed ty f) (pread_content M E f)).
  { intros n0 L1 L2. unfold pread_content, content_typed, field_shape. destruct (f_array f) as [[len packed]|] eqn:Ea.
    - apply ptot_bind with (Q := Forall (item_typed ty (f_type f))); [|intros es Hes; apply ptot_ret; eauto].
      apply ptot_stream, tot_field_array with (I := I) (sh := sh) (pk := true); eauto. intros id args k Et L3 L4.
      apply (H id args k Et ltac:(lia)).
      intros [X|[p X]]; [specialize (L2 X); lia|]. rewrite Ea in X. injection X as -> ->. specialize (L4 eq_refl). lia.
    - destruct (f_type f) as [t|id args] eqn:Et; cbn [item_typed].
      + cbn [andb] in H1. destruct (packable t) eqn:Ep.
        * destruct (tot_codec E t H1) as (T & -> & T1 & T2).
          intros nd r Hn Hr. specialize (Hn eq_refl).
          pose proof (ptot_delta n0 _ _ (ptot_d_read n0 _ T (T1 n0) T2) nd r Hn Hr) as D.
          destruct (on_delta (d_read T) (nd, r)) as [[nd' r'] [a|e| |]]; try exact D.
          destruct D as (D1 & D2 & D3). auto.
        * apply ptot_stream. eapply tot_read_basic. exact H1.
      + destruct (H1 0%nat) as (ps & -> & Hps). refine (proj2 (H id args n0 eq_refl L1 _) ps Hps).
        intros [X|[p X]]; [auto|congruence]. }
  assert (C1 : forall n0, (n0 <= n)%nat -> (f_optional f = true -> (n0 < n)%nat) ->
    ptot n0 (field_shape sh f) (slot_typed ty f)
      (on_stream (ralign_opt (f_align f)) ;;s v <-s pread_content M E f; sret (Some v))%prog).
  { intros n0 L1 L2. apply ptot_bind with (Q := fun _ => True); [apply ptot_stream, tot_align|intros _ _].
    apply ptot_bind with (Q := content_typed ty f); [apply C; auto|]. intros v Hv. now apply ptot_ret. }
  destruct (f_optional f) eqn:Eo.
  - apply ptot_bind_eats with (Q := fun _ => True); [apply tot_bool|apply eats_bool|].
    intros [|] n' _ L; [apply C1; lia|]. apply ptot_ret. cbn. auto.
  - apply C1; [lia|discriminate].
Qed.

(** ** Types *)

Lemma select_nth : forall sel cases default i0 i f, select sel i0 cases default = Some (i, f) ->
  (i0 <= i)%nat /\ nth_error (choice_fields cases default) (i - i0) = Some f.
Proof.
  intros sel cases default. unfold choice_fields.
  induction cases as [|[conds [g|]] cs IH]; intros i0 i f H; cbn [select] in H; cbn [flat_map snd app].
  - destruct default as [g|]; [|discriminate]. injection H as <- ->. split; [lia|]. now rewrite Nat.sub_diag.
  - destruct (match conds with c :: _ => sel =? c | [] => false end).
    + injection H as <- ->. split; [lia|]. now rewrite Nat.sub_diag.
    + destruct (IH _ _ _ H) as [L N]. split; [lia|]. replace (i - i0)%nat with (Datatypes.S (i - Datatypes.S i0)) by lia. exact N.
  - eapply IH. exact H.
Qed.

Lemma only_length : forall n i s, length (only n i s) = n.
Proof.
  intros n i s. unfold only. rewrite <- (repeat_length (@None value) n) at 2. generalize (repeat (@None value) n) as l.
  revert i. induction i as [|i IH]; intros [|x l]; cbn; auto.
Qed.

Lemma only_nth : forall n i s j x, nth_slot j (only n i s) = Some x -> i = j /\ s = Some x.
Proof.
  intros n i s. unfold only, nth_slot. revert i. induction n as [|n IH]; intros i j x H; cbn [repeat] in H.
  - destruct i, j; discriminate H.
  - destruct i as [|i]; cbn [update] in H.
    + destruct j as [|j]; cbn [nth] in H; [auto|]. exfalso. revert H. clear. revert j. induction n; intros [|j]; cbn; try discriminate. apply IHn.
    + destruct j as [|j]; cbn [nth] in H; [discriminate|]. destruct (IH _ _ _ H). auto.
Qed.

Lemma repeat_nth : forall n j, nth_slot j (repeat None n) = None.
Proof. unfold nth_slot. induction n; intros [|j]; cbn; auto. Qed.

Local Open Scope nat_scope.

Theorem decode_total : forall S I P rank top, safe S I P rank top -> forall fuel id d,
  nth_error S id = Some d ->
  (forall ps n, I id ps -> n * top + rank id < fuel -> tot n (typed S fuel id) (UnmarshalZserio S fuel id ps)) /\
  (P id -> rank id < fuel -> creates (run S fuel) (shape S fuel) id) /\
  (P id -> forall ps n, I id ps -> n * top + rank id < fuel ->
     ptot n (shape S fuel id) (typed S fuel id) (m_punmarshal (run S fuel) id ps)).
Proof.
  intros S I P rank top [Hsc Hsel Hf Ht]. induction fuel as [|fuel IH]; intros id d Hd; [repeat split; intros; lia|].
  unfold UnmarshalZserio, creates. cbn [run m_unmarshal m_punmarshal m_create]. set (M := run S fuel) in *.
  unfold of_def. rewrite Hd.
  assert (Cr : P id -> rank id < Datatypes.S fuel -> forall f id' args, In f (fields_of d) -> f_array f = None -> f_type f = TRef id' args ->
    creates M (shape S fuel) id').
  { intros HP Hr f id' args Hin Ha Htype.
    destruct (Ht id d f id' args Hd Hin Htype) as ((d' & Hd') & _ & _ & _ & H5). destruct (H5 HP) as [H6 H7].
    apply (IH id' d' Hd'); auto. specialize (H7 Ha). lia. }
  assert (Rd : forall n f id' args k, n * top + rank id < Datatypes.S fuel -> In f (fields_of d) -> f_type f = TRef id' args ->
    k <= n -> (reads_first d f -> k < n) ->
    reads M I (typed S fuel) k id' /\
    (P id' -> creates M (shape S fuel) id' /\ preads M I (typed S fuel) (shape S fuel) k id')).
  { intros n f id' args k Hn Hin Htype Lk Gk.
    destruct (Ht id d f id' args Hd Hin Htype) as ((d' & Hd') & Htop & Hrk & _ & _).
    assert (B : k * top + rank id' < fuel).
    { destruct Hrk as [Hrk|G].
      - pose proof (Nat.mul_le_mono_r k n top Lk). lia.
      - specialize (Gk G). pose proof (Nat.mul_le_mono_r (Datatypes.S k) n top ltac:(lia)). lia. }
    destruct (IH id' d' Hd') as (R1 & R2 & R3). split; [intros ps Hps; now apply R1|].
    intros HP. split; [apply R2; auto; lia|]. intros ps Hps. now apply R3. }
  assert (Fld : forall n i f ps E, n * top + rank id < Datatypes.S fuel -> nth_error (fields_of d) i = Some f -> I id ps ->
    view S d i ps E -> match d with DUnion _ => False | _ => True end ->
    tot n (slot_typed (typed S fuel) f) (read_field M E f)).
  { intros n i f ps E Hn Hi Hps Hv Hu. pose proof (nth_error_In _ _ Hi) as Hin.
    destruct (Hf id d i f ps E Hd Hi Hps Hv) as [Np _].
    apply tot_field with (I := I) (sh := shape S fuel); [exact Np|].
    intros id' args k Htype Lk Gk. destruct (Rd n f id' args k Hn Hin Htype Lk) as [R1 R2].
    { unfold reads_first. intros [G|[G|G]]; [apply Gk; auto|apply Gk; auto|destruct d; contradiction]. }
    split; [exact R1|]. intros Hpa. apply R2. exact (proj1 (proj2 (proj2 (proj2 (Ht id d f id' args Hd Hin Htype)))) Hpa). }
  assert (PFld : P id -> forall n i f ps E, n * top + rank id < Datatypes.S fuel -> nth_error (fields_of d) i = Some f -> I id ps ->
    view S d i ps E -> match d with DUnion _ => False | _ => True end ->
    ptot n (field_shape (shape S fuel) f) (slot_typed (typed S fuel) f) (pread_field M E f)).
  { intros HP n i f ps E Hn Hi Hps Hv Hu. pose proof (nth_error_In _ _ Hi) as Hin.
    destruct (Hf id d i f ps E Hd Hi Hps Hv) as [_ Np]. specialize (Np HP).
    apply ptot_field with (I := I); [exact Np|].
    intros id' args k Htype Lk Gk. apply (Rd n f id' args k Hn Hin Htype Lk).
    - unfold reads_first. intros [G|[G|G]]; [apply Gk; auto|apply Gk; auto|destruct d; contradiction].
    - exact (proj1 (proj2 (proj2 (proj2 (proj2 (Ht id d f id' args Hd Hin Htype)))) HP)). }
  split; [|split].
  - (* reading *)
    intros ps n Hps Hn. destruct d as [t|fs|selector cases default|fs] eqn:Dd; cbn [unmarshal_def fields_of] in *.
    + eapply tot_weaken; [exact (tot_read_basic n _ t false (proj1 (Hsc id t Hd)))|]. intros v Hv. exists (DScalar t). auto.
    + apply tot_bind with (Q := Forall2 (slot_typed (typed S fuel)) fs).
      2:{ intros slots Hs. apply tot_ret. exists (DStruct fs). split; [exact Hd|]. eauto. }
      assert (L : forall rest pre done, fs = pre ++ rest -> Forall2 (slot_typed (typed S fuel)) pre done ->
        tot n (Forall2 (slot_typed (typed S fuel)) fs) (read_fields M ps done rest)).
      { induction rest as [|f rest IHr]; intros pre done Hfs Hdone; cbn [read_fields].
        - apply tot_ret. rewrite app_nil_r in Hfs. now subst pre.
        - apply tot_bind with (Q := slot_typed (typed S fuel) f).
          + apply (Fld n (length pre) f ps); auto.
            * rewrite Hfs, nth_error_app2, Nat.sub_diag by lia. reflexivity.
            * exists fuel, done. split.
              -- rewrite Hfs, firstn_app, Nat.sub_diag, firstn_all, firstn_O, app_nil_r. exact Hdone.
              -- rewrite Hfs, app_length. do 3 f_equal. lia.
          + intros s Hs. apply (IHr (pre ++ [f])); [rewrite Hfs, <- app_assoc; reflexivity|].
            apply Forall2_app; auto. }
      apply (L fs []); [reflexivity|constructor].
    + destruct (Hsel id selector cases default ps Hd Hps) as (sel & ->).
      destruct (select sel 0 cases default) as [[i f]|] eqn:Es.
      * destruct (select_nth _ _ _ _ _ _ Es) as [_ Hi]. rewrite Nat.sub_0_r in Hi.
        apply tot_bind with (Q := slot_typed (typed S fuel) f); [apply (Fld n i f ps); auto; reflexivity|].
        intros s Hs. apply tot_ret. exists (DChoice selector cases default). split; [exact Hd|].
        eexists _, _. split; [reflexivity|]. cbn [fields_of]. split; [apply only_length|].
        intros j g x Hj Hx. apply only_nth in Hx. destruct Hx as [<- ->]. assert (g = f) by congruence. subst g. exact Hs.
      * apply tot_ret. exists (DChoice selector cases default). split; [exact Hd|].
        eexists _, _. split; [reflexivity|]. cbn [fields_of]. split; [apply repeat_length|].
        intros j g x Hj Hx. rewrite repeat_nth in Hx. discriminate.
    + apply tot_bind_eats with (Q := fun v => (0 <= v <= MaxVarsize)%Z); [apply tot_varsize|apply eats_varsize|].
      intros tag n' _ Ln.
      destruct (if (tag <? 1)%Z then None else nth_error fs (Z.to_nat (tag - 1))) as [f|] eqn:En.
      * assert (Hi : nth_error fs (Z.to_nat (tag - 1)) = Some f) by (destruct (tag <? 1)%Z; [discriminate|exact En]).
        pose proof (nth_error_In _ _ Hi) as Hin.
        apply tot_bind with (Q := slot_typed (typed S fuel) f).
        -- apply tot_field with (I := I) (sh := shape S fuel).
           ++ apply (Hf id (DUnion fs) (Z.to_nat (tag - 1)) f ps); auto. reflexivity.
           ++ intros id' args k Htype Lk Gk. destruct (Rd n f id' args k Hn Hin Htype ltac:(lia) ltac:(lia)) as [R1 R2].
              split; [exact R1|]. intros Hpa. apply R2. exact (proj1 (proj2 (proj2 (proj2 (Ht id (DUnion fs) f id' args Hd Hin Htype)))) Hpa).
        -- intros s Hs. apply tot_ret. exists (DUnion fs). split; [exact Hd|].
           eexists _, _. split; [reflexivity|]. cbn [fields_of]. split; [apply only_length|].
           intros j g x Hj Hx. apply only_nth in Hx. destruct Hx as [<- ->]. assert (g = f) by congruence. subst g. exact Hs.
      * apply tot_ret. exists (DUnion fs). split; [exact Hd|].
        eexists _, _. split; [reflexivity|]. cbn [fields_of]. split; [apply repeat_length|].
        intros j g x Hj Hx. rewrite repeat_nth in Hx. discriminate.
  - (* contexts *)
    intros HP Hr. specialize (Cr HP Hr).
    assert (F : exists nd, create_fields M (fields_of d) (Node None []) = (nd, Ok tt) /\ fields_shape (shape S fuel) (fields_of d) nd).
    { apply (create_fields_total M (shape S fuel) (fields_of d) Cr None [] []). constructor. }
    cbn [shape]. destruct d as [t|fs|selector cases default|fs]; cbn [create_def fields_of] in *.
    + eexists. split; [reflexivity|]. eexists. split; [exact Hd|]. exists d_empty, []. split; [reflexivity|apply good_empty].
    + destruct F as (nd & -> & Hn). exists nd. split; [reflexivity|]. eexists. split; [exact Hd|]. exact Hn.
    + destruct F as (nd & -> & Hn). exists nd. split; [reflexivity|]. eexists. split; [exact Hd|]. exact Hn.
    + destruct F as (nd & -> & Hn). exists nd. split; [reflexivity|]. eexists. split; [exact Hd|]. exact Hn.
  - (* packed reading *)
    intros HP ps n Hps Hn. specialize (PFld HP).
    assert (Sh : forall nd, shape S (Datatypes.S fuel) id nd ->
      match d with DScalar _ => delta_node nd | _ => fields_shape (shape S fuel) (fields_of d) nd end).
    { intros nd (d' & Hd' & X). assert (d' = d) by congruence. subst d'. exact X. }
    assert (Sh' : forall nd, match d with DScalar _ => delta_node nd | _ => fields_shape (shape S fuel) (fields_of d) nd end ->
      shape S (Datatypes.S fuel) id nd).
    { intros nd X. exists d. auto. }
    assert (Go : forall Q (m : prog (node * rst) value),
      ptot n (fun nd => match d with DScalar _ => delta_node nd | _ => fields_shape (shape S fuel) (fields_of d) nd end) Q m ->
      ptot n (shape S (Datatypes.S fuel) id) Q m).
    { intros Q m X nd r Hnd Hr. specialize (X nd r (Sh nd Hnd) Hr).
      destruct (m (nd, r)) as [[nd' r'] [a|e| |]]; try exact X. destruct X as (X1 & X2 & X3). auto. }
    apply Go. clear Go Sh Sh'.
    destruct d as [t|fs|selector cases default|fs] eqn:Dd; cbn [punmarshal_def fields_of] in *.
    + destruct (tot_codec _ _ (proj2 (Hsc id t Hd) HP)) as (T & -> & T1 & T2).
      apply ptot_delta, ptot_d_read.
      * eapply tot_weaken; [apply T1|]. intros v Hv. exists (DScalar t). auto.
      * intros z. exists (DScalar t). split; [exact Hd|apply T2].
    + apply ptot_bind with (Q := Forall2 (slot_typed (typed S fuel)) fs).
      2:{ intros slots Hs. apply ptot_ret. exists (DStruct fs). split; [exact Hd|]. eauto. }
      assert (L : forall rest pre done, fs = pre ++ rest -> Forall2 (slot_typed (typed S fuel)) pre done ->
        ptot n (fields_shape (shape S fuel) fs) (Forall2 (slot_typed (typed S fuel)) fs) (pread_fields M ps done rest)).
      { induction rest as [|f rest IHr]; intros pre done Hfs Hdone; cbn [pread_fields].
        - apply ptot_ret. rewrite app_nil_r in Hfs. now subst pre.
        - assert (Hi : nth_error fs (length pre) = Some f).
          { rewrite Hfs, nth_error_app2, Nat.sub_diag by lia. reflexivity. }
          apply ptot_bind with (Q := slot_typed (typed S fuel) f).
          + rewrite <- (Forall2_len _ _ _ Hdone). eapply ptot_child; [exact Hi|].
            apply (PFld n (length pre) f ps); auto.
            * exists fuel, done. split.
              -- rewrite Hfs, firstn_app, Nat.sub_diag, firstn_all, firstn_O, app_nil_r. exact Hdone.
              -- rewrite Hfs, app_length. do 3 f_equal. lia.
          + intros s Hs. apply (IHr (pre ++ [f])); [rewrite Hfs, <- app_assoc; reflexivity|].
            apply Forall2_app; auto. }
      apply (L fs []); [reflexivity|constructor].
    + assert (Z : typed S (Datatypes.S fuel) id (VRec 0 (repeat None (length (choice_fields cases default))))).
      { exists (DChoice selector cases default). split; [exact Hd|].
        eexists _, _. split; [reflexivity|]. cbn [fields_of]. split; [apply repeat_length|].
        intros j g x Hj Hx. rewrite repeat_nth in Hx. discriminate. }
      destruct (has_cases cases); [|now apply ptot_ret].
      destruct (Hsel id selector cases default ps Hd Hps) as (sel & ->).
      destruct (select sel 0 cases default) as [[i f]|] eqn:Es; [|now apply ptot_ret].
      destruct (select_nth _ _ _ _ _ _ Es) as [_ Hi]. rewrite Nat.sub_0_r in Hi.
      apply ptot_bind with (Q := slot_typed (typed S fuel) f).
      * eapply ptot_child; [exact Hi|]. apply (PFld n i f ps); auto; reflexivity.
      * intros s Hs. apply ptot_ret. exists (DChoice selector cases default). split; [exact Hd|].
        eexists _, _. split; [reflexivity|]. cbn [fields_of]. split; [apply only_length|].
        intros j g x Hj Hx. apply only_nth in Hx. destruct Hx as [<- ->]. assert (g = f) by congruence. subst g. exact Hs.
    + apply ptot_ret. exists (DUnion fs). split; [exact Hd|].
      eexists _, _. split; [reflexivity|]. cbn [fields_of]. split; [apply repeat_length|].
      intros j g x Hj Hx. rewrite repeat_nth in Hx. discriminate.
Qed.
