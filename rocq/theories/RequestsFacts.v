(** Facts about the memory that decoding asks for. *)

Require Import ZArith List Bool Lia ZifyBool ZifyNat.
From Verif Require Import Bits BitsFacts Stream Spec Scalars Traits TraitSpec PrefixFacts Delta Array Schema SchemaSpec DecodeSpec DecodeFacts DecodeRange DecodeTotal Requests RequestsSpec.
Import ListNotations.
Open Scope Z_scope.
Open Scope io_scope.

Lemma total_app : forall a b, total (a ++ b) = total a + total b.
Proof. induction a as [|x a IH]; intros b; [reflexivity|]. cbn [app total fold_right] in *. unfold total in IH. rewrite IH. unfold total. lia. Qed.
Lemma left_pos : forall r, 0 <= left r. Proof. intros r. unfold left. lia. Qed.

(** Asking for at most [c] times the bits that are read; [k] more if reading fails. *)
Definition cost {A} (c k : Z) (m : reader A) (q : requests) : Prop := forall r,
  match m r with
  | (r', Ok _) => left r' <= left r /\ total (q r) <= c * (left r - left r')
  | _ => total (q r) <= c * left r + k
  end.
Definition shrinks {A} (m : reader A) : Prop := forall r r' a, m r = (r', Ok a) -> left r' <= left r.
Definition takes {A} (m : reader A) : Prop := forall r r' a, m r = (r', Ok a) -> left r' < left r.

Lemma pd_shrinks : forall {A} (m : reader A), prefix_determined m -> shrinks m.
Proof.
  intros A m H [pos rem] r' a E. destruct (H _ _ _ _ E) as (c & Hc & _). unfold left. cbn [rrem]. rewrite Hc, app_length. lia.
Qed.
Lemma needs_takes : forall {A} (m : reader A), prefix_determined m -> needs 1 m -> takes m.
Proof.
  intros A m H N [pos rem] r' a E. destruct (H _ _ _ _ E) as (c & Hc & _ & R & _). unfold left. cbn [rrem]. rewrite Hc, app_length.
  destruct c as [|b c]; [|cbn [length]; lia]. exfalso. specialize (R []). cbn [app] in R. destruct (N (mkR pos [])) as (x & e & X); [cbn; lia|]. congruence.
Qed.
Lemma needs_more : forall {A} (m : reader A) k k', (k' <= k)%nat -> needs k m -> needs k' m.
Proof. intros A m k k' L H r Hr. apply H. lia. Qed.
Lemma needs_one : forall b, wf_builtin b -> needs 1 (t_read (traits_of b)).
Proof.
  intros b H. apply DecodeFacts.wf_width in H. destruct b; cbn in H; cbn [traits_of t_read]; repeat first [apply needs_bits; lia|apply needs_full; lia|apply needs_bind].
Qed.
Lemma t_read_takes : forall b, wf_builtin b -> takes (t_read (vtraits b)).
Proof. intros b H. apply needs_takes; [apply pd_vtraits|]. apply needs_bind, needs_one, H. Qed.

(** ** Sequences *)

Lemma cost_weaken : forall {A} c k c' k' (m : reader A) q, c <= c' -> k <= k' -> cost c k m q -> cost c' k' m q.
Proof.
  intros A c k c' k' m q Hc Hk H r. specialize (H r). pose proof (left_pos r). destruct (m r) as [r' [a|e| |]]; [destruct H; split; [assumption|nia] | nia ..].
Qed.
Lemma cost_none : forall {A} c k (m : reader A), 0 <= c -> 0 <= k -> shrinks m -> cost c k m none.
Proof.
  intros A c k m Hc Hk H r. pose proof (left_pos r). unfold none, total. cbn [fold_right]. destruct (m r) as [r' [a|e| |]] eqn:E; [|nia ..].
  pose proof (H _ _ _ E). split; [assumption|nia].
Qed.
Lemma cost_then : forall {A B} c k (P : A -> Prop) (m : reader A) (f : A -> reader B) q q', 0 <= c -> 0 <= k -> cost c k m q -> yields m P -> (forall a, P a -> cost c k (f a) (q' a)) ->
  cost c k (rbind m f) (after q m q').
Proof.
  intros A B c k P m f q q' Hc Hk H1 HP H2 r. specialize (H1 r). unfold rbind, after. destruct (m r) as [r1 [a|e| |]] eqn:E; rewrite total_app;
    try (unfold total at 2; cbn [fold_right]; lia).
  destruct H1 as [L1 T1]. specialize (H2 a (HP _ _ _ E) r1). pose proof (left_pos r1). destruct (f a r1) as [r2 [b|e| |]]; [destruct H2; split; [lia|nia] | nia ..].
Qed.
Lemma cost_after : forall {A B} c k (m : reader A) (f : A -> reader B) q q', 0 <= c -> 0 <= k -> cost c k m q -> (forall a, cost c k (f a) (q' a)) ->
  cost c k (rbind m f) (after q m q').
Proof. intros. apply (cost_then c k (fun _ => True)); try assumption; [intros ? ? ? ?; exact I|auto]. Qed.
Lemma cost_ret : forall {A B} c k (m : reader A) (f : A -> B) q, cost c k m q -> cost c k (rbind m (fun a => rret (f a))) q.
Proof. intros A B c k m f q H r. specialize (H r). unfold rbind, rret. destruct (m r) as [r' [a|e| |]]; exact H. Qed.
Lemma cost_ext : forall {A} c k (m : reader A) q q', (forall r, q r = q' r) -> cost c k m q -> cost c k m q'.
Proof. intros A c k m q q' E H r. rewrite <- E. apply H. Qed.
Lemma cost_panic : forall {A} c k, 0 <= c -> 0 <= k -> cost c k (@rpanic A) none.
Proof. intros A c k Hc Hk r. unfold rpanic, none, total. cbn [fold_right]. pose proof (left_pos r). nia. Qed.

(** ** Buffers *)

Lemma full_left : forall k r r' l, read_full k r = (r', Ok l) -> 0 <= k -> left r - left r' = 8 * k.
Proof.
  intros k r r' l H K. unfold read_full in H. destruct (8 * k <=? Z.of_nat (length (rrem r))) eqn:L; [|discriminate]. injection H as <- _.
  unfold left. cbn [rrem]. rewrite skipn_length. lia.
Qed.
Lemma cost_buffer : forall {A} (f g : Z -> Z) (rest : Z -> list Z -> reader A) limit, MaxVarsize <= limit ->
  (forall n, 0 <= n <= MaxVarsize -> 0 <= g n /\ f n <= 8 * g n + 8 /\ 0 <= f n <= limit) -> (forall n l, shrinks (rest n l)) ->
  cost 1 limit (size <-r ReadVarsize; l <-r read_full (g size); rest size l) (buffer f).
Proof.
  intros A f g rest limit L H R r. pose proof (left_pos r) as P. unfold buffer, after, none, rbind. cbn [app].
  assert (T : takes ReadVarsize /\ forall r r' n, ReadVarsize r = (r', Ok n) -> left r' + 8 <= left r).
  { assert (G : needs 8 ReadVarsize) by (apply needs_bind, needs_bind, needs_bits; lia).
    split; [apply needs_takes; [apply pd_ReadVarsize|apply (needs_more _ 8); [lia|exact G]]|].
    intros [pos rem] r' n E. destruct (pd_ReadVarsize _ _ _ _ E) as (c & Hc & _ & Q & _). unfold left. cbn [rrem]. rewrite Hc, app_length.
    destruct (Nat.lt_ge_cases (length c) 8) as [S|S]; [|lia]. exfalso. specialize (Q []). rewrite app_nil_r in Q.
    destruct (G (mkR pos c)) as (x & e & X); [exact S|]. congruence. }
  destruct (ReadVarsize r) as [r1 [n|e| |]] eqn:E; try (unfold total; cbn [fold_right]; unfold MaxVarsize in *; lia).
  pose proof (ReadVarsize_range _ _ _ E) as B. destruct (H n B) as (G & F & Fl). pose proof (proj2 T _ _ _ E) as T1. pose proof (left_pos r1).
  destruct (read_full (g n) r1) as [r2 [l|e| |]] eqn:E2; try (unfold total; cbn [fold_right]; lia).
  pose proof (full_left _ _ _ _ E2 G). destruct (rest n l r2) as [r3 [a|e| |]] eqn:E3; try (unfold total; cbn [fold_right]; lia).
  pose proof (R _ _ _ _ _ E3). unfold total; cbn [fold_right]. split; lia.
Qed.
Lemma shrinks_ret : forall {A} (a : A), shrinks (rret a).
Proof. intros A a r r' x H. injection H as <- _. lia. Qed.
Lemma cost_builtin : forall b limit, MaxVarsize <= limit -> cost 1 limit (t_read (traits_of b)) (builtin_requests b).
Proof.
  intros b limit L. assert (P : 0 <= limit) by (unfold MaxVarsize in L; lia).
  destruct b; cbn [builtin_requests]; try (apply cost_none; [lia|exact P|apply pd_shrinks, pd_t_read]); cbn [traits_of t_read StringArrayTraits BytesArrayTraits BitBufferArrayTraits].
  - assert (C := cost_buffer (fun n => n) (fun n => n) (fun _ l => rret l) limit L). intros r. specialize (C ltac:(intros; lia) ltac:(intros; apply shrinks_ret) r).
    unfold ReadString. unfold rbind in *. unfold rret in C. destruct (ReadVarsize r) as [r1 [n|e| |]]; try exact C. destruct (read_full n r1) as [r2 [l|e| |]]; exact C.
  - apply cost_ret. apply (cost_buffer (fun n => n) (fun n => n) (fun n l => rret (n, l)) limit L); [intros; lia|intros; apply shrinks_ret].
  - apply cost_ret. apply (cost_buffer (fun n => n / 8 + 1) (fun n => n / 8) (fun n l => if n mod 8 =? 0 then rret (n, l) else
      lastByte <-r read_bits (Z.to_nat (n mod 8)); rret (n, l ++ [to_u 8 (u64 (Z.shiftl lastByte (8 - n mod 8)))])) limit L).
    + intros n B. assert (0 <= n / 8 <= MaxVarsize / 8) by (split; [apply Z.div_pos; lia|apply Z.div_le_mono; lia]). unfold MaxVarsize in *. cbn in H. lia.
    + intros n l. destruct (n mod 8 =? 0); [apply shrinks_ret|]. apply pd_shrinks, pd_bind; [apply pd_read_bits|intros; apply pd_ret].
Qed.
Lemma cost_basic : forall E t limit, MaxVarsize <= limit -> cost 1 limit (read_basic E t) (basic_requests t).
Proof.
  intros E t limit L. assert (P : 0 <= limit) by (unfold MaxVarsize in L; lia). destruct t as [b|signed g w].
  - cbn [read_basic basic_requests]. apply cost_ret. pose proof (cost_builtin b limit L) as C. destruct b; try exact C; apply cost_none; try lia; apply pd_shrinks, pd_std_read.
  - apply cost_none; [lia|exact P|]. apply pd_shrinks, pd_read_basic.
Qed.
Lemma codec_builtin : forall E t T, codec_of E t = Ok T -> exists b, T = vtraits b /\
  (match t with Std b => wf_builtin b | Bits _ _ w => forall n, w E = Some n -> 1 <= to_u 8 n end -> takes (t_read T)) /\
  (forall limit, MaxVarsize <= limit -> cost 1 limit (t_read T) (basic_requests t)).
Proof.
  intros E t T H. destruct t as [b|signed g w]; cbn [codec_of] in H.
  - injection H as <-. exists b. split; [reflexivity|]. split; [apply t_read_takes|]. intros limit L. cbn [vtraits t_read basic_requests]. apply cost_ret, cost_builtin, L.
  - cbv zeta in H. destruct (w E) as [n|] eqn:Ew; [|discriminate]. destruct (64 <=? to_u 8 n); [discriminate|]. injection H as <-. eexists. split; [reflexivity|]. split.
    + intros W. specialize (W n eq_refl). apply needs_takes; [apply pd_vtraits|]. apply needs_bind. destruct signed; cbn [traits_of t_read]; repeat first [apply needs_bits; lia|apply needs_bind].
    + intros limit L. apply cost_none; [lia|unfold MaxVarsize in L; lia|]. apply pd_shrinks, pd_vtraits.
Qed.

(** ** Arrays *)

Lemma cost_elements : forall {A N} (K : elemops A N) q cfg c k, a_packed cfg = false -> a_check cfg = false -> 0 <= c -> 0 <= k ->
  (forall i, takes (k_read K i)) -> (forall i, cost c k (k_read K i) (q i)) ->
  forall n i ctx r, match read_elems K cfg i n (ctx, r) with
    | ((_, r'), Ok es) => length es = n /\ left r' + Z.of_nat n <= left r /\ total (elements q (k_read K) i n r) <= c * (left r - left r')
    | _ => total (elements q (k_read K) i n r) <= c * left r + k
    end.
Proof.
  intros A N K q cfg c k Hp Hk Hc Hk0 Ht Hq. induction n as [|n IH]; intros i ctx r.
  - cbn [read_elems elements]. unfold sret, none, total. cbn [fold_right length]. split; [reflexivity|]. lia.
  - cbn [read_elems elements]. unfold read_elem. rewrite Hp, Hk. unfold sbind at 1 2, sret at 1. unfold on_stream at 1, after. specialize (Hq i r). specialize (Ht i r).
    pose proof (left_pos r). destruct (k_read K i r) as [r1 [e|e| |]] eqn:E1; rewrite total_app; try (unfold total at 2; cbn [fold_right]; lia).
    specialize (Ht _ _ eq_refl). destruct Hq as [L1 T1]. specialize (IH (Datatypes.S i) ctx r1). unfold sbind. pose proof (left_pos r1).
    destruct (read_elems K cfg (Datatypes.S i) n (ctx, r1)) as [[ctx2 r2] [es|e2| |]]; try nia.
    destruct IH as (Ln & L2 & T2). unfold sret. cbn [length]. split; [congruence|]. split; [lia|]. nia.
Qed.
Lemma cost_array : forall {A N} (K : elemops A N) q cfg c k limit, a_packed cfg = false -> a_check cfg = false -> 0 <= c -> 0 <= k -> MaxVarsize <= limit -> a_fixed cfg <= limit ->
  (forall i, takes (k_read K i)) -> (forall i, cost c k (k_read K i) (q i)) ->
  cost (c + 1) (k + limit) (read_array K cfg) (array_requests K q cfg) /\
  (forall r r' es, read_array K cfg r = (r', Ok es) -> left r' + Z.of_nat (length es) <= left r).
Proof.
  intros A N K q cfg c k limit Hp Hk Hc Hk0 L Lf Ht Hq.
  assert (Z : forall r, match array_size cfg r with (r1, Ok size) => left r1 <= left r /\ size <= limit | (_, Err _) => True | _ => False end /\
              read_array K cfg r = match array_size cfg r with
                | (r1, Ok size) => if size <? 0 then (r1, Panic) else if size =? 0 then (r1, Ok []) else
                    match read_elems K cfg 0 (Z.to_nat size) (None, r1) with ((_, r'), o) => (r', o) end
                | (r1, Err e) => (r1, Err e) | (r1, Panic) => (r1, Panic) | (r1, NoFuel) => (r1, NoFuel) end).
  { intros r. unfold read_array, with_ctx, array_unmarshal, array_size. rewrite Hp. destruct (a_auto cfg).
    - unfold sbind, on_stream, rbind, rret, sret. pose proof (np_ReadVarsize r) as Np. destruct (ReadVarsize r) as [r1 [v|e| |]] eqn:E; cbn [snd] in Np.
      + pose proof (ReadVarsize_range _ _ _ E) as B. assert (V : i64 v = v) by (apply to_s_small; unfold MaxVarsize in B; cbn; lia). rewrite V.
        split; [split; [exact (pd_shrinks _ pd_ReadVarsize _ _ _ E)|lia]|]. destruct (v <? 0); [reflexivity|]. destruct (v =? 0); reflexivity.
      + split; [exact I|reflexivity].
      + destruct Np as [[x Np]|[x Np]]; discriminate.
      + destruct Np as [[x Np]|[x Np]]; discriminate.
    - unfold sbind, sret, rret. split; [split; [lia|exact Lf]|]. destruct (a_fixed cfg <? 0); [reflexivity|]. destruct (a_fixed cfg =? 0); reflexivity. }
  split.
  - intros r. destruct (Z r) as [Z1 Z2]. rewrite Z2. unfold array_requests, after, none. rewrite Hp. cbn [app]. pose proof (left_pos r).
    destruct (array_size cfg r) as [r1 [size|e| |]]; try contradiction; [|unfold total; cbn [fold_right]; unfold MaxVarsize in L; nia].
    destruct Z1 as [L1 S1]. cbn [total fold_right]. fold (total (elements q (k_read K) 0 (Z.to_nat size) r1)). pose proof (left_pos r1).
    destruct (size <? 0) eqn:N0; [replace (Z.to_nat size) with 0%nat by lia; cbn [elements]; unfold none, total; cbn [fold_right]; unfold MaxVarsize in L; nia|].
    destruct (size =? 0) eqn:N1; [replace (Z.to_nat size) with 0%nat by lia; cbn [elements]; unfold none, total; cbn [fold_right]; split; [exact L1|nia]|].
    pose proof (cost_elements K q cfg c k Hp Hk Hc Hk0 Ht Hq (Z.to_nat size) 0%nat None r1) as C.
    destruct (read_elems K cfg 0 (Z.to_nat size) (None, r1)) as [[ctx r2] [es|e| |]]; try nia.
  - intros r r' es H. destruct (Z r) as [Z1 Z2]. rewrite Z2 in H. destruct (array_size cfg r) as [r1 [size|e| |]]; try discriminate. destruct Z1 as [L1 S1].
    destruct (size <? 0); [discriminate|]. destruct (size =? 0); [injection H as <- <-; cbn [length]; lia|].
    pose proof (cost_elements K q cfg c k Hp Hk Hc Hk0 Ht Hq (Z.to_nat size) 0%nat None r1) as C.
    destruct (read_elems K cfg 0 (Z.to_nat size) (None, r1)) as [[ctx r2] [es'|e| |]]; try discriminate. injection H as <- <-. destruct C as (Ln & L2 & T2). lia.
Qed.

(** ** Types of decoded values *)

Lemma yields_read_basic : forall E t, go_basic t -> yields (read_basic E t) (basic_typed t).
Proof.
  intros E [b|signed g w] H; cbn [read_basic go_basic] in *.
  - apply yields_bind with (P := go_value b); [eapply yields_weaken; [now apply yields_std_read|intros e He; now apply range_go]|]. intros e He. apply yields_ret. cbn. eauto.
  - destruct (w E) as [n|]; [|intros ? ? ? X; discriminate]. apply yields_bind with (P := fun _ => True); [intros ? ? ? _; exact I|]. intros z _. apply yields_ret. cbn.
    eexists. split; [reflexivity|now apply gconv_value].
Qed.
Lemma yields_codec_typed : forall E t T, go_basic t -> codec_of E t = Ok T -> yields (t_read T) (basic_typed t).
Proof.
  intros E [b|signed g w] T H C; cbn [codec_of go_basic] in *.
  - injection C as <-. apply yields_bind with (P := go_value b); [eapply yields_weaken; [now apply yields_t_read|intros e He; now apply range_go]|]. intros e He. apply yields_ret. cbn. eauto.
  - destruct (w E) as [n|]; [|discriminate]. cbv zeta in C. destruct (64 <=? to_u 8 n); [discriminate|]. injection C as <-.
    destruct signed; (apply yields_bind with (P := gvalue g); [|intros e He; apply yields_ret; cbn; eauto]); cbn [traits_of t_read BitFieldArrayTraits SignedBitFieldArrayTraits];
      (eapply yields_bind; [apply yields_bits|]; intros v Hv; apply yields_ret; now apply gconv_value).
Qed.
Lemma yields_elems : forall {A N} (K : elemops A N) cfg (Q : A -> Prop), a_packed cfg = false -> (forall i, yields (k_read K i) Q) -> yields (read_array K cfg) (Forall Q).
Proof.
  intros A N K cfg Q Hp H r r' es E. destruct (yields_array K cfg Hp r r' es E) as [_ G]. apply Forall_forall. intros x Hx.
  apply In_nth_error in Hx as [j Hj]. destruct (G j x Hj) as (r1 & r2 & R). exact (H j _ _ _ R).
Qed.
Lemma config_packed : forall E len packed cfg, array_config E len packed = Some cfg -> a_packed cfg = packed /\ a_check cfg = false.
Proof.
  intros E len packed cfg H. unfold array_config in H. destruct len as [l|]; [|injection H as <-; now split]. destruct (l E); [|discriminate]. injection H as <-. now split.
Qed.
Lemma yields_field : forall M ty E f, (forall t, f_type f = TBasic t -> go_basic t) -> ~ packed_array f -> (forall id ps, yields (m_unmarshal M id ps) (ty id)) ->
  yields (read_field M E f) (slot_typed ty f).
Proof.
  intros M ty E f Hb Hp HM. unfold read_field. destruct (included E f) as [[|]|] eqn:Hi.
  - apply yields_bind with (P := fun _ => True); [intros ? ? ? _; exact I|]. intros _ _.
    assert (C : yields (read_content M E f) (content_typed ty f)).
    { unfold read_content, content_typed. destruct (f_array f) as [[len packed]|] eqn:Ha.
      - destruct packed; [exfalso; apply Hp; now exists len|]. apply yields_bind with (P := Forall (item_typed ty (f_type f))); [|intros es He; apply yields_ret; eauto].
        unfold read_field_array. destruct (f_type f) as [t|id args] eqn:Ht; cbn [item_typed].
        + destruct (codec_of E t) as [T|e| |] eqn:Ec; try (intros ? ? ? X; discriminate). destruct (array_config E len false) as [cfg|] eqn:Eg; [|intros ? ? ? X; discriminate].
          apply yields_elems; [apply (config_packed _ _ _ _ Eg)|]. intros i. exact (yields_codec_typed E t T (Hb t eq_refl) Ec).
        + destruct (array_config E len false) as [cfg|] eqn:Eg; [|intros ? ? ? X; discriminate].
          apply yields_elems; [apply (config_packed _ _ _ _ Eg)|]. intros i. cbn [object_ops k_read]. destruct (args E i); [apply HM|intros ? ? ? X; discriminate].
      - destruct (f_type f) as [t|id args]; cbn [item_typed]; [apply yields_read_basic, Hb; reflexivity|]. destruct (args E 0%nat); [apply HM|intros ? ? ? X; discriminate]. }
    assert (Y : yields (v <-r read_content M E f; rret (Some v)) (slot_typed ty f)).
    { apply yields_bind with (P := content_typed ty f); [exact C|]. intros v Hv. apply yields_ret. exact Hv. }
    destruct (f_optional f) eqn:Ho; [|exact Y]. apply yields_bind with (P := fun _ => True); [intros ? ? ? _; exact I|]. intros [|] _; [exact Y|]. apply yields_ret. now left.
  - apply yields_ret. right. unfold included in Hi. destruct (f_clause f); discriminate.
  - intros ? ? ? X. discriminate.
Qed.
Theorem decode_typed : forall S, go_types S -> no_packed_arrays S -> forall n id ps, yields (UnmarshalZserio S n id ps) (typed S n id).
Proof.
  intros S [Gs Gf] Np. induction n as [|n IH]; intros id ps; [intros ? ? ? X; discriminate|]. unfold UnmarshalZserio. cbn [run m_unmarshal]. unfold of_def.
  destruct (nth_error S id) as [d|] eqn:Hd; [|intros ? ? ? X; discriminate].
  assert (F : forall f E, In f (fields_of d) -> yields (read_field (run S n) E f) (slot_typed (typed S n) f)).
  { intros f E Hf. apply yields_field; [intros t Ht; exact (Gf id d f t Hd Hf Ht)|exact (Np id d f Hd Hf)|exact IH]. }
  destruct d as [t|fs|selector cases default|fs]; cbn [unmarshal_def fields_of] in *.
  - eapply yields_weaken; [apply yields_read_basic, (Gs id t Hd)|]. intros v Hv. exists (DScalar t). auto.
  - apply yields_bind with (P := Forall2 (slot_typed (typed S n)) fs); [|intros slots Hs; apply yields_ret; exists (DStruct fs); split; [exact Hd|eauto]].
    assert (L : forall rest pre done, fs = pre ++ rest -> Forall2 (slot_typed (typed S n)) pre done -> yields (read_fields (run S n) ps done rest) (Forall2 (slot_typed (typed S n)) fs)).
    { induction rest as [|f rest IHr]; intros pre done Hfs Hdone; cbn [read_fields]; [apply yields_ret; rewrite app_nil_r in Hfs; now subst pre|].
      apply yields_bind with (P := slot_typed (typed S n) f); [apply F; rewrite Hfs; apply in_or_app; right; now left|]. intros s Hs.
      apply (IHr (pre ++ [f])); [rewrite Hfs, <- app_assoc; reflexivity|]. apply Forall2_app; auto. }
    apply (L fs []); [reflexivity|constructor].
  - destruct (selector ps) as [sel|]; [|intros ? ? ? X; discriminate]. destruct (select sel 0 cases default) as [[i f]|] eqn:Es.
    + destruct (select_nth _ _ _ _ _ _ Es) as [_ Hi]. rewrite Nat.sub_0_r in Hi. apply yields_bind with (P := slot_typed (typed S n) f); [apply F, (nth_error_In _ _ Hi)|].
      intros s Hs. apply yields_ret. exists (DChoice selector cases default). split; [exact Hd|]. eexists _, _. split; [reflexivity|]. cbn [fields_of]. split; [apply only_length|].
      intros j g x Hj Hx. apply only_nth in Hx. destruct Hx as [<- ->]. assert (g = f) by congruence. subst g. exact Hs.
    + apply yields_ret. exists (DChoice selector cases default). split; [exact Hd|]. eexists _, _. split; [reflexivity|]. cbn [fields_of]. split; [apply repeat_length|].
      intros j g x Hj Hx. rewrite repeat_nth in Hx. discriminate.
  - apply yields_bind with (P := fun _ => True); [intros ? ? ? _; exact I|]. intros tag _.
    destruct (if tag <? 1 then None else nth_error fs (Z.to_nat (tag - 1))) as [f|] eqn:Ef.
    + assert (Hi : nth_error fs (Z.to_nat (tag - 1)) = Some f) by (destruct (tag <? 1); [discriminate|exact Ef]).
      apply yields_bind with (P := slot_typed (typed S n) f); [apply F, (nth_error_In _ _ Hi)|].
      intros s Hs. apply yields_ret. exists (DUnion fs). split; [exact Hd|]. eexists _, _. split; [reflexivity|]. cbn [fields_of]. split; [apply only_length|].
      intros j g x Hj Hx. apply only_nth in Hx. destruct Hx as [<- ->]. assert (g = f) by congruence. subst g. exact Hs.
    + apply yields_ret. exists (DUnion fs). split; [exact Hd|]. eexists _, _. split; [reflexivity|]. cbn [fields_of]. split; [apply repeat_length|].
      intros j g x Hj Hx. rewrite repeat_nth in Hx. discriminate.
Qed.

(** ** Objects *)

Definition object_cost (S : schema) (params : nat -> list value -> Prop) (limit : Z) (d : nat) : Prop :=
  forall id ps, params id ps -> cost (2 * Z.of_nat d + 1) ((Z.of_nat d + 1) * limit) (UnmarshalZserio S d id ps) (object_requests S d id ps).
Lemma cost_field : forall S params limit n d id i f ps E, go_types S -> passes S params -> dense S params -> no_packed_arrays S -> limited S params limit -> MaxVarsize <= limit -> object_cost S params limit n ->
  nth_error S id = Some d -> nth_error (fields_of d) i = Some f -> params id ps -> view S d i ps E ->
  cost (2 * Z.of_nat (Datatypes.S n) + 1) ((Z.of_nat (Datatypes.S n) + 1) * limit) (read_field (run S n) E f) (field_requests (run S n) (object_requests S n) E f).
Proof.
  intros S params limit n d id i f ps E Go Pa D Np Lm L C Hd Hi Hps HV. pose proof (nth_error_In _ _ Hi) as Hf. set (c := 2 * Z.of_nat (Datatypes.S n) + 1). set (k := (Z.of_nat (Datatypes.S n) + 1) * limit).
  assert (P : 0 <= limit) by (unfold MaxVarsize in L; lia). assert (Pc : 3 <= c) by lia. assert (Pk : 2 * limit <= k) by nia.
  assert (B : cost c k (read_content (run S n) E f) (content_requests (run S n) (object_requests S n) E f)).
  { unfold read_content, content_requests. destruct (f_array f) as [[len packed]|] eqn:Ha.
    - assert (Up : packed = false) by (destruct packed; [|reflexivity]; exfalso; apply (Np id d f Hd Hf); exists len; exact Ha). subst packed.
      pose proof (D id d i f len false ps E Hd Hi Hps HV Ha) as Dn. pose proof (fun t => proj2 Go id d f t Hd Hf) as Gb. pose proof (fun id' args j => Pa id d i f id' args j ps E) as Pf. apply cost_ret. unfold read_field_array, field_array_requests.
      assert (Cf : forall cfg, array_config E len false = Some cfg -> a_packed cfg = false /\ a_check cfg = false /\ a_fixed cfg <= limit).
      { intros cfg H. unfold array_config in H. destruct len as [l|]; [|injection H as <-; cbn; lia]. destruct (l E) as [m|] eqn:El; [|discriminate]. injection H as <-.
        cbn. split; [reflexivity|]. split; [reflexivity|]. exact (Lm id d i f l false ps E m Hd Hi Hps HV Ha El). }
      destruct (f_type f) as [t|id' args].
      + destruct (codec_of E t) as [T|e| |] eqn:Ec; [|destruct (array_config E len false); apply cost_panic; lia ..].
        destruct (array_config E len false) as [cfg|] eqn:Eg; [|apply cost_panic; lia]. destruct (Cf _ eq_refl) as (F1 & F2 & F3).
        destruct (codec_builtin E t T Ec) as (b & _ & W & Cb).
        destruct (cost_array (trait_ops T) (fun _ => basic_requests t) cfg 1 limit limit F1 F2 ltac:(lia) P L F3) as [A1 A2].
        { intros j. cbn [trait_ops k_read]. apply W. destruct t; [exact (Gb _ eq_refl)|exact Dn]. }
        { intros j. apply Cb, L. }
        intros r. specialize (A1 r). unfold after. rewrite total_app. pose proof (left_pos r). destruct (read_array (trait_ops T) cfg r) as [r' [es|e| |]] eqn:Er;
          try (unfold total at 2; cbn [fold_right]; nia).
        specialize (A2 _ _ _ Er). destruct A1 as [A3 A4]. split; [exact A3|]. pose proof (left_pos r'). destruct (f_cast f); unfold total at 2; cbn [fold_right]; nia.
      + destruct (array_config E len false) as [cfg|] eqn:Eg; [|apply cost_panic; lia]. destruct (Cf _ eq_refl) as (F1 & F2 & F3).
        apply (cost_weaken (2 * Z.of_nat n + 1 + 1) ((Z.of_nat n + 1) * limit + limit)); [lia|nia|].
        apply (proj1 (cost_array (object_ops (run S n) E id' args) (fun i => match args E i with Some ps => object_requests S n id' ps | None => none end)
          cfg (2 * Z.of_nat n + 1) ((Z.of_nat n + 1) * limit) limit F1 F2 ltac:(lia) ltac:(nia) L F3
          ltac:(intros j; cbn [object_ops k_read]; destruct (args E j) as [ps'|] eqn:Ea; [intros r r' v; exact (Dn n j ps' r r' v Ea)|discriminate])
          ltac:(intros j; cbn [object_ops k_read]; destruct (args E j) as [ps'|] eqn:Ea; [exact (C id' ps' (Pf id' args j ps' Hd Hi Hps HV eq_refl Ea))|apply cost_panic; nia]))).
    - destruct (f_type f) as [t|id' args] eqn:Ht; [apply (cost_weaken 1 limit); [lia|lia|apply cost_basic, L]|].
      destruct (args E 0%nat) as [ps'|] eqn:Ea; [|apply cost_panic; lia]. apply (cost_weaken (2 * Z.of_nat n + 1) ((Z.of_nat n + 1) * limit)); [lia|nia|]. exact (C id' ps' (Pa id d i f id' args 0%nat ps E ps' Hd Hi Hps HV Ht Ea)). }
  unfold read_field, field_requests. destruct (included E f) as [[|]|]; [|apply cost_none; [lia|lia|apply shrinks_ret]|apply cost_panic; lia].
  apply cost_after; [lia|lia|apply cost_none; [lia|lia|apply pd_shrinks, pd_ralign_opt]|]. intros _.
  destruct (f_optional f); [|apply cost_ret, B]. apply cost_after; [lia|lia|apply cost_none; [lia|lia|apply pd_shrinks, pd_read_bool]|].
  intros [|]; [apply cost_ret, B|]. apply cost_none; [lia|lia|apply shrinks_ret].
Qed.
Lemma view_struct : forall S fs n pre rest done ps, fs = pre ++ rest -> Forall2 (slot_typed (typed S n)) pre done ->
  view S (DStruct fs) (length pre) ps (mkE ps (done ++ repeat None (length rest))).
Proof.
  intros S fs n pre rest done ps -> H. exists n, done. split; [rewrite firstn_app, Nat.sub_diag, firstn_all, firstn_O, app_nil_r; exact H|]. rewrite app_length. do 3 f_equal. lia.
Qed.
Lemma cost_fields : forall S params limit n fs id ps, go_types S -> passes S params -> dense S params -> no_packed_arrays S -> limited S params limit -> MaxVarsize <= limit -> object_cost S params limit n ->
  nth_error S id = Some (DStruct fs) -> params id ps -> forall rest pre done, fs = pre ++ rest -> Forall2 (slot_typed (typed S n)) pre done ->
  cost (2 * Z.of_nat (Datatypes.S n) + 1) ((Z.of_nat (Datatypes.S n) + 1) * limit) (read_fields (run S n) ps done rest) (fields_requests (run S n) (object_requests S n) ps done rest).
Proof.
  intros S params limit n fs id ps Go Pa D Np Lm L C Hd Hps. assert (P : 0 <= limit) by (unfold MaxVarsize in L; lia).
  induction rest as [|f rest IH]; intros pre done Hfs Hdone; cbn [read_fields fields_requests]; [apply cost_none; [lia|nia|apply shrinks_ret]|]. cbv zeta.
  assert (Hi : nth_error fs (length pre) = Some f) by (rewrite Hfs, nth_error_app2, Nat.sub_diag by lia; reflexivity).
  apply cost_then with (P := slot_typed (typed S n) f); [lia|nia| | |].
  - apply (cost_field S params limit n (DStruct fs) id (length pre) f ps); try assumption. exact (view_struct S fs n pre (f :: rest) done ps Hfs Hdone).
  - apply yields_field; [|exact (Np id (DStruct fs) f Hd (nth_error_In _ _ Hi))|exact (decode_typed S Go Np n)].
    intros t Ht. exact (proj2 Go id (DStruct fs) f t Hd (nth_error_In _ _ Hi) Ht).
  - intros s Hs. apply (IH (pre ++ [f])); [rewrite Hfs, <- app_assoc; reflexivity|]. apply Forall2_app; auto.
Qed.
Theorem object_costs : forall S params limit, go_types S -> passes S params -> dense S params -> no_packed_arrays S -> limited S params limit -> MaxVarsize <= limit -> forall n, object_cost S params limit n.
Proof.
  intros S params limit Go Pa D Np Lm L. assert (P : 0 <= limit) by (unfold MaxVarsize in L; lia). induction n as [|n IH]; intros id ps Hps.
  - intros r. pose proof (left_pos r). cbn [object_requests]. unfold UnmarshalZserio. cbn [run no_methods m_unmarshal]. unfold none, total. cbn [fold_right]. nia.
  - unfold UnmarshalZserio. cbn [run m_unmarshal object_requests]. unfold of_def. destruct (nth_error S id) as [d|] eqn:Hd; [|apply cost_panic; [lia|nia]].
    destruct d as [t|fs|selector cases default|fs]; cbn [unmarshal_def def_requests].
    + apply (cost_weaken 1 limit); [lia|nia|apply cost_basic, L].
    + apply cost_ret. apply (cost_fields S params limit n fs id ps) with (pre := []); try assumption; [reflexivity|constructor].
    + cbv zeta. destruct (selector ps) as [sel|]; [|apply cost_panic; [lia|nia]]. destruct (select sel 0 cases default) as [[i f]|] eqn:Es; [|apply cost_none; [lia|nia|apply shrinks_ret]].
      destruct (select_nth _ _ _ _ _ _ Es) as [_ Hi]. rewrite Nat.sub_0_r in Hi.
      apply cost_ret. apply (cost_field S params limit n (DChoice selector cases default) id i f ps); try assumption. reflexivity.
    + cbv zeta. apply cost_after; [lia|nia|apply cost_none; [lia|nia|apply pd_shrinks, pd_ReadVarsize]|]. intros tag.
      destruct (if tag <? 1 then None else nth_error fs (Z.to_nat (tag - 1))) as [f|] eqn:Ef; [|apply cost_none; [lia|nia|apply shrinks_ret]].
      apply cost_ret. apply (cost_field S params limit n (DUnion fs) id (Z.to_nat (tag - 1)) f ps); try assumption; [|reflexivity]. destruct (tag <? 1); [discriminate|exact Ef].
Qed.

(** ** Each slice *)

Definition each (limit : Z) (q : requests) : Prop := forall r n, In n (q r) -> n <= limit.
Lemma each_none : forall limit, each limit none. Proof. intros limit r n []. Qed.
Lemma each_after : forall {A} limit q (m : reader A) k, each limit q -> (forall a, each limit (k a)) -> each limit (after q m k).
Proof.
  intros A limit q m k H1 H2 r n H. apply in_app_or in H as [H|H]; [exact (H1 _ _ H)|]. destruct (m r) as [r' [a|e| |]]; [exact (H2 _ _ _ H)|contradiction ..].
Qed.
Lemma each_basic : forall limit t, MaxVarsize <= limit -> each limit (basic_requests t).
Proof.
  intros limit t L. assert (B : forall f, (forall n, 0 <= n <= MaxVarsize -> f n <= limit) -> each limit (buffer f)).
  { intros f F r n H. unfold buffer, after, none in H. cbn [app] in H. destruct (ReadVarsize r) as [r' [v|e| |]] eqn:E; try contradiction.
    destruct H as [<-|[]]. apply F. exact (ReadVarsize_range _ _ _ E). }
  destruct t as [b|]; [destruct b|]; try apply each_none; apply B; intros n Hn; try lia.
  assert (n / 8 <= MaxVarsize / 8) by (apply Z.div_le_mono; lia). unfold MaxVarsize in *. cbn in H. lia.
Qed.
Lemma each_elements : forall {A} limit q (m : nat -> reader A), (forall i, each limit (q i)) -> forall n i, each limit (elements q m i n).
Proof. intros A limit q m H. induction n as [|n IH]; intros i; [apply each_none|]. apply each_after; [apply H|intros _; apply IH]. Qed.
Lemma each_array : forall {A N} (K : elemops A N) limit q cfg, MaxVarsize <= limit -> a_fixed cfg <= limit -> (forall i, each limit (q i)) -> each limit (array_requests K q cfg).
Proof.
  intros A N K limit q cfg L F H r n I. unfold array_requests, after, none, array_size in I. cbn [app] in I.
  assert (E : forall size r', size <= limit -> In n (size :: (if a_packed cfg then [] else elements q (k_read K) 0 (Z.to_nat size) r')) -> n <= limit).
  { intros size r' Hs [<-|J]; [exact Hs|]. destruct (a_packed cfg); [contradiction|]. exact (each_elements limit q (k_read K) H _ _ _ _ J). }
  destruct (a_auto cfg); [|exact (E _ _ F I)]. unfold rbind, rret in I. destruct (ReadVarsize r) as [r' [v|e| |]] eqn:Ev; try contradiction.
  pose proof (ReadVarsize_range _ _ _ Ev) as B. assert (V : i64 v = v) by (apply to_s_small; unfold MaxVarsize in B; cbn; lia). rewrite V in I. apply (E v r'); [lia|exact I].
Qed.
Lemma read_array_length : forall {A N} (K : elemops A N) cfg limit r r' es, MaxVarsize <= limit -> a_fixed cfg <= limit -> read_array K cfg r = (r', Ok es) -> Z.of_nat (length es) <= limit.
Proof.
  intros A N K cfg limit r r' es L F H.
  assert (G : forall n i s s' l, read_elems K cfg i n s = (s', Ok l) -> length l = n).
  { induction n as [|n IH]; intros i s s' l G; cbn [read_elems] in G; [now injection G as _ <-|]. unfold sbind in G.
    destruct (read_elem K cfg i s) as [s1 [e|e| |]]; try discriminate. destruct (read_elems K cfg (Datatypes.S i) n s1) as [s2 [l2|e2| |]] eqn:E2; try discriminate.
    injection G as _ <-. cbn [length]. f_equal. exact (IH _ _ _ _ E2). }
  assert (E : forall size s s' l, size <= limit -> (if size <? 0 then (fun s => (s, Panic)) else if size =? 0 then sret [] else
      (if a_packed cfg then new_context K else sret tt) ;;s read_elems K cfg 0 (Z.to_nat size)) s = (s', Ok l) -> Z.of_nat (length l) <= limit).
  { intros size s s' l Hs J. destruct (size <? 0) eqn:Q; [discriminate|]. destruct (size =? 0); [injection J as _ <-; cbn [length]; unfold MaxVarsize in L; lia|].
    unfold sbind in J. destruct ((if a_packed cfg then new_context K else sret tt) s) as [s1 [u|e| |]]; try discriminate. rewrite (G _ _ _ _ _ J). lia. }
  unfold read_array, with_ctx, array_unmarshal in H. unfold sbind at 1 in H. destruct (a_auto cfg).
  - unfold on_stream, rbind, rret in H. destruct (ReadVarsize r) as [r1 [v|e| |]] eqn:Ev; try discriminate. pose proof (ReadVarsize_range _ _ _ Ev) as B.
    assert (V : i64 v = v) by (apply to_s_small; unfold MaxVarsize in B; cbn; lia). rewrite V in H.
    match type of H with (let (_, _) := ?x in _) = _ => destruct x as [[c s] o] eqn:Ex end. injection H as _ ->. apply (E v _ _ _ ltac:(lia) Ex).
  - unfold sret at 1 in H. match type of H with (let (_, _) := ?x in _) = _ => destruct x as [[c s] o] eqn:Ex end. injection H as _ ->. apply (E (a_fixed cfg) _ _ _ F Ex).
Qed.
Lemma each_field : forall S params limit M Q d id i f ps E, passes S params -> limited S params limit -> MaxVarsize <= limit -> (forall i ps, params i ps -> each limit (Q i ps)) ->
  nth_error S id = Some d -> nth_error (fields_of d) i = Some f -> params id ps -> view S d i ps E -> each limit (field_requests M Q E f).
Proof.
  intros S params limit M Q d id i f ps E Pa Lm L HQ Hd Hi Hps HV.
  assert (B : each limit (content_requests M Q E f)).
  { unfold content_requests. pose proof (fun id' args j ps' => Pa id d i f id' args j ps E ps' Hd Hi Hps HV) as Pf. destruct (f_array f) as [[len packed]|] eqn:Ha.
    - unfold field_array_requests.
      assert (Cf : forall cfg, array_config E len packed = Some cfg -> a_fixed cfg <= limit).
      { intros cfg H. unfold array_config in H. destruct len as [l|]; [|injection H as <-; cbn; unfold MaxVarsize in L; lia]. destruct (l E) as [m|] eqn:El; [|discriminate]. injection H as <-.
        exact (Lm id d i f l packed ps E m Hd Hi Hps HV Ha El). }
      destruct (f_type f) as [t|id' args]; destruct (array_config E len packed) as [cfg|] eqn:Eg; try apply each_none; specialize (Cf _ eq_refl).
      + destruct (codec_of E t) as [T|e| |]; try apply each_none. intros r n H. unfold after in H. apply in_app_or in H as [H|H].
        * exact (each_array (trait_ops T) limit _ cfg L Cf (fun _ => each_basic limit t L) _ _ H).
        * destruct (read_array (trait_ops T) cfg r) as [r' [es|e| |]] eqn:Er; try contradiction. destruct (f_cast f); [|contradiction]. destruct H as [<-|[]].
          exact (read_array_length _ _ _ _ _ _ L Cf Er).
      + apply each_array; [exact L|exact Cf|]. intros j. destruct (args E j) as [ps'|] eqn:Ea; [exact (HQ _ _ (Pf id' args j ps' eq_refl Ea))|apply each_none].
    - destruct (f_type f) as [t|id' args]; [apply each_basic, L|]. destruct (args E 0%nat) as [ps'|] eqn:Ea; [exact (HQ _ _ (Pf id' args 0%nat ps' eq_refl Ea))|apply each_none]. }
  unfold field_requests. destruct (included E f) as [[|]|]; try apply each_none. apply each_after; [apply each_none|]. intros _.
  destruct (f_optional f); [|exact B]. apply each_after; [apply each_none|]. intros [|]; [exact B|apply each_none].
Qed.
Lemma each_then : forall {A} limit (P : A -> Prop) q (m : reader A) k, each limit q -> yields m P -> (forall a, P a -> each limit (k a)) -> each limit (after q m k).
Proof.
  intros A limit P q m k H1 Y H2 r n H. apply in_app_or in H as [H|H]; [exact (H1 _ _ H)|].
  destruct (m r) as [r' [a|e| |]] eqn:E; [exact (H2 _ (Y _ _ _ E) _ _ H)|contradiction ..].
Qed.
Theorem object_each : forall S params limit, go_types S -> passes S params -> no_packed_arrays S -> limited S params limit -> MaxVarsize <= limit -> forall n id ps, params id ps -> each limit (object_requests S n id ps).
Proof.
  intros S params limit Go Pa Np Lm L. induction n as [|n IH]; intros id ps Hps; [apply each_none|]. cbn [object_requests]. unfold of_def. destruct (nth_error S id) as [d|] eqn:Hd; [|apply each_none].
  assert (F : forall i f E, nth_error (fields_of d) i = Some f -> view S d i ps E -> each limit (field_requests (run S n) (object_requests S n) E f))
    by (intros i f E Hi HV; exact (each_field S params limit _ _ d id i f ps E Pa Lm L IH Hd Hi Hps HV)).
  destruct d as [t|fs|selector cases default|fs]; cbn [def_requests].
  - apply each_basic, L.
  - assert (G : forall rest pre done, fs = pre ++ rest -> Forall2 (slot_typed (typed S n)) pre done -> each limit (fields_requests (run S n) (object_requests S n) ps done rest)).
    { induction rest as [|f rest IHr]; intros pre done Hfs Hdone; cbn [fields_requests]; [apply each_none|]. cbv zeta.
      assert (Hi : nth_error fs (length pre) = Some f) by (rewrite Hfs, nth_error_app2, Nat.sub_diag by lia; reflexivity).
      apply each_then with (P := slot_typed (typed S n) f).
      - apply (F (length pre)); [exact Hi|]. exact (view_struct S fs n pre (f :: rest) done ps Hfs Hdone).
      - apply yields_field; [|exact (Np id (DStruct fs) f Hd (nth_error_In _ _ Hi))|exact (decode_typed S Go Np n)].
        intros t Ht. exact (proj2 Go id (DStruct fs) f t Hd (nth_error_In _ _ Hi) Ht).
      - intros s Hs. apply (IHr (pre ++ [f])); [rewrite Hfs, <- app_assoc; reflexivity|]. apply Forall2_app; auto. }
    apply (G fs []); [reflexivity|constructor].
  - destruct (selector ps) as [sel|]; [|apply each_none]. destruct (select sel 0 cases default) as [[i f]|] eqn:Es; [|apply each_none].
    destruct (select_nth _ _ _ _ _ _ Es) as [_ Hi]. rewrite Nat.sub_0_r in Hi. apply (F i); [exact Hi|reflexivity].
  - apply each_after; [apply each_none|]. intros tag. destruct (if tag <? 1 then None else nth_error fs (Z.to_nat (tag - 1))) as [f|] eqn:Ef; [|apply each_none].
    apply (F (Z.to_nat (tag - 1))); [destruct (tag <? 1); [discriminate|exact Ef]|reflexivity].
Qed.

(** ** At least what is kept *)

Definition least {A} (size : A -> Z) (m : reader A) (q : requests) : Prop := forall r r' a, m r = (r', Ok a) -> size a <= total (q r).
Fixpoint slot_slices (l : list (option value)) : Z := match l with [] => 0 | None :: l' => slot_slices l' | Some x :: l' => slices x + slot_slices l' end.
Fixpoint elem_slices (l : list value) : Z := match l with [] => 0 | x :: l' => slices x + elem_slices l' end.
Lemma slices_rec : forall tag slots, slices (VRec tag slots) = slot_slices slots.
Proof. intros tag slots. reflexivity. Qed.
Lemma slices_arr : forall es, slices (VArr es) = Z.of_nat (length es) + elem_slices es.
Proof. intros es. reflexivity. Qed.
Definition opt_slices (s : option value) : Z := match s with Some v => slices v | None => 0 end.
Lemma slot_slices_app : forall a b, slot_slices (a ++ b) = slot_slices a + slot_slices b.
Proof. induction a as [|[x|] a IH]; intros b; cbn [app slot_slices]; rewrite ?IH; lia. Qed.
Lemma slot_slices_repeat : forall n, slot_slices (repeat None n) = 0.
Proof. induction n as [|n IH]; [reflexivity|exact IH]. Qed.
Lemma slot_slices_only : forall n i s, slot_slices (only n i s) <= Z.max 0 (opt_slices s).
Proof.
  intros n. unfold only. induction n as [|n IH]; intros i s; [destruct i; cbn; lia|]. destruct i as [|i]; cbn [repeat update slot_slices].
  - rewrite slot_slices_repeat. destruct s; cbn [opt_slices]; lia.
  - apply IH.
Qed.
Fixpoint slices_pos (v : value) : 0 <= slices v.
Proof.
  destruct v as [z|b|s|[[n l]|]|tag slots|es]; try (cbn; lia).
  - rewrite slices_rec. induction slots as [|[x|] slots IH]; cbn [slot_slices]; [lia| |exact IH]. pose proof (slices_pos x). lia.
  - rewrite slices_arr. assert (0 <= elem_slices es); [|lia]. induction es as [|x es IH]; cbn [elem_slices]; [lia|]. pose proof (slices_pos x). lia.
Qed.
Lemma least_after : forall {A B} (s1 : A -> Z) (s2 : B -> Z) m f q q', least s1 m q -> (forall a, least (fun b => s2 b - s1 a) (f a) (q' a)) -> least s2 (rbind m f) (after q m q').
Proof.
  intros A B s1 s2 m f q q' H1 H2 r r' b H. unfold rbind in H. unfold after. rewrite total_app. specialize (H1 r). destruct (m r) as [r1 [a|e| |]] eqn:E; try discriminate.
  specialize (H1 _ _ eq_refl). specialize (H2 _ _ _ _ H). cbn beta in H2. lia.
Qed.
Lemma least_ret : forall {A B} (s1 : A -> Z) (s2 : B -> Z) m (f : A -> B) q, least s1 m q -> (forall a, s2 (f a) <= s1 a) -> least s2 (rbind m (fun a => rret (f a))) q.
Proof.
  intros A B s1 s2 m f q H1 H2 r r' b H. unfold rbind, rret in H. specialize (H1 r). destruct (m r) as [r1 [a|e| |]] eqn:E; try discriminate. injection H as _ <-. specialize (H1 _ _ eq_refl). specialize (H2 a). lia.
Qed.
Lemma least_none : forall {A} (s : A -> Z) m, yields m (fun a => s a <= 0) -> least s m none.
Proof. intros A s m H r r' a E. exact (H _ _ _ E). Qed.
Lemma least_panic : forall {A} (s : A -> Z) q, least s rpanic q.
Proof. intros A s q r r' a E. discriminate. Qed.
Lemma full_length : forall k r r' l, 0 <= k -> read_full k r = (r', Ok l) -> Z.of_nat (length l) = k.
Proof. intros k r r' l K H. exact (proj2 (yields_full k K _ _ _ H)). Qed.
Lemma least_builtin : forall b, least (fun e => slices (inj b e)) (t_read (traits_of b)) (builtin_requests b).
Proof.
  intros b. destruct b; try (apply least_none; intros r r' a _; cbn; lia); intros r r' a H; cbn [traits_of t_read StringArrayTraits BytesArrayTraits BitBufferArrayTraits] in H;
    cbn [builtin_requests]; unfold buffer, after, none; cbn [app].
  - unfold ReadString, rbind in H. destruct (ReadVarsize r) as [r1 [n|e| |]] eqn:E; try discriminate. pose proof (ReadVarsize_range _ _ _ E) as B. cbn. rewrite (full_length _ _ _ _ (proj1 B) H). lia.
  - unfold ReadBytes, rbind, rret in H. destruct (ReadVarsize r) as [r1 [n|e| |]] eqn:E; try discriminate. pose proof (ReadVarsize_range _ _ _ E) as B.
    destruct (read_full n r1) as [r2 [l|e| |]] eqn:E2; try discriminate. injection H as _ <-. cbn. rewrite (full_length _ _ _ _ (proj1 B) E2). lia.
  - unfold ReadExtern, rbind, rret in H. destruct (ReadVarsize r) as [r1 [n|e| |]] eqn:E; try discriminate. pose proof (ReadVarsize_range _ _ _ E) as B. assert (K : 0 <= n / 8) by (apply Z.div_pos; lia).
    destruct (read_full (n / 8) r1) as [r2 [l|e| |]] eqn:E2; try discriminate. pose proof (full_length _ _ _ _ K E2) as Ll. destruct (n mod 8 =? 0).
    + injection H as _ <-. cbn. lia.
    + destruct (read_bits (Z.to_nat (n mod 8)) r2) as [r3 [x|e| |]]; try discriminate. injection H as _ <-. cbn. rewrite app_length. cbn [length]. lia.
Qed.
Lemma least_basic : forall E t, least slices (read_basic E t) (basic_requests t).
Proof.
  intros E [b|signed g w]; cbn [read_basic basic_requests].
  - apply least_ret with (s1 := fun e => slices (inj b e)); [|intros; lia]. pose proof (least_builtin b) as H. destruct b; try exact H; apply least_none; intros r r' a _; cbn; lia.
  - apply least_none. intros r r' a H. destruct (w E); [|discriminate]. unfold rbind, rret in H. match type of H with (match ?x with _ => _ end) = _ => destruct x as [r1 [y|e| |]] end; try discriminate.
    injection H as _ <-. cbn. lia.
Qed.
Lemma least_codec : forall E t T, codec_of E t = Ok T -> least slices (t_read T) (basic_requests t).
Proof.
  intros E [b|signed g w] T H; cbn [codec_of basic_requests] in *.
  - injection H as <-. cbn [vtraits t_read]. apply least_ret with (s1 := fun e => slices (inj b e)); [apply least_builtin|intros; lia].
  - destruct (w E); [|discriminate]. cbv zeta in H. destruct (64 <=? to_u 8 z); [discriminate|]. injection H as <-. apply least_none. intros r r' a X.
    destruct signed; cbn [vtraits t_read] in X; unfold rbind at 1, rret at 1 in X; (match type of X with (match ?x with _ => _ end) = _ => destruct x as [r1 [z'|e| |]] end); try discriminate; injection X as _ <-; cbn; lia.
Qed.
Lemma least_elements : forall {N} (K : elemops value N) q cfg, a_packed cfg = false -> a_check cfg = false -> (forall i, least slices (k_read K i) (q i)) ->
  forall n i ctx r s' es, read_elems K cfg i n (ctx, r) = (s', Ok es) -> elem_slices es <= total (elements q (k_read K) i n r).
Proof.
  intros N K q cfg Hp Hk Hq. induction n as [|n IH]; intros i ctx r s' es H; cbn [read_elems elements] in *; [injection H as _ <-; cbn; lia|].
  unfold read_elem in H. rewrite Hp, Hk in H. unfold sbind at 1 2, sret at 1 in H. unfold on_stream at 1 in H. unfold after. specialize (Hq i r). rewrite total_app.
  destruct (k_read K i r) as [r1 [e|e| |]]; try discriminate. specialize (Hq _ _ eq_refl). unfold sbind in H.
  destruct (read_elems K cfg (Datatypes.S i) n (ctx, r1)) as [s2 [l|e2| |]] eqn:E2; try discriminate. injection H as _ <-. specialize (IH _ _ _ _ _ E2). cbn [elem_slices]. lia.
Qed.
Lemma least_array : forall {N} (K : elemops value N) q cfg, a_packed cfg = false -> a_check cfg = false -> (forall i, least slices (k_read K i) (q i)) ->
  least (fun es => slices (VArr es)) (read_array K cfg) (array_requests K q cfg).
Proof.
  intros N K q cfg Hp Hk Hq r r' es H. rewrite slices_arr. unfold array_requests, after, none. rewrite Hp. cbn [app].
  assert (E : forall size s ctx r1, (if size <? 0 then (fun s => (s, Panic)) else if size =? 0 then sret [] else (if a_packed cfg then new_context K else sret tt) ;;s read_elems K cfg 0 (Z.to_nat size)) (ctx, r1) = (s, Ok es) ->
    Z.of_nat (length es) + elem_slices es <= total (size :: elements q (k_read K) 0 (Z.to_nat size) r1)).
  { intros size s ctx r1 J. cbn [total fold_right]. fold (total (elements q (k_read K) 0 (Z.to_nat size) r1)). destruct (size <? 0) eqn:Q1; [discriminate|].
    destruct (size =? 0) eqn:Q2; [injection J as _ <-; replace (Z.to_nat size) with 0%nat by lia; cbn; lia|]. rewrite Hp in J. unfold sbind, sret in J.
    pose proof (least_elements K q cfg Hp Hk Hq _ _ _ _ _ _ J) as T.
    assert (Ln : length es = Z.to_nat size); [|lia]. clear - J.
    revert J. generalize (Z.to_nat size) as n, 0%nat as i, (ctx, r1) as s0. revert s es. intros s es n. revert s es.
    induction n as [|n IH]; intros s es i s0 G; cbn [read_elems] in G; [now injection G as _ <-|]. unfold sbind in G.
    destruct (read_elem K cfg i s0) as [s1 [e|e| |]]; try discriminate. destruct (read_elems K cfg (Datatypes.S i) n s1) as [s2 [l2|e2| |]] eqn:E2; try discriminate.
    injection G as _ <-. cbn [length]. f_equal. exact (IH _ _ _ _ E2). }
  unfold read_array, with_ctx, array_unmarshal in H. unfold sbind at 1 in H. unfold array_size. destruct (a_auto cfg).
  - unfold on_stream, rbind, rret in *. destruct (ReadVarsize r) as [r1 [v|e| |]] eqn:Ev; try discriminate.
    match type of H with (let (_, _) := ?x in _) = _ => destruct x as [[c s] o] eqn:Ex end. injection H as _ ->. exact (E _ _ _ _ Ex).
  - unfold sret at 1 in H. unfold rret. match type of H with (let (_, _) := ?x in _) = _ => destruct x as [[c s] o] eqn:Ex end. injection H as _ ->. exact (E _ _ _ _ Ex).
Qed.
Lemma least_field : forall M Q E f, ~ packed_array f -> (forall id ps, least slices (m_unmarshal M id ps) (Q id ps)) -> least opt_slices (read_field M E f) (field_requests M Q E f).
Proof.
  intros M Q E f Np HM. assert (B : least slices (read_content M E f) (content_requests M Q E f)).
  { unfold read_content, content_requests. destruct (f_array f) as [[len packed]|] eqn:Ha.
    - destruct packed; [exfalso; apply Np; now exists len|]. apply least_ret with (s1 := fun es => slices (VArr es)); [|intros; lia].
      unfold read_field_array, field_array_requests. destruct (f_type f) as [t|id args]; cbn [item_typed].
      + destruct (codec_of E t) as [T|e| |] eqn:Ec; try (intros ? ? ? X; discriminate). destruct (array_config E len false) as [cfg|] eqn:Eg; [|intros ? ? ? X; discriminate].
        destruct (config_packed _ _ _ _ Eg) as [C1 C2]. intros r r' es H. unfold after. rewrite total_app, H.
        pose proof (least_array (trait_ops T) (fun _ => basic_requests t) cfg C1 C2 (fun _ => least_codec E t T Ec) r r' es H) as A. cbn beta in A.
        destruct (f_cast f); cbn [total fold_right]; fold (total []); lia.
      + destruct (array_config E len false) as [cfg|] eqn:Eg; [|intros ? ? ? X; discriminate]. destruct (config_packed _ _ _ _ Eg) as [C1 C2].
        apply least_array; [exact C1|exact C2|]. intros i. cbn [object_ops k_read]. destruct (args E i); [apply HM|apply least_panic].
    - destruct (f_type f) as [t|id args]; [apply least_basic|]. destruct (args E 0%nat); [apply HM|apply least_panic]. }
  assert (Y : least opt_slices (v <-r read_content M E f; rret (Some v)) (content_requests M Q E f)) by (apply least_ret with (s1 := slices); [exact B|intros; cbn; lia]).
  unfold read_field, field_requests. destruct (included E f) as [[|]|]; [|apply least_none, yields_ret; cbn; lia|apply least_panic].
  apply least_after with (s1 := fun _ => 0); [apply least_none; intros ? ? ? _; lia|]. intros _.
  assert (X : forall (m : reader (option value)) q, least opt_slices m q -> least (fun b => opt_slices b - 0) m q) by (intros m q H r r' a G; specialize (H r r' a G); cbn beta; lia).
  apply X. destruct (f_optional f); [|exact Y]. apply least_after with (s1 := fun _ => 0); [apply least_none; intros ? ? ? _; lia|]. intros b. apply X.
  destruct b; [exact Y|apply least_none, yields_ret; cbn; lia].
Qed.
Theorem object_least : forall S, no_packed_arrays S -> forall n id ps, least slices (UnmarshalZserio S n id ps) (object_requests S n id ps).
Proof.
  intros S Np. induction n as [|n IH]; intros id ps; [intros ? ? ? X; discriminate|]. unfold UnmarshalZserio. cbn [run m_unmarshal object_requests]. unfold of_def.
  destruct (nth_error S id) as [d|] eqn:Hd; [|apply least_panic].
  assert (F : forall f E, In f (fields_of d) -> least opt_slices (read_field (run S n) E f) (field_requests (run S n) (object_requests S n) E f)).
  { intros f E Hf. apply least_field; [exact (Np id d f Hd Hf)|exact IH]. }
  assert (P : forall f E, In f (fields_of d) -> forall k i, least slices (s <-r read_field (run S n) E f; rret (VRec k (only (length (fields_of d)) i s))) (field_requests (run S n) (object_requests S n) E f)).
  { intros f E Hf k i. apply least_ret with (s1 := opt_slices); [exact (F f E Hf)|]. intros s. rewrite slices_rec. pose proof (slot_slices_only (length (fields_of d)) i s).
    assert (0 <= opt_slices s) by (destruct s; [apply slices_pos|cbn; lia]). lia. }
  destruct d as [t|fs|selector cases default|fs]; cbn [unmarshal_def def_requests fields_of] in *.
  - apply least_basic.
  - apply least_ret with (s1 := slot_slices); [|intros; rewrite slices_rec; lia].
    assert (L : forall rest done, incl rest fs -> least (fun l => slot_slices l - slot_slices done) (read_fields (run S n) ps done rest) (fields_requests (run S n) (object_requests S n) ps done rest)).
    { induction rest as [|f rest IHr]; intros done Hi; cbn [read_fields fields_requests]; [apply least_none, yields_ret; lia|]. cbv zeta.
      apply least_after with (s1 := opt_slices); [apply F, Hi; now left|]. intros s r r' l H. specialize (IHr (done ++ [s]) ltac:(intros x Hx; apply Hi; now right) r r' l H). cbn beta in *.
      rewrite slot_slices_app in IHr. destruct s; cbn [slot_slices opt_slices] in *; lia. }
    intros r r' l H. specialize (L fs [] ltac:(intros x Hx; exact Hx) r r' l H). cbn [slot_slices] in L. lia.
  - cbv zeta. destruct (selector ps) as [sel|]; [|apply least_panic]. destruct (select sel 0 cases default) as [[i f]|] eqn:Es.
    + apply P. exact (select_in _ _ _ _ _ _ Es).
    + apply least_none, yields_ret. rewrite slices_rec, slot_slices_repeat. lia.
  - cbv zeta. apply least_after with (s1 := fun _ => 0); [apply least_none; intros ? ? ? _; lia|]. intros tag.
    destruct (if tag <? 1 then None else nth_error fs (Z.to_nat (tag - 1))) as [f|] eqn:Ef.
    + intros r r' v H. assert (Hf : In f fs) by (destruct (tag <? 1); [discriminate|exact (nth_error_In _ _ Ef)]). pose proof (P f _ Hf _ _ r r' v H). cbn beta. lia.
    + apply least_none, yields_ret. rewrite slices_rec, slot_slices_repeat. lia.
Qed.
