(** Numbering, constant expressions and cycles. *)

Require Import ZArith String List Bool Lia ZifyBool ZifyNat SpecFloat.
From Verif Require Import Bits BitsFacts AstExpr AstExprSpec AstFacts.
Import ListNotations.
Open Scope Z_scope.

(** ** Reached stores *)

Lemma reached_good : forall P s, reached P s -> good P (root_count P) s.
Proof.
  intros P s H. induction H as [|s look c H IH|s look e H IH|s look m H IH|s look e H IH].
  - split; [apply fresh_le|apply sound_initial].
  - apply (root_ok P look (root_count P) (RConst c) s IH).
  - apply (enum_ok P (root_count P) (eval_root (root_count P) P look) e s (root_ok P look _) IH).
  - apply (mask_ok P (root_count P) (eval_root (root_count P) P look) m s (root_ok P look _) IH).
  - apply (expr_ok P (root_count P) (eval_root (root_count P) P look) look e (root_ok P look _) s IH).
Qed.

Lemma never_no_fuel : forall P s look, reached P s ->
  (forall c, snd (evaluate P look (RConst c) s) <> SNoFuel) /\
  (forall e, snd (evaluate_enum P look e s) <> SNoFuel) /\
  (forall m, snd (evaluate_mask P look m s) <> SNoFuel) /\
  (forall e, snd (snd (evaluate_expr P look e s)) <> SNoFuel).
Proof.
  intros P s look H. apply reached_good in H. split; [|split; [|split]].
  - intros c. apply (root_ok P look (root_count P) (RConst c) s H).
  - intros e. apply (enum_ok P (root_count P) (eval_root (root_count P) P look) e s (root_ok P look _) H).
  - intros m. apply (mask_ok P (root_count P) (eval_root (root_count P) P look) m s (root_ok P look _) H).
  - intros e. apply (expr_ok P (root_count P) (eval_root (root_count P) P look) look e (root_ok P look _) s H).
Qed.

(** ** Numbering *)

Lemma value_of_complete : forall s r v, s r = Slot Complete v -> r_type v = TyInt -> value_of s r = Some (r_int v).
Proof. intros s r v H Ht. unfold value_of. rewrite H, Ht. reflexivity. Qed.

Lemma ety_eqb_int : forall t, ety_eqb t TyInt = true -> t = TyInt.
Proof. destruct t; cbn; intros H; congruence. Qed.

(** An item without a value, after its enum has been evaluated. *)
Lemma enum_value : forall P s look e items k name,
  reached P s -> nth_error (p_enums P) e = Some items -> nth_error items k = Some (name, None) ->
  snd (evaluate_enum P look e s) = SOk ->
  let s' := fst (evaluate_enum P look e s) in
  match k with
  | O => value_of s' (REnum e 0) = Some 0
  | S j => exists v, value_of s' (REnum e j) = Some v /\ value_of s' (REnum e (S j)) = Some (i64 (v + 1))
  end.
Proof.
  intros P s look e items k name Hr He Hk Hx s'. apply reached_good in Hr.
  destruct (enum_ok P (root_count P) (eval_root (root_count P) P look) e s (root_ok P look _) Hr) as (S1 & S2).
  fold (evaluate_enum P look e s) in S1, S2. fold s' in S1, S2. specialize (S2 Hx items He).
  destruct S1 as ((_ & _ & Hs & _) & _). specialize (Hs e items He).
  assert (Hl : (k < length items)%nat) by (apply nth_error_Some; congruence).
  destruct (S2 k Hl) as (v & Hv). destruct (Hs k name v Complete Hk Hv) as (_ & Hm).
  destruct k as [|j].
  - cbn in Hm. injection Hm as <-. apply (value_of_complete _ _ _ Hv). reflexivity.
  - destruct Hm as (w & Hw & Hn). unfold enum_next in Hn. destruct (ety_eqb (r_type w) TyInt) eqn:Et; [|discriminate].
    apply ety_eqb_int in Et. assert (Hv' : v = int_result (i64 (r_int w + 1))) by congruence. subst v.
    exists (r_int w). split; [exact (value_of_complete _ _ _ Hw Et)|]. exact (value_of_complete _ _ _ Hv eq_refl).
Qed.

Lemma mask_value : forall P s look e items k name,
  reached P s -> nth_error (p_masks P) e = Some items -> nth_error items k = Some (name, None) ->
  snd (evaluate_mask P look e s) = SOk ->
  let s' := fst (evaluate_mask P look e s) in
  match k with
  | O => value_of s' (RMask e 0) = Some 1
  | S j => exists v, value_of s' (RMask e j) = Some v /\ value_of s' (RMask e (S j)) = Some (findNextFreeBit v)
  end.
Proof.
  intros P s look e items k name Hr He Hk Hx s'. apply reached_good in Hr.
  destruct (mask_ok P (root_count P) (eval_root (root_count P) P look) e s (root_ok P look _) Hr) as (S1 & S2).
  fold (evaluate_mask P look e s) in S1, S2. fold s' in S1, S2. specialize (S2 Hx items He).
  destruct S1 as ((_ & _ & _ & Hs) & _). specialize (Hs e items He).
  assert (Hl : (k < length items)%nat) by (apply nth_error_Some; congruence).
  destruct (S2 k Hl) as (v & Hv). destruct (Hs k name v Complete Hk Hv) as (_ & Hm).
  destruct k as [|j].
  - cbn in Hm. injection Hm as <-. apply (value_of_complete _ _ _ Hv). reflexivity.
  - destruct Hm as (w & Hw & Hn). unfold mask_next in Hn. destruct (ety_eqb (r_type w) TyInt) eqn:Et; [|discriminate].
    apply ety_eqb_int in Et. assert (Hv' : v = int_result (findNextFreeBit (r_int w))) by congruence. subst v.
    exists (r_int w). split; [exact (value_of_complete _ _ _ Hw Et)|]. exact (value_of_complete _ _ _ Hv eq_refl).
Qed.

Lemma i64_id : forall z, - 2 ^ 63 <= z < 2 ^ 63 -> i64 z = z.
Proof. intros z H. unfold i64, to_s. change (64 - 1) with 63. destruct (_ <? _) eqn:E; change (2 ^ 64) with (2 * 2 ^ 63) in *.
  - destruct (Z_lt_ge_dec z 0).
    + rewrite <- (Z_mod_plus_full z 1), Z.mod_small in E by lia. lia.
    + rewrite Z.mod_small; lia.
  - destruct (Z_lt_ge_dec z 0).
    + rewrite <- (Z_mod_plus_full z 1), Z.mod_small by lia. lia.
    + rewrite Z.mod_small in E; lia.
Qed.

Lemma i64_wrap : forall z, i64 z = wrap z.
Proof.
  intros z. unfold i64, to_s, wrap. change (64 - 1) with 63.
  pose proof (Z.mod_pos_bound z (2 ^ 64) ltac:(lia)) as Hm.
  assert (E : (z + 2 ^ 63) mod 2 ^ 64 = (z mod 2 ^ 64 + 2 ^ 63) mod 2 ^ 64) by (rewrite Zplus_mod_idemp_l; reflexivity).
  rewrite E. set (m := z mod 2 ^ 64) in *. change (2 ^ 64) with (2 * 2 ^ 63) in *.
  destruct (m <? 2 ^ 63) eqn:Em.
  - rewrite Z.mod_small by lia. lia.
  - rewrite <- (Z_mod_plus_full (m + 2 ^ 63) (-1)), Z.mod_small by lia. lia.
Qed.

(** A run of [n] items without values after item [j]. *)
Lemma enum_run : forall P s look e items j v n,
  reached P s -> nth_error (p_enums P) e = Some items ->
  (forall i, (j < i <= j + n)%nat -> exists name, nth_error items i = Some (name, None)) ->
  snd (evaluate_enum P look e s) = SOk ->
  value_of (fst (evaluate_enum P look e s)) (REnum e j) = Some v ->
  value_of (fst (evaluate_enum P look e s)) (REnum e (j + n)) = Some (if (n =? 0)%nat then v else wrap (v + Z.of_nat n)).
Proof.
  intros P s look e items j v n Hr He Hi Hx Hv. induction n as [|n IH].
  - rewrite Nat.add_0_r. exact Hv.
  - destruct (Hi (j + S n)%nat ltac:(lia)) as (name & Hn). rewrite Nat.add_succ_r in *.
    destruct (enum_value P s look e items _ name Hr He Hn Hx) as (w & Hw & Hw').
    rewrite IH in Hw by (intros i Hii; apply Hi; lia). injection Hw as <-. rewrite Hw'. f_equal.
    change ((S n =? 0)%nat) with false. cbn iota. rewrite i64_wrap. destruct n as [|n'].
    + reflexivity.
    + change ((S n' =? 0)%nat) with false. cbn iota. unfold wrap.
      rewrite (Nat2Z.inj_succ (S n')).
      replace ((v + Z.of_nat (S n') + 2 ^ 63) mod 2 ^ 64 - 2 ^ 63 + 1 + 2 ^ 63) with ((v + Z.of_nat (S n') + 2 ^ 63) mod 2 ^ 64 + 1) by lia.
      rewrite Zplus_mod_idemp_l. f_equal. f_equal. lia.
Qed.

(** findNextFreeBit *)
Lemma free_bit_loop_spec : forall fuel z p, 0 <= z < 2 ^ Z.of_nat fuel ->
  free_bit_loop fuel z p = p + digits z.
Proof.
  induction fuel as [|f IH]; intros z p H.
  - cbn in H. assert (z = 0) by lia. subst. cbn. lia.
  - cbn [free_bit_loop]. destruct (0 <? z) eqn:Ez.
    + rewrite IH.
      * unfold digits. rewrite <- Z.div2_div. destruct (z =? 0) eqn:E0; [lia|].
        destruct (Z.div2 z =? 0) eqn:E2.
        -- assert (Hz : Z.div2 z = 0) by lia. rewrite Z.div2_div in Hz.
           assert (z = 1) by (pose proof (Z.div_mod z 2 ltac:(lia)); pose proof (Z.mod_pos_bound z 2 ltac:(lia)); lia).
           subst. cbn. lia.
        -- rewrite Z.div2_spec, Z.log2_shiftr by lia. rewrite Z.max_r; [lia|].
           assert (2 <= z); [|pose proof (Z.log2_le_mono 2 z); change (Z.log2 2) with 1 in *; lia].
           destruct (Z.eq_dec z 1) as [->|]; [discriminate|lia].
      * rewrite Nat2Z.inj_succ, Z.pow_succ_r in H by lia. split; [apply Z.div_pos; lia|]. apply Z.div_lt_upper_bound; lia.
    + assert (z = 0) by lia. subst. cbn. lia.
Qed.

Lemma free_bit_value : forall v, - 2 ^ 63 <= v < 2 ^ 63 ->
  findNextFreeBit v = if v <=? 0 then 1 else wrap (2 ^ digits v).
Proof.
  intros v H. unfold findNextFreeBit. destruct (v <=? 0) eqn:E.
  - assert (Hl : free_bit_loop 64 v 0 = 0) by (cbn [free_bit_loop]; destruct (0 <? v) eqn:E0; [lia|reflexivity]).
    rewrite Hl. reflexivity.
  - rewrite free_bit_loop_spec; [rewrite Z.add_0_l, i64_wrap; reflexivity|].
    change (2 ^ Z.of_nat 64) with (2 * 2 ^ 63). lia.
Qed.

(** Below 2^62 the new value is a power of two that is larger than [v] and at most
    twice [v]. *)
Lemma free_bit_above : forall v, 0 < v < 2 ^ 62 ->
  exists n, 0 <= n /\ findNextFreeBit v = 2 ^ n /\ v < 2 ^ n <= 2 * v.
Proof.
  intros v H. exists (digits v). rewrite free_bit_value by lia. destruct (v <=? 0) eqn:E; [lia|].
  unfold digits. destruct (v =? 0) eqn:E0; [lia|].
  pose proof (Z.log2_spec v ltac:(lia)) as (L1 & L2). pose proof (Z.log2_nonneg v).
  assert (Hlt : Z.log2 v < 62) by (apply Z.log2_lt_pow2; lia).
  assert (Hp : 2 ^ (Z.log2 v + 1) = 2 * 2 ^ Z.log2 v) by (rewrite Z.add_1_r, Z.pow_succ_r by lia; reflexivity).
  assert (Hb : 2 ^ (Z.log2 v + 1) <= 2 ^ 62) by (apply Z.pow_le_mono_r; lia).
  split; [lia|]. split.
  - unfold wrap. rewrite Z.mod_small; [lia|]. change (2 ^ 64) with (2 * 2 ^ 63). change (2 ^ 63) with (2 * 2 ^ 62). lia.
  - replace (Z.succ (Z.log2 v)) with (Z.log2 v + 1) in L2 by lia. lia.
Qed.

(** A power of two shares no bit with smaller numbers. *)
Lemma land_pow2_small : forall n x, 0 <= n -> 0 <= x < 2 ^ n -> Z.land (2 ^ n) x = 0.
Proof.
  intros n x Hn Hx. apply Z.bits_inj'. intros i Hi. rewrite Z.land_spec, Z.bits_0, Z.pow2_bits_eqb by lia.
  destruct (n =? i) eqn:E; [|reflexivity]. apply Z.eqb_eq in E. subst i. cbn.
  destruct (Z.eq_dec x 0) as [->|]; [apply Z.bits_0|]. apply Z.bits_above_log2; [lia|]. apply Z.log2_lt_pow2; lia.
Qed.

(** A bitmask value without an expression is disjoint from all before it, if the
    one just before it is the largest. *)
Lemma mask_disjoint : forall P s look m items j name v,
  reached P s -> nth_error (p_masks P) m = Some items -> nth_error items (S j) = Some (name, None) ->
  snd (evaluate_mask P look m s) = SOk ->
  let s' := fst (evaluate_mask P look m s) in
  value_of s' (RMask m j) = Some v -> 0 <= v < 2 ^ 62 ->
  (forall i w, (i < j)%nat -> value_of s' (RMask m i) = Some w -> 0 <= w <= v) ->
  exists new, value_of s' (RMask m (S j)) = Some new /\ v < new /\
  forall i w, (i <= j)%nat -> value_of s' (RMask m i) = Some w -> Z.land new w = 0.
Proof.
  intros P s look m items j name v Hr Hm Hj Hx s' Hv Hb Hi.
  destruct (mask_value P s look m items (S j) name Hr Hm Hj Hx) as (v' & Hv' & Hn). fold s' in Hv', Hn.
  assert (v' = v) by congruence. subst v'. exists (findNextFreeBit v). split; [exact Hn|].
  destruct (Z.eq_dec v 0) as [->|Hne].
  - change (findNextFreeBit 0) with 1. split; [lia|]. intros i w Hle Hw.
    assert (0 <= w <= 0) by (destruct (Nat.eq_dec i j) as [->|]; [assert (w = 0) by congruence; lia|apply (Hi i); [lia|exact Hw]]).
    assert (w = 0) by lia. subst. reflexivity.
  - destruct (free_bit_above v ltac:(lia)) as (n & Hn0 & -> & Hl). split; [lia|]. intros i w Hle Hw.
    apply land_pow2_small; [exact Hn0|].
    destruct (Nat.eq_dec i j) as [->|]; [assert (w = v) by congruence; lia|]. pose proof (Hi i w ltac:(lia) Hw). lia.
Qed.

(** ** Constant integer expressions *)

Scheme iexpr_mut := Induction for iexpr Sort Prop
  with bexpr_mut := Induction for bexpr Sort Prop.
Combined Scheme iexpr_bexpr_ind from iexpr_mut, bexpr_mut.

Definition in64 (z : Z) : Prop := - 2 ^ 63 <= z < 2 ^ 63.
Definition is_int (v : Z) (r : result) : Prop :=
  r_type r = TyInt /\ r_int r = v /\ in64 v /\ (r_native r = None \/ r_native r = Some (builtin_type "uint32")) /\ r_full r = true.
Definition is_bool (b : bool) (r : result) : Prop := r_type r = TyBool /\ r_bool r = b /\ r_full r = true.

Lemma wrap_in64 : forall z, in64 (wrap z).
Proof.
  intros z. unfold in64, wrap. pose proof (Z.mod_pos_bound (z + 2 ^ 63) (2 ^ 64) ltac:(lia)).
  change (2 ^ 64) with (2 * 2 ^ 63) in *. lia.
Qed.
Lemma wrap_id : forall z, in64 z -> wrap z = z.
Proof.
  unfold in64, wrap. intros z H. rewrite Z.mod_small; [lia|]. change (2 ^ 64) with (2 * 2 ^ 63). lia.
Qed.

Lemma rem_quot : forall x y, x - y * Z.quot x y = Z.rem x y.
Proof. intros x y. pose proof (Z.quot_rem' x y). lia. Qed.

Lemma int_arith_value : forall op x y, in64 x -> in64 y ->
  int_arith op x y = arith_value op x y /\ (forall v, arith_value op x y = Some v -> in64 v).
Proof.
  intros op x y Hx Hy. destruct op; cbn [int_arith arith_value when]; rewrite ?i64_wrap.
  1-3: split; [reflexivity|]; intros v Hv; injection Hv as <-; apply wrap_in64.
  - unfold when. destruct (y =? 0); cbn [negb]; [split; [reflexivity|discriminate]|]. split; [reflexivity|].
    intros v Hv. injection Hv as <-. apply wrap_in64.
  - unfold when. destruct (y =? 0) eqn:E; cbn [negb]; [split; [reflexivity|discriminate]|]. rewrite rem_quot. split; [reflexivity|].
    intros v Hv. injection Hv as <-. unfold in64 in *. pose proof (Z.rem_bound_abs x y ltac:(lia)). lia.
Qed.

Lemma in64_shiftr : forall z, in64 z <-> Z.shiftr z 63 = 0 \/ Z.shiftr z 63 = -1.
Proof.
  intros z. rewrite Z.shiftr_div_pow2 by lia. unfold in64.
  pose proof (Z.div_mod z (2 ^ 63) ltac:(lia)). pose proof (Z.mod_pos_bound z (2 ^ 63) ltac:(lia)).
  split.
  - intros Hz. assert (-1 <= z / 2 ^ 63 <= 0); [|lia].
    split; [apply Z.div_le_lower_bound; lia|]. assert (z / 2 ^ 63 < 1); [apply Z.div_lt_upper_bound; lia|lia].
  - intros [E|E]; rewrite E in *; lia.
Qed.
Lemma bits_in64 : forall x y, in64 x -> in64 y -> in64 (Z.land x y) /\ in64 (Z.lor x y) /\ in64 (Z.lxor x y).
Proof.
  intros x y Hx Hy. rewrite in64_shiftr in *. rewrite !in64_shiftr. rewrite Z.shiftr_land, Z.shiftr_lor, Z.shiftr_lxor.
  destruct Hx as [-> | ->], Hy as [-> | ->]; cbn; auto.
Qed.

Lemma int_bitwise_value : forall op x y, in64 x -> in64 y ->
  int_bitwise op x y = bitwise_value op x y /\ (forall v, bitwise_value op x y = Some v -> in64 v).
Proof.
  intros op x y Hx Hy. destruct (bits_in64 x y Hx Hy) as (B1 & B2 & B3).
  destruct op; cbn [int_bitwise bitwise_value].
  - unfold when. destruct (y <? 0) eqn:E, (0 <=? y) eqn:E'; try lia; [split; [reflexivity|discriminate]|].
    rewrite i64_wrap. split.
    + destruct (64 <=? y) eqn:E64; [|reflexivity]. f_equal. unfold wrap.
      replace y with (64 + (y - 64)) by lia. rewrite Z.pow_add_r by lia.
      replace (x * (2 ^ 64 * 2 ^ (y - 64)) + 2 ^ 63) with (2 ^ 63 + (x * 2 ^ (y - 64)) * 2 ^ 64) by ring.
      rewrite Z_mod_plus_full. reflexivity.
    + intros v Hv. injection Hv as <-. apply wrap_in64.
  - unfold when. destruct (y <? 0) eqn:E, (0 <=? y) eqn:E'; try lia; [split; [reflexivity|discriminate]|].
    assert (Hp : 0 < 2 ^ y) by (apply Z.pow_pos_nonneg; lia).
    split.
    + destruct (64 <=? y) eqn:E64; [|reflexivity]. f_equal.
      assert (2 ^ 64 <= 2 ^ y) by (apply Z.pow_le_mono_r; lia). unfold in64 in Hx. change (2 ^ 64) with (2 * 2 ^ 63) in *.
      pose proof (Z.div_mod x (2 ^ y) ltac:(lia)). pose proof (Z.mod_pos_bound x (2 ^ y) ltac:(lia)).
      destruct (x <? 0) eqn:Ex.
      * assert (-1 <= x / 2 ^ y < 0); [|lia]. split; [apply Z.div_le_lower_bound; lia|apply Z.div_lt_upper_bound; lia].
      * symmetry. apply Z.div_small. lia.
    + intros v Hv. injection Hv as <-. unfold in64 in *.
      split; [apply Z.div_le_lower_bound; nia|apply Z.div_lt_upper_bound; nia].
  - split; [reflexivity|]. intros v Hv. injection Hv as <-. exact B1.
  - split; [reflexivity|]. intros v Hv. injection Hv as <-. exact B2.
  - split; [reflexivity|]. intros v Hv. injection Hv as <-. exact B3.
Qed.

Lemma digits_in64 : forall z, in64 (digits (z mod 2 ^ 64)).
Proof.
  intros z. pose proof (Z.mod_pos_bound z (2 ^ 64) ltac:(lia)). unfold digits, in64. destruct (_ =? 0) eqn:E; [lia|].
  assert (Z.log2 (z mod 2 ^ 64) < 64) by (apply Z.log2_lt_pow2; lia). pose proof (Z.log2_nonneg (z mod 2 ^ 64)).
  change (2 ^ 63) with 9223372036854775808. lia.
Qed.

(** Results of operators on integers and bools. *)
Definition post {A} (inv : store -> Prop) (frame : store -> store -> Prop) (Q : A -> result -> Prop) (o : option A)
    (s : store) (x : store * (result * status)) : Prop :=
  snd (snd x) = SNoFuel \/
  match o with
  | Some v => snd (snd x) = SOk /\ Q v (fst (snd x)) /\ inv (fst x) /\ frame s (fst x)
  | None => snd (snd x) = SPanic
  end.

Lemma native_cases : forall a b : option tref,
  (a = None \/ a = Some (builtin_type "uint32")) -> (b = None \/ b = Some (builtin_type "uint32")) ->
  mix_int a b = Some None \/ mix_int a b = Some (Some (builtin_type "uint32")).
Proof. intros a b [->| ->] [->| ->]; cbn; auto. Qed.

Lemma arith_result : forall op x y ra rb full, is_int x ra -> is_int y rb -> full = true ->
  match arith_value op x y with
  | Some v => snd (eval_arith op full ra rb) = SOk /\ is_int v (fst (eval_arith op full ra rb))
  | None => snd (eval_arith op full ra rb) = SPanic
  end.
Proof.
  intros op x y ra rb full (Ta & Ia & Ra & Na & Fa) (Tb & Ib & Rb & Nb & Fb) ->.
  destruct (int_arith_value op x y Ra Rb) as (E & Hr).
  assert (At : exists nat, arithmetic_type ra rb = Some (TyInt, nat) /\ (nat = None \/ nat = Some (builtin_type "uint32"))).
  { unfold arithmetic_type. rewrite Ta, Tb. cbn [ety_eqb andb orb negb].
    destruct (same_native (r_native ra) (r_native rb)); [exists (r_native ra); split; [reflexivity|exact Na]|].
    destruct (native_cases _ _ Na Nb) as [-> | ->]; eexists; split; auto. }
  destruct At as (nat & At & Hn).
  unfold eval_arith. rewrite Ta, Tb, At. cbn [ety_eqb andb orb negb]. rewrite Fa, Fb. cbn [andb]. rewrite Ia, Ib, E.
  destruct (arith_value op x y) as [v|]; cbn [fst snd]; [|reflexivity].
  split; [reflexivity|]. repeat (split; cbn; auto).
Qed.

Lemma bitwise_result : forall op x y ra rb full, is_int x ra -> is_int y rb -> full = true ->
  match bitwise_value op x y with
  | Some v => snd (eval_bitwise op full ra rb) = SOk /\ is_int v (fst (eval_bitwise op full ra rb))
  | None => snd (eval_bitwise op full ra rb) = SPanic
  end.
Proof.
  intros op x y ra rb full (Ta & Ia & Ra & Na & Fa) (Tb & Ib & Rb & Nb & Fb) ->.
  destruct (int_bitwise_value op x y Ra Rb) as (E & Hr).
  unfold eval_bitwise, int_type. rewrite Ta, Tb. cbn [ety_eqb andb orb]. rewrite Ia, Ib, E.
  destruct (bitwise_value op x y) as [v|]; cbn [fst snd]; [|reflexivity].
  split; [reflexivity|]. split; [reflexivity|]. split; [reflexivity|]. split; [apply Hr; reflexivity|]. split; [|reflexivity].
  cbn [r_native]. destruct Na as [-> | ->]; [|auto]. destruct (is_shift op); auto.
Qed.

Lemma expr_value : forall (deref : root -> store -> store * status) P look rho (inv : store -> Prop) (frame : store -> store -> Prop),
  (forall s, inv s -> frame s s) -> (forall a b c, frame a b -> frame b c -> frame a c) ->
  forall known : string -> Prop,
  (forall n s, known n -> inv s -> post inv frame is_int (rho n) s (eval_name deref look n s)) ->
  (forall a, (forall n, In n (int_names a) -> known n) -> Forall (fun z => 0 <= z < 2 ^ 63) (int_literals a) ->
     forall s, inv s -> post inv frame is_int (int_value rho a) s (eval_expr deref P look (int_expr a) s)) /\
  (forall a, (forall n, In n (bool_names a) -> known n) -> Forall (fun z => 0 <= z < 2 ^ 63) (bool_literals a) ->
     forall s, inv s -> post inv frame is_bool (bool_value rho a) s (eval_expr deref P look (bool_expr a) s)).
Proof.
  intros deref P look rho inv frame Hrefl Htrans known Hname.
  (* one operand *)
  assert (U : forall A B (Q : A -> result -> Prop) (Q' : B -> result -> Prop) (o : option A) (f : A -> option B) e op s,
    post inv frame Q o s (eval_expr deref P look e s) ->
    (forall v r, Q v r -> r_full r = true /\ match f v with
       | Some w => snd (op (r_full r) r) = SOk /\ Q' w (fst (op (r_full r) r))
       | None => snd (op (r_full r) r) = SPanic end) ->
    post inv frame Q' (bind o f) s (match eval_expr deref P look e s with
             | (s1, (ra, SOk)) => (s1, op (r_full ra) ra)
             | (s1, (_, x)) => (s1, (blank true, x)) end)).
  { intros A B Q Q' o f e op s H Hop. destruct (eval_expr deref P look e s) as [s1 [ra x]]. unfold post in *. cbn [fst snd] in *.
    destruct H as [->|H]; [left; reflexivity|]. destruct o as [v|]; cbn [bind].
    - destruct H as (-> & HQ & Hi & Hf). right. destruct (Hop v ra HQ) as (_ & Hop').
      destruct (f v); cbn [fst snd]; [|exact Hop']. destruct Hop' as (A1 & A2). auto.
    - subst x. right. reflexivity. }
  (* two operands *)
  assert (B2 : forall A B C (Q : A -> result -> Prop) (Q' : B -> result -> Prop) (Q'' : C -> result -> Prop)
      (o : option A) (o' : option B) (f : A -> B -> option C) e e' op s,
    post inv frame Q o s (eval_expr deref P look e s) ->
    (forall s1, inv s1 -> post inv frame Q' o' s1 (eval_expr deref P look e' s1)) ->
    (forall v r v' r', Q v r -> Q' v' r' -> match f v v' with
       | Some w => snd (op (r_full r && r_full r') r r') = SOk /\ Q'' w (fst (op (r_full r && r_full r') r r'))
       | None => snd (op (r_full r && r_full r') r r') = SPanic end) ->
    post inv frame Q'' (bind o (fun v => bind o' (fun v' => f v v'))) s
      (match eval_expr deref P look e s with
             | (s1, (ra, SOk)) =>
                 match eval_expr deref P look e' s1 with
                 | (s2, (rb, SOk)) => (s2, op (r_full ra && r_full rb) ra rb)
                 | (s2, (_, x)) => (s2, (blank (r_full ra), x)) end
             | (s1, (_, x)) => (s1, (blank true, x)) end)).
  { intros A B C Q Q' Q'' o o' f e e' op s H H' Hop. destruct (eval_expr deref P look e s) as [s1 [ra x]]. unfold post in *. cbn [fst snd] in *.
    destruct H as [->|H]; [left; reflexivity|]. destruct o as [v|]; cbn [bind].
    - destruct H as (-> & HQ & Hi & Hf). specialize (H' s1 Hi). destruct (eval_expr deref P look e' s1) as [s2 [rb y]]. cbn [fst snd] in *.
      destruct H' as [->|H']; [left; reflexivity|]. destruct o' as [v'|]; cbn [bind].
      + destruct H' as (-> & HQ' & Hi' & Hf'). right. specialize (Hop v ra v' rb HQ HQ').
        destruct (f v v'); cbn [fst snd]; [|exact Hop]. destruct Hop as (A1 & A2). split; [exact A1|]. split; [exact A2|].
        split; [exact Hi'|]. eapply Htrans; eassumption.
      + subst y. right. reflexivity.
    - subst x. right. reflexivity. }
  (* three operands *)
  assert (T3 : forall B (Q' : B -> result -> Prop) (o : option bool) (o1 o2 : option B) e e1 e2 s,
    (forall v r, Q' v r -> r_full r = true /\ Q' v (mkRes (r_type r) (r_int r) f64_zero (r_str r) (r_bool r) (r_native r) true)) ->
    post inv frame is_bool o s (eval_expr deref P look e s) ->
    (forall s1, inv s1 -> post inv frame Q' o1 s1 (eval_expr deref P look e1 s1)) ->
    (forall s1, inv s1 -> post inv frame Q' o2 s1 (eval_expr deref P look e2 s1)) ->
    post inv frame Q' (bind o (fun t => bind o1 (fun x => bind o2 (fun y => Some (if (t : bool) then x else y))))) s
      (eval_expr deref P look (ETernary e e1 e2) s)).
  { intros B Q' o o1 o2 e e1 e2 s HQ H H1 H2. cbn [eval_expr]. destruct (eval_expr deref P look e s) as [s1 [ra x]]. unfold post in *. cbn [fst snd] in *.
    destruct H as [->|H]; [left; reflexivity|]. destruct o as [v|]; cbn [bind].
    2:{ subst x. right. reflexivity. }
    destruct H as (-> & (Qb1 & Qb2 & Qb3) & Hi & Hf). specialize (H1 s1 Hi). destruct (eval_expr deref P look e1 s1) as [s2 [rb y]]. cbn [fst snd] in *.
    destruct H1 as [->|H1]; [left; reflexivity|]. destruct o1 as [v1|]; cbn [bind].
    2:{ subst y. right. reflexivity. }
    destruct H1 as (-> & Q1 & Hi1 & Hf1). specialize (H2 s2 Hi1). destruct (eval_expr deref P look e2 s2) as [s3 [rc z]]. cbn [fst snd] in *.
    destruct H2 as [->|H2]; [left; reflexivity|]. destruct o2 as [v2|]; cbn [bind].
    2:{ subst z. right. reflexivity. }
    destruct H2 as (-> & Q2 & Hi2 & Hf2). right. cbn [fst snd]. destruct (HQ _ _ Q1) as (F1 & Q1'). destruct (HQ _ _ Q2) as (F2 & Q2').
    unfold eval_ternary. rewrite Qb1, Qb3, F1, F2. cbn [ety_eqb andb fst snd]. rewrite Qb2.
    split; [reflexivity|]. split; [destruct v; assumption|]. split; [exact Hi2|]. eapply Htrans; [exact Hf|]. eapply Htrans; eassumption. }
  assert (KI : forall v r, is_int v r -> r_full r = true /\ is_int v (mkRes (r_type r) (r_int r) f64_zero (r_str r) (r_bool r) (r_native r) true)).
  { intros v r (A1 & A2 & A3 & A4 & A5). split; [exact A5|]. repeat (split; cbn; auto). }
  assert (KB : forall v r, is_bool v r -> r_full r = true /\ is_bool v (mkRes (r_type r) (r_int r) f64_zero (r_str r) (r_bool r) (r_native r) true)).
  { intros v r (A1 & A2 & A3). split; [exact A3|]. repeat (split; cbn; auto). }
  assert (bindS : forall A (o : option A), o = bind o (fun x => Some x)) by (intros A [x|]; reflexivity).
  apply iexpr_bexpr_ind; cbn [int_names bool_names int_literals bool_literals int_expr bool_expr int_value bool_value].
  - (* INum *)
    intros z _ Hl s Hi. inversion Hl as [|? ? Hz _]; subst. right. cbn [eval_expr]. unfold MaxInt64.
    change (2 ^ 63) with 9223372036854775808 in Hz. replace (z <=? 9223372036854775807) with true by lia. cbn [fst snd].
    split; [reflexivity|]. split; [|auto]. repeat (split; cbn; auto); change (2 ^ 63) with 9223372036854775808; lia.
  - (* IConst *)
    intros n Hk _ s Hi. cbn [eval_expr]. apply Hname; [apply Hk; left; reflexivity|exact Hi].
  - (* IParen *)
    intros a IH Hk Hl s Hi. cbn [eval_expr]. cbn zeta. rewrite (bindS _ (int_value rho a)).
    apply (U _ _ is_int is_int); [apply IH; assumption|]. intros v r HQ. destruct (KI v r HQ) as (Hf & HQ'). split; [exact Hf|].
    rewrite Hf. split; [reflexivity|exact HQ'].
  - (* IUnary *)
    intros m a IH Hk Hl s Hi. cbn [eval_expr]. cbn zeta.
    apply (U _ _ is_int is_int); [apply IH; assumption|]. intros v r (A1 & A2 & A3 & A4 & A5). split; [exact A5|].
    unfold eval_unary. rewrite A1, A2, A5. cbn [ety_eqb fst snd]. split; [reflexivity|].
    rewrite i64_wrap. split; [reflexivity|]. split; [reflexivity|]. split; [destruct m; [apply wrap_in64|exact A3]|]. split; [exact A4|reflexivity].
  - (* IArith *)
    intros op a IHa b IHb Hk Hl s Hi. cbn [eval_expr]. cbn zeta. apply Forall_app in Hl. destruct Hl as (Hl1 & Hl2).
    apply (B2 _ _ _ is_int is_int is_int); [apply IHa; auto; intros; apply Hk, in_app_iff; auto|intros; apply IHb; auto; intros; apply Hk, in_app_iff; auto|].
    intros v r v' r' HQ HQ'. apply arith_result; [exact HQ|exact HQ'|]. destruct HQ as (_ & _ & _ & _ & ->), HQ' as (_ & _ & _ & _ & ->). reflexivity.
  - (* ITernary *)
    intros c IHc a IHa b IHb Hk Hl s Hi. apply Forall_app in Hl. destruct Hl as (Hl1 & Hl2). apply Forall_app in Hl2. destruct Hl2 as (Hl2 & Hl3).
    apply T3; [exact KI|apply IHc|intros; apply IHa|intros; apply IHb]; auto; intros; apply Hk; rewrite !in_app_iff; auto.
  - (* ITilde *)
    intros a IH Hk Hl s Hi. cbn [eval_expr]. cbn zeta.
    apply (U _ _ is_int is_int); [apply IH; assumption|]. intros v r (A1 & A2 & A3 & A4 & A5). split; [exact A5|].
    unfold eval_tilde, int_type. rewrite A1, A2, A5. cbn [ety_eqb orb fst snd]. split; [reflexivity|].
    replace (- v - 1) with (Z.lnot v) by (unfold Z.lnot; lia).
    split; [reflexivity|]. split; [reflexivity|]. split; [unfold in64, Z.lnot in *; lia|]. split; [exact A4|reflexivity].
  - (* IBitwise *)
    intros op a IHa b IHb Hk Hl s Hi. cbn [eval_expr]. cbn zeta. apply Forall_app in Hl. destruct Hl as (Hl1 & Hl2).
    apply (B2 _ _ _ is_int is_int is_int); [apply IHa; auto; intros; apply Hk, in_app_iff; auto|intros; apply IHb; auto; intros; apply Hk, in_app_iff; auto|].
    intros v r v' r' HQ HQ'. apply bitwise_result; [exact HQ|exact HQ'|]. destruct HQ as (_ & _ & _ & _ & ->), HQ' as (_ & _ & _ & _ & ->). reflexivity.
  - (* INumbits *)
    intros a IH Hk Hl s Hi. cbn [eval_expr]. cbn zeta.
    apply (U _ _ is_int is_int); [apply IH; assumption|]. intros v r (A1 & A2 & A3 & A4 & A5). split; [exact A5|].
    unfold eval_numbits. rewrite A1, A2, A5. cbn [ety_eqb fst snd]. split; [reflexivity|].
    split; [reflexivity|]. split; [reflexivity|]. split; [apply digits_in64|]. split; [left; reflexivity|reflexivity].
  - (* BBool *)
    intros b _ _ s Hi. right. cbn [eval_expr fst snd]. split; [reflexivity|]. split; [|auto]. repeat (split; cbn; auto).
  - (* BParen *)
    intros a IH Hk Hl s Hi. cbn [eval_expr]. cbn zeta. rewrite (bindS _ (bool_value rho a)).
    apply (U _ _ is_bool is_bool); [apply IH; assumption|]. intros v r HQ. destruct (KB v r HQ) as (Hf & HQ'). split; [exact Hf|].
    rewrite Hf. split; [reflexivity|exact HQ'].
  - (* BNot *)
    intros a IH Hk Hl s Hi. cbn [eval_expr]. cbn zeta.
    apply (U _ _ is_bool is_bool); [apply IH; assumption|]. intros v r (A1 & A2 & A3). split; [exact A3|].
    unfold eval_not. rewrite A1, A2, A3. cbn [ety_eqb fst snd]. split; [reflexivity|]. repeat (split; cbn; auto).
  - (* BLogic *)
    intros both a IHa b IHb Hk Hl s Hi. cbn [eval_expr]. cbn zeta. apply Forall_app in Hl. destruct Hl as (Hl1 & Hl2).
    apply (B2 _ _ _ is_bool is_bool is_bool); [apply IHa; auto; intros; apply Hk, in_app_iff; auto|intros; apply IHb; auto; intros; apply Hk, in_app_iff; auto|].
    intros v r v' r' (A1 & A2 & A3) (C1 & C2 & C3). unfold eval_logic. rewrite A1, A2, A3, C1, C2, C3. cbn [ety_eqb andb fst snd].
    split; [reflexivity|]. repeat (split; cbn; auto).
  - (* BCompare *)
    intros op a IHa b IHb Hk Hl s Hi. cbn [eval_expr]. cbn zeta. apply Forall_app in Hl. destruct Hl as (Hl1 & Hl2).
    apply (B2 _ _ _ is_int is_int is_bool); [apply IHa; auto; intros; apply Hk, in_app_iff; auto|intros; apply IHb; auto; intros; apply Hk, in_app_iff; auto|].
    intros v r v' r' (A1 & A2 & A3 & A4 & A5) (C1 & C2 & C3 & C4 & C5). unfold eval_compare, int_type.
    rewrite A1, A2, A5, C1, C2, C5. cbn [ety_eqb andb orb negb fst snd].
    split; [reflexivity|]. repeat (split; cbn; auto).
  - (* BTernary *)
    intros c IHc a IHa b IHb Hk Hl s Hi. apply Forall_app in Hl. destruct Hl as (Hl1 & Hl2). apply Forall_app in Hl2. destruct Hl2 as (Hl2 & Hl3).
    apply T3; [exact KB|apply IHc|intros; apply IHa|intros; apply IHb]; auto; intros; apply Hk; rewrite !in_app_iff; auto.
Qed.

(** ** Constants *)

Definition inv (defs : list iexpr) (rho : string -> option Z) (rank : nat -> nat) (k : nat) (s : store) : Prop :=
  forall c d, nth_error defs c = Some d ->
    match s (RConst c) with
    | Absent => False
    | Slot NotStarted _ => True
    | Slot InProgress _ => (k <= rank c)%nat
    | Slot Complete r => exists v, int_value rho d = Some v /\ is_int v r
    end.
Definition frame (s s' : store) : Prop :=
  forall c r, s' (RConst c) = Slot InProgress r -> exists r', s (RConst c) = Slot InProgress r'.

Lemma frame_refl : forall s, frame s s.
Proof. intros s c r H. exists r. exact H. Qed.
Lemma frame_trans : forall a b c, frame a b -> frame b c -> frame a c.
Proof. intros a b c H1 H2 i r H. destruct (H2 i r H) as (r' & H'). exact (H1 i r' H'). Qed.

Lemma const_root : forall P defs look rho rank, constants P defs look rho -> acyclic defs look rank ->
  forall fuel k c d s, nth_error defs c = Some d -> (rank c < k)%nat -> inv defs rho rank k s ->
  let x := eval_root fuel P look (RConst c) s in
  snd x = SNoFuel \/
  match int_value rho d with
  | Some v => snd x = SOk /\ (exists r, fst x (RConst c) = Slot Complete r /\ is_int v r) /\ inv defs rho rank k (fst x) /\ frame s (fst x)
  | None => snd x = SPanic
  end.
Proof.
  intros P defs look rho rank HC HA. induction fuel as [|fuel IH]; intros k c d s Hd Hk Hi x; subst x;
    pose proof (Hi c d Hd) as Hc; cbn [eval_root root_expr]; destruct (s (RConst c)) as [|[] r0] eqn:Es; try contradiction.
  - rewrite (c_defs _ _ _ _ HC), (map_nth_error int_expr _ _ Hd). left. reflexivity.
  - lia.
  - right. destruct Hc as (v & -> & Hv). cbn [fst snd]. split; [reflexivity|]. split; [exists r0; auto|]. split; [exact Hi|apply frame_refl].
  - rewrite (c_defs _ _ _ _ HC), (map_nth_error int_expr _ _ Hd).
    set (s1 := set s (RConst c) (Slot InProgress (blank true))).
    assert (Hi1 : inv defs rho rank (rank c) s1).
    { intros c' d' Hd'. unfold s1. destruct (Nat.eq_dec c c') as [->|Hn]; [rewrite set_same; lia|].
      rewrite set_other by congruence. specialize (Hi c' d' Hd'). destruct (s (RConst c')) as [|[] ?]; auto. lia. }
    destruct (expr_value (eval_root fuel P look) P look rho (inv defs rho rank (rank c)) frame
      (fun s _ => frame_refl s) frame_trans (fun n => exists c', look n = Some (SConst c') /\ (rank c' < rank c)%nat)) as (Hexp & _).
    { intros n s2 (c' & Hl & Hr) Hi2. unfold eval_name. rewrite Hl. destruct (c_values _ _ _ _ HC n c' Hl) as (d' & Hd' & Hv').
      pose proof (Hi2 c' d' Hd') as Hc'. destruct (s2 (RConst c')) as [|p' r'] eqn:Es2; [contradiction|]. clear Hc'.
      specialize (IH (rank c) c' d' s2 Hd' Hr Hi2). cbn zeta in IH. unfold post. rewrite Hv'.
      destruct (eval_root fuel P look (RConst c') s2) as [s3 x]. cbn [fst snd] in IH.
      destruct IH as [->|IH]; [left; reflexivity|]. right. destruct (int_value rho d') as [v|].
      - destruct IH as (-> & (r & Hr3 & Hv3) & Hi3 & Hf3). cbn [fst snd]. rewrite Hr3. split; [reflexivity|].
        split; [|auto]. destruct Hv3 as (A1 & A2 & A3 & A4 & A5). cbn [slot_result]. repeat (split; cbn; auto).
      - subst x. reflexivity. }
    assert (Hn : forall n, In n (int_names d) -> exists c', look n = Some (SConst c') /\ (rank c' < rank c)%nat).
    { intros n Hn. destruct (c_names _ _ _ _ HC d n) as (c' & Hl); [eapply nth_error_In; exact Hd|exact Hn|]. exists c'. split; [exact Hl|].
      exact (HA c d n c' Hd Hn Hl). }
    assert (Hl : Forall (fun z => 0 <= z < 2 ^ 63) (int_literals d)).
    { pose proof (c_literals _ _ _ _ HC) as HF. rewrite Forall_forall in HF. apply HF. eapply nth_error_In. exact Hd. }
    specialize (Hexp d Hn Hl s1 Hi1). unfold post in Hexp.
    destruct (eval_expr (eval_root fuel P look) P look (int_expr d) s1) as [s2 [res x]]. cbn [fst snd] in Hexp.
    destruct Hexp as [->|Hexp]; [left; reflexivity|]. right. destruct (int_value rho d) as [v|] eqn:Ev.
    + destruct Hexp as (-> & Hv & Hi2 & Hf2). cbn [fst snd].
      assert (Hf : frame s (set s2 (RConst c) (Slot Complete res))).
      { intros c' r Hr. destruct (Nat.eq_dec c c') as [->|Hne]; [rewrite set_same in Hr; discriminate|].
        rewrite set_other in Hr by congruence. destruct (Hf2 c' r Hr) as (r' & Hr'). unfold s1 in Hr'. rewrite set_other in Hr' by congruence.
        exists r'. exact Hr'. }
      split; [reflexivity|]. split; [exists res; rewrite set_same; auto|]. split; [|exact Hf].
      intros c' d' Hd'. pose proof (Hf c') as Hfc. destruct (Nat.eq_dec c c') as [->|Hne].
      * rewrite set_same. replace d' with d by congruence. exists v. auto.
      * rewrite set_other in * by congruence. specialize (Hi2 c' d' Hd'). destruct (s2 (RConst c')) as [|[] r'] eqn:E2; auto.
        destruct (Hfc r' eq_refl) as (r'' & Hr''). specialize (Hi c' d' Hd'). rewrite Hr'' in Hi. exact Hi.
    + subst x. reflexivity.
  - lia.
  - right. destruct Hc as (v & -> & Hv). cbn [fst snd]. split; [reflexivity|]. split; [exists r0; auto|]. split; [exact Hi|apply frame_refl].
Qed.

Lemma inv_initial : forall P defs look rho rank k, constants P defs look rho -> inv defs rho rank k (initial P).
Proof.
  intros P defs look rho rank k HC c d Hd. unfold initial. cbn [root_expr]. rewrite (c_defs _ _ _ _ HC), (map_nth_error int_expr _ _ Hd). exact I.
Qed.

Definition above (rank : nat -> nat) (defs : list iexpr) : nat := S (list_max (map rank (seq 0 (length defs)))).
Lemma above_spec : forall rank defs c d, nth_error defs c = Some d -> (rank c < above rank defs)%nat.
Proof.
  intros rank defs c d Hd. unfold above. apply Nat.lt_succ_r.
  assert (Hc : (c < length defs)%nat) by (apply nth_error_Some; congruence).
  pose proof (proj1 (list_max_le (map rank (seq 0 (length defs))) _) (Nat.le_refl _)) as HF.
  rewrite Forall_forall in HF. apply HF. apply in_map. apply in_seq. lia.
Qed.

(** The value of an expression, and of every constant. *)
Lemma expression_value : forall P defs look rho rank e,
  constants P defs look rho -> acyclic defs look rank -> literals_fit e ->
  (forall n, In n (int_names e) -> exists c, look n = Some (SConst c)) ->
  let x := snd (evaluate_expr P look (int_expr e) (initial P)) in
  match int_value rho e with
  | Some v => snd x = SOk /\ r_type (fst x) = TyInt /\ r_int (fst x) = v
  | None => snd x = SPanic
  end.
Proof.
  intros P defs look rho rank e HC HA Hl Hn x.
  destruct (expr_value (eval_root (root_count P) P look) P look rho (inv defs rho rank (above rank defs)) frame
      (fun s _ => frame_refl s) frame_trans (fun n => exists c', look n = Some (SConst c'))) as (Hexp & _).
  { intros n s2 (c' & Hc) Hi2. unfold eval_name. rewrite Hc. destruct (c_values _ _ _ _ HC n c' Hc) as (d' & Hd' & Hv').
    pose proof (Hi2 c' d' Hd') as Hc'. destruct (s2 (RConst c')) as [|p' r'] eqn:Es2; [contradiction|]. clear Hc'.
    pose proof (const_root P defs look rho rank HC HA (root_count P) _ c' d' s2 Hd' (above_spec rank defs c' d' Hd') Hi2) as IH.
    cbn zeta in IH. unfold post. rewrite Hv'.
    destruct (eval_root (root_count P) P look (RConst c') s2) as [s3 y]. cbn [fst snd] in IH.
    destruct IH as [->|IH]; [left; reflexivity|]. right. destruct (int_value rho d') as [v|].
    - destruct IH as (-> & (r & Hr3 & Hv3) & Hi3 & Hf3). cbn [fst snd]. rewrite Hr3. split; [reflexivity|].
      split; [|auto]. destruct Hv3 as (A1 & A2 & A3 & A4 & A5). cbn [slot_result]. repeat (split; cbn; auto).
    - subst y. reflexivity. }
  specialize (Hexp e Hn Hl (initial P) (inv_initial _ _ _ _ _ _ HC)).
  destruct (never_no_fuel P (initial P) look (reached_initial P)) as (_ & _ & _ & Hf). specialize (Hf (int_expr e)).
  fold (evaluate_expr P look (int_expr e) (initial P)) in Hexp. unfold post in Hexp. fold x in Hexp, Hf.
  destruct Hexp as [Hx|Hexp]; [contradiction|]. destruct (int_value rho e) as [v|]; [|exact Hexp].
  destruct Hexp as (A & (B & C & _) & _). auto.
Qed.

(** All constants, in any order and in any scopes that agree. *)
Lemma each_value : forall P defs rho rank order s,
  (forall look c, In (look, c) order -> constants P defs look rho /\ acyclic defs look rank /\ (c < length defs)%nat) ->
  reached P s -> inv defs rho rank (above rank defs) s ->
  let x := EvaluateConsts P order s in
  ((forall look c d, In (look, c) order -> nth_error defs c = Some d -> int_value rho d <> None) ->
   snd x = SOk /\ (forall look c d, In (look, c) order -> nth_error defs c = Some d -> value_of (fst x) (RConst c) = int_value rho d)) /\
  (forall look c d, In (look, c) order -> nth_error defs c = Some d -> int_value rho d = None -> snd x = SPanic).
Proof.
  intros P defs rho rank order. unfold EvaluateConsts.
  assert (Done : forall order s c d r, inv defs rho rank (above rank defs) s -> reached P s ->
     (forall look c, In (look, c) order -> constants P defs look rho /\ acyclic defs look rank /\ (c < length defs)%nat) ->
     nth_error defs c = Some d -> s (RConst c) = Slot Complete r ->
     fst (each (fun x => evaluate P (fst x) (RConst (snd x))) order s) (RConst c) = Slot Complete r).
  { clear order. induction order as [|[look c0] order IH]; intros s c d r Hi Hr H Hd Hs; [exact Hs|]. cbn [each fst snd].
    pose proof (reached_const P s look c0 Hr) as Hr'. pose proof (reached_good P s Hr) as Hg.
    pose proof (root_ok P look (root_count P) (RConst c0) s Hg) as Hok. destruct (H look c0 (or_introl eq_refl)) as (HC & HA & Hc0).
    destruct (nth_error defs c0) as [d0|] eqn:E0; [|apply nth_error_None in E0; lia].
    pose proof (const_root P defs look rho rank HC HA (root_count P) _ c0 d0 s E0 (above_spec rank defs c0 d0 E0) Hi) as Hv. cbn zeta in Hv.
    fold (evaluate P look (RConst c0) s) in Hok, Hv. destruct (evaluate P look (RConst c0) s) as [s1 x]. cbn [fst snd] in *.
    assert (Hs1 : s1 (RConst c) = Slot Complete r) by (destruct Hok as ((_ & (_ & HH & _) & _) & _); apply HH; exact Hs).
    destruct x; try exact Hs1. apply (IH s1 c d r); auto.
    { destruct Hv as [Hv|Hv]; [discriminate|]. destruct (int_value rho d0); [|discriminate]. apply Hv. }
    intros look' c' Hin. apply H. right. exact Hin. }
  induction order as [|[look c0] order IH]; intros s H Hr Hi.
  { split; [intros _; split; [reflexivity|intros ? ? ? []]|intros ? ? ? []]. }
  cbn [each fst snd].
  pose proof (reached_const P s look c0 Hr) as Hr'. destruct (H look c0 (or_introl eq_refl)) as (HC & HA & Hc0).
  destruct (nth_error defs c0) as [d0|] eqn:E0; [|apply nth_error_None in E0; lia].
  pose proof (const_root P defs look rho rank HC HA (root_count P) _ c0 d0 s E0 (above_spec rank defs c0 d0 E0) Hi) as Hv. cbn zeta in Hv.
  fold (evaluate P look (RConst c0) s) in Hv.
  destruct (never_no_fuel P s look Hr) as (Hf & _). specialize (Hf c0).
  assert (HT : forall look' c', In (look', c') order -> constants P defs look' rho /\ acyclic defs look' rank /\ (c' < length defs)%nat) by (intros; apply H; right; assumption).
  destruct (evaluate P look (RConst c0) s) as [s1 x]. cbn [fst snd] in *.
  destruct Hv as [->|Hv]; [contradiction|]. destruct (int_value rho d0) as [v|] eqn:Ev.
  - destruct Hv as (-> & (r & Hs1 & Hint) & Hi1 & _). destruct (IH s1 HT Hr' Hi1) as (IH1 & IH2). split.
    + intros Hall. destruct IH1 as (A & B); [intros look' c' d' Hin; apply (Hall look' c' d'); right; exact Hin|].
      split; [exact A|]. intros look' c' d' [Heq|Hin] Hd'; [|exact (B look' c' d' Hin Hd')].
      injection Heq as <- <-. replace d' with d0 by congruence. rewrite Ev. destruct Hint as (T & V & _). rewrite <- V.
      apply value_of_complete; [|exact T]. apply (Done order s1 c0 d0 r); auto.
    + intros look' c' d' [Heq|Hin] Hd' Hnone; [|exact (IH2 look' c' d' Hin Hd' Hnone)].
      injection Heq as <- <-. congruence.
  - subst x. cbn [snd]. split; [|reflexivity]. intros Hall. exfalso. apply (Hall look c0 d0); auto. left. reflexivity.
Qed.

(** ** Cycles *)

Lemma items_keeps : forall (I : store -> Prop) deref mk next, (forall r s, I s -> I (fst (deref r s))) ->
  (forall k s v, s (mk k) = Absent -> I s -> I (set s (mk k) (Slot Complete v))) -> forall todo k s, I s -> I (fst (eval_items deref mk next todo k s)).
Proof.
  intros I deref mk next Hd Hs. induction todo as [|todo IH]; intros k s Hi; [exact Hi|]. cbn [eval_items]. cbn zeta.
  destruct (s (mk k)) eqn:Ek.
  - destruct (next _); [|exact Hi]. apply IH, Hs; assumption.
  - pose proof (Hd (mk k) s Hi) as H. destruct (deref (mk k) s) as [s' []]; cbn [fst] in *; auto.
Qed.

Lemma expr_keeps : forall (I : store -> Prop) deref P look, (forall r s, I s -> I (fst (deref r s))) ->
  (forall e k s v, s (REnum e k) = Absent -> I s -> I (set s (REnum e k) (Slot Complete v))) ->
  forall e s, I s -> I (fst (eval_expr deref P look e s)).
Proof.
  intros I deref P look Hd He.
  assert (U : forall op a s, I (fst (eval_expr deref P look a s)) ->
    I (fst (match eval_expr deref P look a s with
             | (s1, (ra, SOk)) => (s1, op (r_full ra) ra)
             | (s1, (_, x)) => (s1, (blank true, x)) end : store * (result * status)))).
  { intros op a s H. destruct (eval_expr deref P look a s) as [s1 [ra []]]; exact H. }
  assert (B : forall op a b s, I (fst (eval_expr deref P look a s)) -> (forall s1, I s1 -> I (fst (eval_expr deref P look b s1))) ->
    I (fst (match eval_expr deref P look a s with
             | (s1, (ra, SOk)) =>
                 match eval_expr deref P look b s1 with
                 | (s2, (rb, SOk)) => (s2, op (r_full ra && r_full rb) ra rb)
                 | (s2, (_, x)) => (s2, (blank (r_full ra), x)) end
             | (s1, (_, x)) => (s1, (blank true, x)) end : store * (result * status)))).
  { intros op a b s H H'. destruct (eval_expr deref P look a s) as [s1 [ra []]]; try exact H. specialize (H' s1 H).
    destruct (eval_expr deref P look b s1) as [s2 [rb []]]; exact H'. }
  assert (F : forall r s, I s -> I (fst (match s r with
    | Absent => (s, (blank true, SPanic))
    | Slot _ _ =>
        match deref r s with
        | (s', SPanic) => (s', (blank true, SPanic))
        | (s', SNoFuel) => (s', (blank true, SNoFuel))
        | (s', _) => (s', (copy_result true (slot_result (s' r)), SOk))
        end
    end))).
  { intros r s Hi. destruct (s r); [exact Hi|]. pose proof (Hd r s Hi) as H. destruct (deref r s) as [s' []]; exact H. }
  induction e; intros st Hi; cbn [eval_expr]; cbn zeta; try exact Hi; try (apply U; auto); try (apply B; auto).
  - unfold eval_name. destruct (look n) as [[]|]; try exact Hi; cbn zeta; apply F; exact Hi.
  - unfold eval_dot. destruct (look t) as [[]|]; try exact Hi.
    + destruct (find_item _ _ _) as [k|]; [|exact Hi]. destruct (st (REnum e k)) as [|[] r]; try exact Hi;
      unfold eval_enum; (destruct (nth_error _ _); [|exact Hi]);
      match goal with |- context [eval_items ?d ?m ?n ?t ?k st] => pose proof (items_keeps I d m n Hd ltac:(auto) t k st Hi) as H; destruct (eval_items d m n t k st) as [s' []] end; exact H.
    + destruct (find_item _ _ _) as [k|]; [|exact Hi]. destruct (st (RMask m k)) as [|[] r]; exact Hi.
  - specialize (IHe1 st Hi). destruct (eval_expr deref P look e1 st) as [s1 [ra []]]; try exact IHe1. specialize (IHe2 s1 IHe1).
    destruct (eval_expr deref P look e2 s1) as [s2 [rb []]]; try exact IHe2. specialize (IHe3 s2 IHe2).
    destruct (eval_expr deref P look e3 s2) as [s3 [rc []]]; exact IHe3.
Qed.

(** The constants in [X] have no type, and those in [bad] never complete. *)
Definition typeless (X : nat -> bool) (bad : nat -> bool) (s : store) : Prop :=
  forall c, X c = true -> exists p r, s (RConst c) = Slot p r /\ r_type r = TyNone /\ (bad c = true -> p <> Complete).

Lemma typeless_set : forall X bad s r v, typeless X bad s -> (forall c, r = RConst c -> X c = false) -> typeless X bad (set s r v).
Proof. intros X bad s r v H Hr c Hc. rewrite set_other; [exact (H c Hc)|]. intros ->. rewrite (Hr c eq_refl) in Hc. discriminate. Qed.

Lemma refers_not_applies : forall look X e, refers look X e -> ~ applies look X e.
Proof. intros look X e H. induction H; intros Ha; inversion Ha; subst; auto. Qed.

Definition quiet (X : nat -> bool) (bad : nat -> bool) (deref : root -> store -> store * status) : Prop :=
  (forall r s, typeless X bad s -> typeless X bad (fst (deref r s))) /\
  (forall c s, X c = true -> typeless X bad s -> snd (deref (RConst c) s) <> SPanic).

Lemma quiet_keeps : forall X bad deref P look e s, quiet X bad deref -> typeless X bad s -> typeless X bad (fst (eval_expr deref P look e s)).
Proof.
  intros X bad deref P look e s (Hd & _) Hs. apply expr_keeps; auto; intros; apply typeless_set; auto; intros; discriminate.
Qed.

Lemma refers_eval : forall X bad deref P look e s, quiet X bad deref -> refers look X e -> typeless X bad s ->
  let x := snd (eval_expr deref P look e s) in (snd x = SNoFuel \/ snd x = SOk) /\ r_type (fst x) = TyNone.
Proof.
  intros X bad deref P look e s Hq H. revert s. induction H as [n c Hl Hc|e H IH]; intros s Hs; cbn [eval_expr]; cbn zeta.
  - unfold eval_name. rewrite Hl. destruct (Hs c Hc) as (p & r & Es & Ht & _). rewrite Es.
    pose proof (proj2 Hq c s Hc Hs) as Hp. pose proof (proj1 Hq (RConst c) s Hs) as Hk.
    destruct (deref (RConst c) s) as [s' x]. cbn [fst snd] in *. destruct (Hk c Hc) as (p' & r' & Es' & Ht' & _).
    destruct x; cbn [fst snd]; try congruence; try rewrite Es'; split; auto.
  - specialize (IH s Hs). cbn zeta in IH. destruct (eval_expr deref P look e s) as [s' [r x]]. cbn [fst snd] in *.
    destruct IH as ([->| ->] & Ht); cbn [fst snd]; split; auto.
Qed.

Lemma operand_eval : forall X bad deref P look e s, quiet X bad deref -> operand look X e -> typeless X bad s ->
  let x := snd (eval_expr deref P look e s) in
  (snd x = SNoFuel \/ snd x = SOk) /\ (r_type (fst x) = TyNone \/ (r_type (fst x) = TyInt \/ r_type (fst x) = TyBool) /\ ~ refers look X e).
Proof.
  intros X bad deref P look e s Hq H Hs x. subst x. destruct H as [e H|z Hz|b].
  - destruct (refers_eval X bad deref P look e s Hq H Hs) as (E & T); auto.
  - cbn [eval_expr fst snd]. replace (z <=? MaxInt64) with true by lia. cbn. split; [auto|]. right.
    split; [auto|]. intros C; inversion C.
  - cbn. split; [auto|]. right. split; [auto|]. intros C; inversion C.
Qed.

Lemma applies_eval : forall X bad deref P look e s, quiet X bad deref -> applies look X e -> typeless X bad s ->
  let x := snd (eval_expr deref P look e s) in (snd x = SNoFuel \/ snd x = SErr) /\ r_type (fst x) = TyNone.
Proof.
  intros X bad deref P look e s Hq H. revert s.
  (* an operator applied to a reference *)
  assert (U : forall (op : bool -> result -> result * status) a s, refers look X a -> typeless X bad s ->
    (forall f r, r_type r = TyNone -> snd (op f r) = SErr /\ r_type (fst (op f r)) = TyNone) ->
    let x := snd (match eval_expr deref P look a s with
             | (s1, (ra, SOk)) => (s1, op (r_full ra) ra)
             | (s1, (_, x)) => (s1, (blank true, x)) end) in (snd x = SNoFuel \/ snd x = SErr) /\ r_type (fst x) = TyNone).
  { intros op a s Ha Hs Hop. pose proof (refers_eval X bad deref P look a s Hq Ha Hs) as H'. cbn zeta in H'.
    destruct (eval_expr deref P look a s) as [s1 [ra x]]. cbn [fst snd] in *. destruct H' as ([->| ->] & Ht); cbn [fst snd]; [split; auto|]. destruct (Hop (r_full ra) ra Ht) as (-> & ->). auto. }
  assert (B : forall (op : bool -> result -> result -> result * status) a b s, operand look X a -> operand look X b -> typeless X bad s ->
    (forall f r r', (r_type r = TyNone \/ (r_type r = TyInt \/ r_type r = TyBool) /\ ~ refers look X a) ->
       (r_type r' = TyNone \/ (r_type r' = TyInt \/ r_type r' = TyBool) /\ ~ refers look X b) ->
       snd (op f r r') = SErr /\ r_type (fst (op f r r')) = TyNone) ->
    let x := snd (match eval_expr deref P look a s with
             | (s1, (ra, SOk)) =>
                 match eval_expr deref P look b s1 with
                 | (s2, (rb, SOk)) => (s2, op (r_full ra && r_full rb) ra rb)
                 | (s2, (_, x)) => (s2, (blank (r_full ra), x)) end
             | (s1, (_, x)) => (s1, (blank true, x)) end) in (snd x = SNoFuel \/ snd x = SErr) /\ r_type (fst x) = TyNone).
  { intros op a b s Ha Hb Hs Hop. pose proof (operand_eval X bad deref P look a s Hq Ha Hs) as H1.
    pose proof (quiet_keeps X bad deref P look a s Hq Hs) as Hs1. cbn zeta in H1.
    destruct (eval_expr deref P look a s) as [s1 [ra x]]. cbn [fst snd] in *. destruct H1 as ([->| ->] & Ht); [split; auto|].
    pose proof (operand_eval X bad deref P look b s1 Hq Hb Hs1) as H2. cbn zeta in H2.
    destruct (eval_expr deref P look b s1) as [s2 [rb y]]. cbn [fst snd] in *. destruct H2 as ([->| ->] & Ht2); [split; auto|].
    cbn [fst snd]. destruct (Hop (r_full ra && r_full rb) ra rb Ht Ht2) as (-> & ->). auto. }
  (* an operator whose first operand fails *)
  assert (E1 : forall a (f : store -> result -> store * (result * status)) s,
    (let x := snd (eval_expr deref P look a s) in (snd x = SNoFuel \/ snd x = SErr) /\ r_type (fst x) = TyNone) ->
    let x := snd (match eval_expr deref P look a s with
             | (s1, (ra, SOk)) => f s1 ra
             | (s1, (_, x)) => (s1, (blank true, x)) end) in (snd x = SNoFuel \/ snd x = SErr) /\ r_type (fst x) = TyNone).
  { intros a f s H'. cbn zeta in H'. destruct (eval_expr deref P look a s) as [s1 [ra x]]. cbn [fst snd] in *.
    destruct H' as ([->| ->] & Ht); split; auto. }
  (* one whose second operand fails *)
  assert (E2 : forall a b (f : store -> result -> store -> result -> store * (result * status)) s, operand look X a -> typeless X bad s ->
    (forall s1, typeless X bad s1 -> let x := snd (eval_expr deref P look b s1) in (snd x = SNoFuel \/ snd x = SErr) /\ r_type (fst x) = TyNone) ->
    let x := snd (match eval_expr deref P look a s with
             | (s1, (ra, SOk)) =>
                 match eval_expr deref P look b s1 with
                 | (s2, (rb, SOk)) => f s1 ra s2 rb
                 | (s2, (_, x)) => (s2, (blank (r_full ra), x)) end
             | (s1, (_, x)) => (s1, (blank true, x)) end) in (snd x = SNoFuel \/ snd x = SErr) /\ r_type (fst x) = TyNone).
  { intros a b f s Ha Hs Hb. pose proof (operand_eval X bad deref P look a s Hq Ha Hs) as H1.
    pose proof (quiet_keeps X bad deref P look a s Hq Hs) as Hs1. cbn zeta in H1.
    destruct (eval_expr deref P look a s) as [s1 [ra x]]. cbn [fst snd] in *. destruct H1 as ([->| ->] & Ht); [split; auto|].
    specialize (Hb s1 Hs1). cbn zeta in Hb.
    destruct (eval_expr deref P look b s1) as [s2 [rb y]]. cbn [fst snd] in *. destruct Hb as ([->| ->] & Ht2); split; auto. }
  induction H; intros s Hs; cbn [eval_expr]; cbn zeta.
  - apply U; auto. intros f r Ht. unfold eval_unary. rewrite Ht. split; reflexivity.
  - apply U; auto. intros f r Ht. unfold eval_tilde. rewrite Ht. split; reflexivity.
  - apply U; auto. intros f r Ht. unfold eval_not. rewrite Ht. split; reflexivity.
  - apply U; auto. intros f r Ht. unfold eval_numbits. rewrite Ht. split; reflexivity.
  - apply B; auto. intros f r r' T T'. unfold eval_arith.
    destruct T as [->|([->| ->] & T)], T' as [->|([->| ->] & T')]; try (split; reflexivity); tauto.
  - apply B; auto. intros f r r' T T'. unfold eval_bitwise.
    destruct T as [->|([->| ->] & T)], T' as [->|([->| ->] & T')]; try (split; reflexivity); tauto.
  - apply B; auto. intros f r r' T T'. unfold eval_logic.
    destruct T as [->|([->| ->] & T)], T' as [->|([->| ->] & T')]; try (split; reflexivity); tauto.
  - pose proof (refers_eval X bad deref P look e s Hq H Hs) as H1. cbn zeta in H1.
    destruct (eval_expr deref P look e s) as [s1 [ra x]]. cbn [fst snd] in *. destruct H1 as ([->| ->] & Ht); [split; auto|].
    replace (z <=? MaxInt64) with true by lia. cbn [fst snd]. unfold eval_compare. rewrite Ht. split; auto.
  - replace (z <=? MaxInt64) with true by lia. cbn [fst snd].
    pose proof (refers_eval X bad deref P look e s Hq H Hs) as H1. cbn zeta in H1.
    destruct (eval_expr deref P look e s) as [s1 [ra x]]. cbn [fst snd] in *. destruct H1 as ([->| ->] & Ht); [split; auto|].
    unfold eval_compare. rewrite Ht. split; auto.
  - pose proof (refers_eval X bad deref P look e s Hq H Hs) as H3. pose proof (quiet_keeps X bad deref P look e s Hq Hs) as Hs1. cbn zeta in H3.
    destruct (eval_expr deref P look e s) as [s1 [ra x]]. cbn [fst snd] in *. destruct H3 as ([->| ->] & Ht); [split; auto|].
    pose proof (operand_eval X bad deref P look a s1 Hq H0 Hs1) as H4. pose proof (quiet_keeps X bad deref P look a s1 Hq Hs1) as Hs2. cbn zeta in H4.
    destruct (eval_expr deref P look a s1) as [s2 [rb x]]. cbn [fst snd] in *. destruct H4 as ([->| ->] & Ht2); [split; auto|].
    pose proof (operand_eval X bad deref P look b s2 Hq H1 Hs2) as H5. cbn zeta in H5.
    destruct (eval_expr deref P look b s2) as [s3 [rc x]]. cbn [fst snd] in *. destruct H5 as ([->| ->] & Ht3); [split; auto|].
    unfold eval_ternary. rewrite Ht. split; auto.
  - apply (E1 e (fun s1 ra => (s1, eval_paren (r_full ra) ra))). apply IHapplies, Hs.
  - apply (E1 e (fun s1 ra => (s1, eval_unary m (r_full ra) ra))). apply IHapplies, Hs.
  - apply E1. apply IHapplies, Hs.
  - apply (E2 e e' (fun s1 ra s2 rb => (s2, eval_arith op (r_full ra && r_full rb) ra rb))); auto.
  - apply E1. apply IHapplies, Hs.
  - apply E1. apply IHapplies, Hs.
  - apply E1. apply IHapplies, Hs.
  - apply (E2 e a); auto.
Qed.

Lemma root_quiet : forall P look X bad, cyclic P look X bad ->
  forall fuel, quiet X bad (eval_root fuel P look) /\
  (forall c s, X c = true -> typeless X bad s ->
     let x := snd (eval_root fuel P look (RConst c) s) in
     if bad c then x <> SOk else x = SErr -> exists r, s (RConst c) = Slot InProgress r).
Proof.
  intros P look X bad Hcy. induction fuel as [|fuel (Hq & _)].
  - assert (E : forall r s, fst (eval_root 0 P look r s) = s).
    { intros r s. cbn [eval_root]. destruct (s r) as [|[] ?]; try reflexivity. destruct (root_expr P r); reflexivity. }
    split; [split|].
    + intros r s Hs. rewrite E. exact Hs.
    + intros c s Hc Hs. destruct (Hs c Hc) as (p & r & Es & _). destruct (Hcy c Hc) as (e & He & _).
      cbn [eval_root root_expr]. rewrite Es, He. destruct p; discriminate.
    + intros c s Hc Hs. destruct (Hs c Hc) as (p & r & Es & _ & Hp). destruct (Hcy c Hc) as (e & He & _).
      cbn [eval_root root_expr]. rewrite Es, He. destruct (bad c).
      * specialize (Hp eq_refl). destruct p; try discriminate. congruence.
      * destruct p; cbn; try discriminate. intros _. exists r. reflexivity.
  - assert (One : forall c s, X c = true -> typeless X bad s ->
      let x := eval_root (S fuel) P look (RConst c) s in
      typeless X bad (fst x) /\ snd x <> SPanic /\
      (if bad c then snd x <> SOk else snd x = SErr -> exists r, s (RConst c) = Slot InProgress r)).
    { intros c s Hc Hs x. subst x. destruct (Hs c Hc) as (p & r & Es & Ht & Hp). destruct (Hcy c Hc) as (e & He & Hor).
      cbn [eval_root root_expr]. rewrite Es, He. destruct p.
      - set (s1 := set s (RConst c) (Slot InProgress (blank true))).
        assert (Hs1 : typeless X bad s1).
        { intros c' Hc'. unfold s1. destruct (Nat.eq_dec c c') as [->|Hn].
          - rewrite set_same. exists InProgress, (blank true). repeat split. discriminate.
          - rewrite set_other by congruence. exact (Hs c' Hc'). }
        assert (Fin : forall s2 p' res, typeless X bad s2 -> r_type res = TyNone -> (bad c = true -> p' <> Complete) -> typeless X bad (set s2 (RConst c) (Slot p' res))).
        { intros s2 p' res Hs2 Hres Hp' c' Hc'. destruct (Nat.eq_dec c c') as [->|Hn].
          - rewrite set_same. exists p', res. auto.
          - rewrite set_other by congruence. exact (Hs2 c' Hc'). }
        pose proof (quiet_keeps X bad (eval_root fuel P look) P look e s1 Hq Hs1) as Hs2.
        destruct (bad c) eqn:Eb.
        + pose proof (applies_eval X bad (eval_root fuel P look) P look e s1 Hq Hor Hs1) as H1. cbn zeta in H1.
          destruct (eval_expr _ P look e s1) as [s2 [res x]] eqn:Ee. cbn [fst snd] in *.
          destruct H1 as ([->| ->] & Ht1); cbn [fst snd]; (split; [apply Fin; auto; discriminate|split; discriminate]).
        + pose proof (refers_eval X bad (eval_root fuel P look) P look e s1 Hq Hor Hs1) as H1. cbn zeta in H1.
          destruct (eval_expr _ P look e s1) as [s2 [res x]] eqn:Ee. cbn [fst snd] in *.
          destruct H1 as ([->| ->] & Ht1); cbn [fst snd]; (split; [apply Fin; auto; discriminate|split; discriminate]).
      - cbn [fst snd]. split; [exact Hs|]. split; [discriminate|]. destruct (bad c); [discriminate|]. intros _. exists r. reflexivity.
      - cbn [fst snd]. split; [exact Hs|]. split; [discriminate|]. destruct (bad c); [intros _; exact (Hp eq_refl eq_refl)|discriminate]. }
    split; [split|].
    + intros r s Hs. destruct r as [c|e k|e k]; [destruct (X c) eqn:Ec; [apply (One c s Ec Hs)|]| |];
        cbn [eval_root]; destruct (s _) as [|[] ?]; try exact Hs; destruct (root_expr P _); try exact Hs;
        match goal with |- context [eval_expr ?d P look ?e ?s1] => pose proof (quiet_keeps X bad d P look e s1 Hq ltac:(apply typeless_set; [exact Hs|congruence])) as H;
          destruct (eval_expr d P look e s1) as [s2 [res []]] end; apply typeless_set; auto; congruence.
    + intros c s Hc Hs. apply (One c s Hc Hs).
    + intros c s Hc Hs. apply (One c s Hc Hs).
Qed.

Lemma typeless_initial : forall P look X bad, cyclic P look X bad -> typeless X bad (initial P).
Proof.
  intros P look X bad H c Hc. destruct (H c Hc) as (e & He & _). exists NotStarted, (blank false). unfold initial. cbn [root_expr].
  rewrite He. repeat split. discriminate.
Qed.

(** A cycle with an operator is rejected, whatever else there is. *)
Lemma cycle_rejected : forall P X uses order c look,
  (forall look c, In (look, c) order -> cyclic P look X uses) -> In (look, c) order -> X c = true -> uses c = true ->
  snd (EvaluateConsts P order (initial P)) <> SOk.
Proof.
  intros P X uses order c look Hall Hin Hc Hu. unfold EvaluateConsts.
  assert (Hs : typeless X uses (initial P)) by exact (typeless_initial P look X uses (Hall look c Hin)).
  revert Hs. generalize (initial P). induction order as [|[look0 c0] order IH]; intros s Hs; [contradiction|]. cbn [each fst snd].
  destruct (root_quiet P look0 X uses (Hall look0 c0 (or_introl eq_refl)) (root_count P)) as ((Hq & _) & Ho).
  unfold evaluate. pose proof (Hq (RConst c0) s Hs) as Hs1.
  destruct Hin as [Heq|Hin].
  - injection Heq as -> ->. specialize (Ho c s Hc Hs). cbn zeta in Ho. rewrite Hu in Ho.
    destruct (eval_root (root_count P) P look (RConst c) s) as [s1 []]; cbn [snd] in *; congruence.
  - destruct (eval_root (root_count P) P look0 (RConst c0) s) as [s1 []]; try discriminate.
    apply IH; auto. intros look' c' H'. apply (Hall look' c'). right. exact H'.
Qed.

Lemma refers_frame : forall P look X, cyclic P look X (fun _ => false) ->
  forall fuel c s, X c = true -> typeless X (fun _ => false) s ->
  let x := eval_root fuel P look (RConst c) s in snd x = SNoFuel \/ frame s (fst x).
Proof.
  intros P look X Hcy. induction fuel as [|fuel IH]; intros c s Hc Hs; cbn zeta; destruct (Hs c Hc) as (p & r & Es & _);
    destruct (Hcy c Hc) as (e & He & Hr); cbn [eval_root root_expr]; rewrite Es, He.
  - destruct p; [left; reflexivity| |]; right; apply frame_refl.
  - destruct p; [| |]; try (right; apply frame_refl).
    set (s1 := set s (RConst c) (Slot InProgress (blank true))).
    destruct (root_quiet P look X (fun _ => false) Hcy fuel) as (Hq & _).
    assert (Hs1 : typeless X (fun _ => false) s1).
    { intros c' Hc'. unfold s1. destruct (Nat.eq_dec c c') as [->|Hn].
      - rewrite set_same. exists InProgress, (blank true). repeat split. discriminate.
      - rewrite set_other by congruence. exact (Hs c' Hc'). }
    assert (G : forall e, refers look X e -> let x := eval_expr (eval_root fuel P look) P look e s1 in
      snd (snd x) = SNoFuel \/ snd (snd x) = SOk /\ frame s1 (fst x)).
    { clear e He Hr. intros e Hr. induction Hr as [n c' Hl Hc'|e H IHr]; cbn [eval_expr]; cbn zeta.
      - unfold eval_name. rewrite Hl. destruct (Hs1 c' Hc') as (p' & r' & Es' & _). rewrite Es'.
        pose proof (IH c' s1 Hc' Hs1) as H1. cbn zeta in H1. pose proof (proj2 Hq c' s1 Hc' Hs1) as H2.
        destruct (eval_root fuel P look (RConst c') s1) as [s2 x]. cbn [fst snd] in *.
        destruct H1 as [->|H1]; [left; reflexivity|]. destruct x; cbn [fst snd]; try congruence; auto.
      - cbn zeta in IHr. destruct (eval_expr (eval_root fuel P look) P look e s1) as [s2 [r' x]]. cbn [fst snd] in *.
        destruct IHr as [->|(-> & H1)]; [left; reflexivity|]. right. split; [reflexivity|exact H1]. }
    specialize (G e Hr). cbn zeta in G. destruct (eval_expr (eval_root fuel P look) P look e s1) as [s2 [res x]]. cbn [fst snd] in *.
    destruct G as [->|(-> & Hf2)]; [left; reflexivity|]. right. cbn [fst snd].
    intros c' r' Hr'. destruct (Nat.eq_dec c c') as [->|Hne]; [rewrite set_same in Hr'; discriminate|].
    rewrite set_other in Hr' by congruence. destruct (Hf2 c' r' Hr') as (r'' & Hr''). unfold s1 in Hr''. rewrite set_other in Hr'' by congruence.
    exists r''. exact Hr''.
Qed.

(** A cycle of mere references is accepted and leaves the constants without a type. *)
Lemma cycle_silent : forall P X order,
  (forall look c, In (look, c) order -> cyclic P look X (fun _ => false) /\ X c = true) ->
  snd (EvaluateConsts P order (initial P)) = SOk /\
  (forall look c, In (look, c) order ->
    exists r, fst (EvaluateConsts P order (initial P)) (RConst c) = Slot Complete r /\ r_type r = TyNone).
Proof.
  intros P X order Hall. unfold EvaluateConsts.
  assert (Hs : order <> [] -> typeless X (fun _ => false) (initial P)).
  { intros Hne. destruct order as [|[look c] order]; [congruence|].
    exact (typeless_initial P look X _ (proj1 (Hall look c (or_introl eq_refl)))). }
  assert (Hp : forall c r, initial P (RConst c) <> Slot InProgress r).
  { intros c r. unfold initial. destruct (root_expr P (RConst c)); discriminate. }
  pose proof (reached_initial P) as Hr. revert Hs Hp Hr. generalize (initial P).
  induction order as [|[look0 c0] order IH]; intros s Hs Hp Hr; [split; [reflexivity|intros ? ? []]|]. cbn [each fst snd].
  destruct (Hall look0 c0 (or_introl eq_refl)) as (Hcy & Hc0). specialize (Hs ltac:(discriminate)).
  destruct (root_quiet P look0 X _ Hcy (root_count P)) as ((Hq & Hnp) & Ho).
  pose proof (reached_const P s look0 c0 Hr) as Hr1. destruct (never_no_fuel P s look0 Hr) as (Hnf & _).
  pose proof (root_ok P look0 (root_count P) (RConst c0) s (reached_good P s Hr)) as (_ & Hcomp).
  specialize (Hnf c0). unfold evaluate in *. pose proof (Hq (RConst c0) s Hs) as Hs1. specialize (Ho c0 s Hc0 Hs). cbn zeta beta in Ho.
  specialize (Hnp c0 s Hc0 Hs). pose proof (refers_frame P look0 X Hcy (root_count P) c0 s Hc0 Hs) as Hf. cbn zeta in Hf.
  destruct (eval_root (root_count P) P look0 (RConst c0) s) as [s1 x] eqn:Ee. cbn [fst snd] in *.
  destruct x; try congruence; [|destruct (Ho eq_refl) as (r & E); exfalso; exact (Hp c0 r E)].
  destruct Hf as [Hf|Hf]; [discriminate|].
  destruct (IH ltac:(intros look c H; apply (Hall look c); right; exact H) s1 (fun _ => Hs1)) as (A & B); [|exact Hr1|].
  { intros c r E. destruct (Hf c r E) as (r' & E'). exact (Hp c r' E'). }
  split; [exact A|]. intros look c [Heq|Hin]; [|exact (B look c Hin)]. injection Heq as <- <-.
  destruct (Hcomp eq_refl) as (v & Hv). destruct (Hs1 c0 Hc0) as (p & r & E1 & Et & _). rewrite Hv in E1. injection E1 as <- <-.
  exists v. split; [|exact Et].
  assert (Done : forall order s1, reached P s1 -> s1 (RConst c0) = Slot Complete v ->
    fst (each (fun x => eval_root (root_count P) P (fst x) (RConst (snd x))) order s1) (RConst c0) = Slot Complete v).
  { clear. induction order as [|[look c] order IH]; intros s1 Hr Hv; [exact Hv|]. cbn [each fst snd].
    pose proof (reached_const P s1 look c Hr) as Hr2. unfold evaluate in Hr2.
    pose proof (root_ok P look (root_count P) (RConst c) s1 (reached_good P s1 Hr)) as ((_ & (_ & HH & _) & _) & _). specialize (HH _ _ Hv).
    destruct (eval_root (root_count P) P look (RConst c) s1) as [s2 []]; try exact HH. cbn [fst] in *. apply IH; assumption. }
  apply Done; assumption.
Qed.

(** ** Explicit values of items *)

(** A complete root whose expression names nothing has its value. *)
Definition closed_values (P : program) (s : store) : Prop :=
  forall r d v, root_expr P r = Some (int_expr d) -> int_names d = [] -> literals_fit d -> s r = Slot Complete v ->
  exists z, int_value (fun _ => None) d = Some z /\ is_int z v.

Definition settled (P : program) (s : store) : Prop := (forall r e, root_expr P r = Some e -> s r <> Absent) /\ closed_values P s.

Lemma settled_item : forall P s r v, s r = Absent -> settled P s -> settled P (set s r (Slot Complete v)).
Proof.
  intros P s r v Ha (H1 & H2). split.
  - intros r' e Hr. unfold set. destruct (root_eqb r r'); [discriminate|exact (H1 r' e Hr)].
  - intros r' d w Hr Hn Hl Hs. unfold set in Hs. destruct (root_eqb r r') eqn:E; [|exact (H2 r' d w Hr Hn Hl Hs)].
    apply root_eqb_spec in E. subst r'. exfalso. exact (H1 r _ Hr Ha).
Qed.

Lemma settled_initial : forall P, settled P (initial P).
Proof.
  intros P. split.
  - intros r e Hr. unfold initial. rewrite Hr. discriminate.
  - intros r d v Hr _ _ Hs. unfold initial in Hs. rewrite Hr in Hs. discriminate.
Qed.

Lemma root_settled : forall P look fuel r s, settled P s -> settled P (fst (eval_root fuel P look r s)).
Proof.
  intros P look. induction fuel as [|fuel IH]; intros r s Hs; cbn [eval_root]; destruct (s r) as [|[] v0] eqn:Es; try exact Hs.
  - destruct (root_expr P r); exact Hs.
  - destruct (root_expr P r) as [e|] eqn:Er; [|exact Hs].
    assert (Set1 : forall s p v, p <> Complete -> settled P s -> settled P (set s r (Slot p v))).
    { intros s' p v Hp (H1 & H2). split.
      - intros r' e' Hr. unfold set. destruct (root_eqb r r'); [discriminate|exact (H1 r' e' Hr)].
      - intros r' d w Hr Hn Hl Hs'. unfold set in Hs'. destruct (root_eqb r r') eqn:E; [|exact (H2 r' d w Hr Hn Hl Hs')].
        injection Hs' as -> _. congruence. }
    set (s1 := set s r (Slot InProgress (blank true))).
    assert (Hs1 : settled P s1) by (apply Set1; [discriminate|exact Hs]).
    pose proof (expr_keeps (settled P) (eval_root fuel P look) P look IH (fun e k s v => settled_item P s (REnum e k) v) e s1 Hs1) as Hs2.
    assert (Hv : forall d, e = int_expr d -> int_names d = [] -> literals_fit d ->
      post (fun _ => True) (fun _ _ => True) is_int (int_value (fun _ => None) d) s1 (eval_expr (eval_root fuel P look) P look e s1)).
    { intros d -> Hn Hl.
      destruct (expr_value (eval_root fuel P look) P look (fun _ => None) (fun _ => True) (fun _ _ => True)
        (fun _ _ => I) (fun _ _ _ _ _ => I) (fun _ => False)) as (Hexp & _); [contradiction|].
      apply Hexp; [rewrite Hn; contradiction|exact Hl|exact I]. }
    destruct (eval_expr (eval_root fuel P look) P look e s1) as [s2 [res x]]. cbn [fst snd] in Hs2.
    destruct x; cbn [fst]; try (apply Set1; [discriminate|exact Hs2]).
    destruct Hs2 as (H1 & H2). split.
    + intros r' e' Hr. unfold set. destruct (root_eqb r r'); [discriminate|exact (H1 r' e' Hr)].
    + intros r' d w Hr Hn Hl Hs'. unfold set in Hs'. destruct (root_eqb r r') eqn:E; [|exact (H2 r' d w Hr Hn Hl Hs')].
      apply root_eqb_spec in E. subst r'. rewrite Er in Hr. injection Hr as ->. injection Hs' as <-.
      destruct (Hv d eq_refl Hn Hl) as [Hx|Hx]; [discriminate|]. cbn [fst snd] in Hx.
      destruct (int_value (fun _ => None) d) as [z|]; [|discriminate]. exists z. split; [reflexivity|apply Hx].
Qed.

Lemma reached_settled : forall P s, reached P s -> settled P s.
Proof.
  intros P s H. induction H as [|s look c H IH|s look e H IH|s look m H IH|s look e H IH].
  - apply settled_initial.
  - apply root_settled, IH.
  - unfold evaluate_enum, eval_enum. destruct (nth_error _ _); [|exact IH].
    apply items_keeps; [apply root_settled|intros; apply settled_item; assumption|exact IH].
  - unfold evaluate_mask, eval_mask. destruct (nth_error _ _); [|exact IH].
    apply items_keeps; [apply root_settled|intros; apply settled_item; assumption|exact IH].
  - unfold evaluate_expr; apply expr_keeps; [apply root_settled|intros; apply settled_item; assumption|exact IH].
Qed.

Lemma closed_complete : forall P s r d v, reached P s -> root_expr P r = Some (int_expr d) -> int_names d = [] -> literals_fit d ->
  s r = Slot Complete v -> value_of s r = int_value (fun _ => None) d /\ value_of s r <> None.
Proof.
  intros P s r d v Hr He Hn Hl Hs. destruct (proj2 (reached_settled P s Hr) r d v He Hn Hl Hs) as (z & Hz & (T & V & _)).
  rewrite Hz. rewrite (value_of_complete s r v Hs T), V. split; [reflexivity|discriminate].
Qed.

Lemma enum_explicit : forall P s look e items k name d, reached P s ->
  nth_error (p_enums P) e = Some items -> nth_error items k = Some (name, Some (int_expr d)) -> int_names d = [] -> literals_fit d ->
  snd (evaluate_enum P look e s) = SOk ->
  exists v, int_value (fun _ => None) d = Some v /\ value_of (fst (evaluate_enum P look e s)) (REnum e k) = Some v.
Proof.
  intros P s look e items k name d Hr He Hk Hn Hl Hx.
  destruct (enum_ok P (root_count P) (eval_root (root_count P) P look) e s (root_ok P look _) (reached_good P s Hr)) as (_ & S2).
  fold (evaluate_enum P look e s) in S2. specialize (S2 Hx items He).
  assert (Hlen : (k < length items)%nat) by (apply nth_error_Some; congruence). destruct (S2 k Hlen) as (v & Hv).
  destruct (closed_complete P _ (REnum e k) d v (reached_enum P s look e Hr)) as (A & B); auto.
  - cbn [root_expr]. unfold item_expr. rewrite He, Hk. reflexivity.
  - rewrite A in *. destruct (int_value (fun _ => None) d) as [z|]; [|congruence]. exists z. auto.
Qed.

Lemma mask_explicit : forall P s look e items k name d, reached P s ->
  nth_error (p_masks P) e = Some items -> nth_error items k = Some (name, Some (int_expr d)) -> int_names d = [] -> literals_fit d ->
  snd (evaluate_mask P look e s) = SOk ->
  exists v, int_value (fun _ => None) d = Some v /\ value_of (fst (evaluate_mask P look e s)) (RMask e k) = Some v.
Proof.
  intros P s look e items k name d Hr He Hk Hn Hl Hx.
  destruct (mask_ok P (root_count P) (eval_root (root_count P) P look) e s (root_ok P look _) (reached_good P s Hr)) as (_ & S2).
  fold (evaluate_mask P look e s) in S2. specialize (S2 Hx items He).
  assert (Hlen : (k < length items)%nat) by (apply nth_error_Some; congruence). destruct (S2 k Hlen) as (v & Hv).
  destruct (closed_complete P _ (RMask e k) d v (reached_mask P s look e Hr)) as (A & B); auto.
  - cbn [root_expr]. unfold item_expr. rewrite He, Hk. reflexivity.
  - rewrite A in *. destruct (int_value (fun _ => None) d) as [z|]; [|congruence]. exists z. auto.
Qed.

(** ** Properties *)

Lemma enum_implicit : forall P s look e items k name,
  reached P s -> nth_error (p_enums P) e = Some items -> nth_error items k = Some (name, None) ->
  snd (evaluate_enum P look e s) = SOk ->
  let s' := fst (evaluate_enum P look e s) in
  match k with
  | O => value_of s' (REnum e 0) = Some 0
  | S j => exists v, value_of s' (REnum e j) = Some v /\ value_of s' (REnum e (S j)) = Some (wrap (v + 1))
  end.
Proof.
  intros P s look e items k name Hr He Hk Hx s'. pose proof (enum_value P s look e items k name Hr He Hk Hx) as H. cbn zeta in H. fold s' in H.
  destruct k as [|j]; [exact H|]. destruct H as (v & H1 & H2). exists v. rewrite <- i64_wrap. auto.
Qed.

Lemma enum_counts : forall P s look e items j v n,
  reached P s -> nth_error (p_enums P) e = Some items ->
  (forall i, (j < i <= j + n)%nat -> exists name, nth_error items i = Some (name, None)) ->
  snd (evaluate_enum P look e s) = SOk ->
  value_of (fst (evaluate_enum P look e s)) (REnum e j) = Some v -> - 2 ^ 63 <= v -> v + Z.of_nat n < 2 ^ 63 ->
  value_of (fst (evaluate_enum P look e s)) (REnum e (j + n)) = Some (v + Z.of_nat n).
Proof.
  intros P s look e items j v n Hr He Hi Hx Hv Hlo Hhi. rewrite (enum_run P s look e items j v n Hr He Hi Hx Hv). f_equal.
  destruct n as [|n]; [cbn; lia|]. cbn [Nat.eqb]. apply wrap_id. unfold in64. lia.
Qed.

Lemma mask_implicit : forall P s look m items k name,
  reached P s -> nth_error (p_masks P) m = Some items -> nth_error items k = Some (name, None) ->
  snd (evaluate_mask P look m s) = SOk ->
  let s' := fst (evaluate_mask P look m s) in
  match k with
  | O => value_of s' (RMask m 0) = Some 1
  | S j => exists v, value_of s' (RMask m j) = Some v /\
      (- 2 ^ 63 <= v < 2 ^ 63 -> value_of s' (RMask m (S j)) = Some (if v <=? 0 then 1 else wrap (2 ^ digits v)))
  end.
Proof.
  intros P s look e items k name Hr He Hk Hx s'. pose proof (mask_value P s look e items k name Hr He Hk Hx) as H. cbn zeta in H. fold s' in H.
  destruct k as [|j]; [exact H|]. destruct H as (v & H1 & H2). exists v. split; [exact H1|]. intros Hv. rewrite <- free_bit_value by exact Hv. exact H2.
Qed.

Lemma constants_value : forall P defs rho rank order,
  (forall look c, In (look, c) order -> constants P defs look rho /\ acyclic defs look rank /\ (c < length defs)%nat) ->
  let x := EvaluateConsts P order (initial P) in
  ((forall look c d, In (look, c) order -> nth_error defs c = Some d -> int_value rho d <> None) ->
   snd x = SOk /\ (forall look c d, In (look, c) order -> nth_error defs c = Some d -> value_of (fst x) (RConst c) = int_value rho d)) /\
  (forall look c d, In (look, c) order -> nth_error defs c = Some d -> int_value rho d = None -> snd x = SPanic).
Proof.
  intros P defs rho rank order H. destruct order as [|[look c] order].
  - cbn. split; [intros _; split; [reflexivity|intros ? ? ? []]|intros ? ? ? []].
  - apply each_value with (rank := rank); [exact H|apply reached_initial|]. apply (inv_initial P defs look). apply (H look c). left. reflexivity.
Qed.

Lemma implicit_crash : forall P look t i s e m k,
  (look t = Some (SEnum e) -> find_item i (nth e (p_enums P) []) 0 = Some k -> s (REnum e k) = Absent ->
   snd (snd (evaluate_expr P look (EDot t i) s)) = SPanic) /\
  (look t = Some (SMask m) -> find_item i (nth m (p_masks P) []) 0 = Some k -> s (RMask m k) = Absent ->
   snd (snd (evaluate_expr P look (EDot t i) s)) = SPanic).
Proof.
  intros P look t i s e m k. unfold evaluate_expr. cbn [eval_expr]. unfold eval_dot.
  split; intros Hl Hf Ha; rewrite Hl, Hf, Ha; reflexivity.
Qed.

Lemma dot_not_full : forall deref P look t i s, r_full (fst (snd (eval_dot deref P look t i s))) = false.
Proof.
  intros. unfold eval_dot. destruct (look t) as [[]|]; try reflexivity.
  - destruct (find_item _ _ _) as [k|]; [|reflexivity]. destruct (s (REnum e k)) as [|[] r]; try reflexivity;
    destruct (eval_enum deref P e s) as [s' []]; reflexivity.
  - destruct (find_item _ _ _) as [k|]; [|reflexivity]. destruct (s (RMask m k)) as [|[] r]; reflexivity.
Qed.

Lemma item_arith : forall P look s t i z op, z <= MaxInt64 ->
  let item := evaluate_expr P look (EDot t i) s in
  snd (snd item) = SOk -> r_type (fst (snd item)) = TyInt ->
  (r_native (fst (snd item)) = None) ->
  forall e, In e [EArith op (EDot t i) (ENum z); EArith op (ENum z) (EDot t i)] ->
  let x := snd (evaluate_expr P look e s) in
  snd x = SOk /\ int_arith op 1 1 = Some (r_int (fst x)) /\ r_full (fst x) = false.
Proof.
  intros P look s t i z op Hz item Hok Hty Hnat e He x. subst item x. unfold evaluate_expr in *. cbn [eval_expr] in *.
  set (d := eval_root (root_count P) P look) in *.
  pose proof (dot_not_full d P look t i s) as Hf.
  assert (Op : forall r, In r [1; 1] -> exists v, int_arith op 1 1 = Some v) by (intros; destruct op; eexists; reflexivity).
  destruct (Op 1 ltac:(cbn; auto)) as (v & Hv).
  destruct He as [<-|[<-|[]]]; cbn [eval_expr]; cbn zeta.
  - destruct (eval_dot d P look t i s) as [s1 [r x]]. cbn [fst snd] in *. subst x. replace (z <=? MaxInt64) with true by lia. cbn [fst snd].
    unfold eval_arith. rewrite Hty, Hf. cbn [ety_eqb andb orb negb r_type r_full]. unfold arithmetic_type. cbn [r_type r_native]. rewrite Hty, Hnat.
    cbn [ety_eqb andb same_native]. rewrite Hv. cbn. auto.
  - replace (z <=? MaxInt64) with true by lia. cbn [fst snd].
    destruct (eval_dot d P look t i s) as [s1 [r x]]. cbn [fst snd] in *. subst x. cbn [fst snd].
    unfold eval_arith. rewrite Hty, Hf. cbn [ety_eqb andb orb negb r_type r_full]. unfold arithmetic_type. cbn [r_type r_native]. rewrite Hty, Hnat.
    cbn [ety_eqb andb same_native]. rewrite Hv. cbn. auto.
Qed.

Lemma bool_compare : forall P look s a b x y op,
  bool_names a = [] -> bool_names b = [] ->
  Forall (fun z => 0 <= z < 2 ^ 63) (bool_literals a) -> Forall (fun z => 0 <= z < 2 ^ 63) (bool_literals b) ->
  bool_value (fun _ => None) a = Some x -> bool_value (fun _ => None) b = Some y ->
  reached P s ->
  let r := snd (evaluate_expr P look (ECompare op (bool_expr a) (bool_expr b)) s) in
  snd r = SOk /\ r_type (fst r) = TyBool /\ r_bool (fst r) = false.
Proof.
  intros P look s a b x y op Na Nb La Lb Va Vb Hr r. subst r.
  destruct (expr_value (eval_root (root_count P) P look) P look (fun _ => None) (fun _ => True) (fun _ _ => True)
        (fun _ _ => I) (fun _ _ _ _ _ => I) (fun _ => False)) as (_ & Hexp); [contradiction|].
  pose proof (Hexp a ltac:(rewrite Na; contradiction) La s I) as Ha. rewrite Va in Ha.
  destruct (never_no_fuel P s look Hr) as (_ & _ & _ & Hnf). pose proof (Hnf (bool_expr a)) as Hfa.
  pose proof (reached_expr P s look (bool_expr a) Hr) as Hr1.
  unfold evaluate_expr in *. cbn [eval_expr]. cbn zeta.
  destruct (eval_expr (eval_root (root_count P) P look) P look (bool_expr a) s) as [s1 [ra xa]]. cbn [fst snd] in *.
  destruct Ha as [Ha|(Ha & (Ta & _) & _)]; cbn [fst snd] in *; [contradiction|]. subst xa.
  pose proof (Hexp b ltac:(rewrite Nb; contradiction) Lb s1 I) as Hb. rewrite Vb in Hb.
  destruct (never_no_fuel P s1 look Hr1) as (_ & _ & _ & Hnf1). pose proof (Hnf1 (bool_expr b)) as Hfb. unfold evaluate_expr in Hfb.
  destruct (eval_expr (eval_root (root_count P) P look) P look (bool_expr b) s1) as [s2 [rb xb]]. cbn [fst snd] in *.
  destruct Hb as [Hb|(Hb & (Tb & _) & _)]; cbn [fst snd] in *; [contradiction|]. subst xb.
  unfold eval_compare, int_type. rewrite Ta, Tb. cbn. auto.
Qed.

Lemma float_lost : forall P look s a,
  let before := evaluate_expr P look a s in
  snd (snd before) = SOk -> r_type (fst (snd before)) = TyFloat ->
  forall e, In e [EParen a; EUnary true a; EUnary false a; ETernary (EBool true) a (ENum 0); ETernary (EBool false) (ENum 0) a] ->
  let after := evaluate_expr P look e s in
  snd (snd after) = SOk /\ r_type (fst (snd after)) = TyFloat /\ r_float (fst (snd after)) = f64_zero.
Proof.
  intros P look s a before Hok Hty e He after. subst before after. unfold evaluate_expr in *.
  cbn [In] in He. repeat (destruct He as [<-|He]); try contradiction; cbn [eval_expr]; cbn zeta;
  destruct (eval_expr (eval_root (root_count P) P look) P look a s) as [s1 [r x]]; cbn [fst snd] in *; subst x; cbn [fst snd];
  unfold eval_paren, eval_unary, eval_ternary; rewrite ?Hty; cbn; auto.
Qed.

Lemma float_binary : forall P look s op x y fx fy z, float_arith op fx fy = Some z ->
  let r := evaluate_expr P look (EArith op (EFloat x fx) (EFloat y fy)) s in
  snd (snd r) = SOk /\ r_type (fst (snd r)) = TyFloat /\ r_float (fst (snd r)) = z.
Proof.
  intros P look s op x y fx fy z Hz r. subst r. unfold evaluate_expr. cbn [eval_expr fst snd]. unfold eval_arith.
  cbn [r_type ety_eqb andb orb negb r_full]. 
  assert (A : exists n, arithmetic_type (mkRes TyFloat 0 fx "" false (Some (builtin_type (if x then "float32" else "float64"))) true)
     (mkRes TyFloat 0 fy "" false (Some (builtin_type (if y then "float32" else "float64"))) true) = Some (TyFloat, n)).
  { destruct x, y; eexists; reflexivity. }
  destruct A as (n & ->). unfold as_float. cbn [r_type ety_eqb r_float]. rewrite Hz. cbn. auto.
Qed.

(** ** Mixed operands and items *)

Lemma float_mixed : forall P look s op single fx k z, 0 <= k < 2 ^ 63 ->
  (float_arith op (f64_of_int k) fx = Some z ->
   let r := evaluate_expr P look (EArith op (ENum k) (EFloat single fx)) s in
   snd (snd r) = SOk /\ r_type (fst (snd r)) = TyFloat /\ r_float (fst (snd r)) = z) /\
  (float_arith op fx (f64_of_int k) = Some z ->
   let r := evaluate_expr P look (EArith op (EFloat single fx) (ENum k)) s in
   snd (snd r) = SOk /\ r_type (fst (snd r)) = TyFloat /\ r_float (fst (snd r)) = z).
Proof.
  intros P look s op single fx k z Hk.
  assert (K : (k <=? MaxInt64) = true) by (unfold MaxInt64; apply Z.leb_le; lia).
  split; intros Hz r; subst r; unfold evaluate_expr; cbn [eval_expr fst snd]; rewrite K; cbn [fst snd]; unfold eval_arith;
  cbn [r_type ety_eqb andb orb negb r_full]; unfold arithmetic_type; cbn [r_type r_native ety_eqb andb orb negb same_native mix_float];
  unfold as_float; cbn [r_type ety_eqb r_float r_int]; rewrite Hz; cbn; auto.
Qed.

Lemma dot_enum : forall P look s t i e k v,
  look t = Some (SEnum e) -> find_item i (nth e (p_enums P) []) 0 = Some k -> value_of s (REnum e k) = Some v ->
  let x := snd (evaluate_expr P look (EDot t i) s) in
  snd x = SOk /\ r_type (fst x) = TyInt /\ r_int (fst x) = v /\
  snd (snd (evaluate_expr P look (EValueof (EDot t i)) s)) = SErr.
Proof.
  intros P look s t i e k v Hl Hf Hv x. subst x. unfold evaluate_expr. cbn [eval_expr]. unfold eval_dot. rewrite Hl, Hf.
  unfold value_of in Hv. destruct (s (REnum e k)) as [|[] r]; try discriminate.
  destruct (r_type r) eqn:E; try discriminate. injection Hv as <-. cbn [fst snd]. unfold eval_valueof, copy_result. cbn [r_type r_int fst snd].
  rewrite E. cbn. auto.
Qed.

Lemma dot_mask : forall P look s t i m k v,
  look t = Some (SMask m) -> find_item i (nth m (p_masks P) []) 0 = Some k -> value_of s (RMask m k) = Some v ->
  let x := snd (evaluate_expr P look (EValueof (EDot t i)) s) in
  snd x = SOk /\ r_type (fst x) = TyInt /\ r_int (fst x) = v.
Proof.
  intros P look s t i m k v Hl Hf Hv x. subst x. unfold evaluate_expr. cbn [eval_expr]. unfold eval_dot. rewrite Hl, Hf.
  unfold value_of in Hv. destruct (s (RMask m k)) as [|[] r]; try discriminate.
  destruct (r_type r) eqn:E; try discriminate. injection Hv as <-. cbn. auto.
Qed.

Lemma land_nonzero : forall a b, negb (Z.land a b =? 0) = true <-> exists k, 0 <= k /\ Z.testbit a k = true /\ Z.testbit b k = true.
Proof.
  intros a b. rewrite negb_true_iff, Z.eqb_neq. split.
  - intros H. destruct (Z.eq_dec (Z.land a b) 0) as [|_]; [contradiction|].
    set (c := Z.land a b) in *.
    assert (E : exists k, 0 <= k /\ Z.testbit c k = true).
    { destruct (Z_lt_le_dec c 0) as [Hn|Hp].
      - exists (Z.log2 (- c - 1) + 1). pose proof (Z.log2_nonneg (- c - 1)). split; [lia|].
        pose proof (Z.bits_above_log2 (- c - 1) (Z.log2 (- c - 1) + 1) ltac:(lia) ltac:(lia)) as B.
        replace (- c - 1) with (Z.lnot c) in B at 1 by (unfold Z.lnot; lia). rewrite Z.lnot_spec in B by lia.
        destruct (Z.testbit c _); [reflexivity|discriminate].
      - exists (Z.log2 c). split; [apply Z.log2_nonneg|]. apply Z.bit_log2. lia. }
    destruct E as (k & Hk & E). exists k. subst c. rewrite Z.land_spec in E. apply andb_true_iff in E. tauto.
  - intros (k & Hk & Ha & Hb) E. assert (T : Z.testbit (Z.land a b) k = true) by (rewrite Z.land_spec, Ha, Hb; reflexivity).
    rewrite E, Z.bits_0 in T. discriminate.
Qed.

Lemma isset_masks : forall P look s t1 i1 m1 k1 a t2 i2 m2 k2 b,
  look t1 = Some (SMask m1) -> find_item i1 (nth m1 (p_masks P) []) 0 = Some k1 -> value_of s (RMask m1 k1) = Some a ->
  look t2 = Some (SMask m2) -> find_item i2 (nth m2 (p_masks P) []) 0 = Some k2 -> value_of s (RMask m2 k2) = Some b ->
  let x := snd (evaluate_expr P look (EIsset (EDot t1 i1) (EDot t2 i2)) s) in
  snd x = SOk /\ r_type (fst x) = TyBool /\
  (r_bool (fst x) = true <-> exists k, 0 <= k /\ Z.testbit a k = true /\ Z.testbit b k = true).
Proof.
  intros P look s t1 i1 m1 k1 a t2 i2 m2 k2 b Hl1 Hf1 Hv1 Hl2 Hf2 Hv2 x. subst x. unfold evaluate_expr. cbn [eval_expr].
  unfold eval_dot. rewrite Hl1, Hf1. unfold value_of in Hv1, Hv2.
  destruct (s (RMask m1 k1)) as [|[] r1] eqn:E1; try discriminate. destruct (r_type r1) eqn:T1; try discriminate. injection Hv1 as <-.
  cbn [fst snd]. rewrite Hl2, Hf2.
  destruct (s (RMask m2 k2)) as [|[] r2] eqn:E2; try discriminate. destruct (r_type r2) eqn:T2; try discriminate. injection Hv2 as <-.
  cbn [fst snd]. unfold eval_isset. cbn [r_type ety_eqb andb fst snd r_bool r_int]. split; [reflexivity|]. split; [reflexivity|]. apply land_nonzero.
Qed.
