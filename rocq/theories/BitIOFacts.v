(** The byte-cached writer and reader implement the ideal bit streams. *)

Require Import ZArith List Bool Lia ZifyBool ZifyNat.
From Verif Require Import Bits BitsFacts Stream StreamFacts Scalars FixedFacts VarFacts PrefixFacts ScalarFacts BitIO.
Import ListNotations.
Open Scope Z_scope.

(** ** Writer *)

(** [w] stands for the bit sequence [bits]. *)
Definition wrep (w : bw) (bits : list bool) : Prop :=
  exists pend, bits = bytes_bits (bout w) ++ pend /\ Z.of_nat (length pend) = bcnt w /\
    (length pend < 8)%nat /\ bcache w = val_of pend * 2 ^ (8 - bcnt w) /\
    bcount w = Z.of_nat (length bits) /\ Forall is_byte (bout w).

Lemma wrep_new : wrep bw_new [].
Proof. exists []. cbn. repeat split; auto; lia. Qed.

Lemma lor_pow2_add : forall x y n, 0 <= n -> 0 <= y < 2 ^ n -> Z.lor (x * 2 ^ n) y = x * 2 ^ n + y.
Proof. intros x y n Hn Hy. rewrite <- Z.shiftl_mul_pow2 by lia. rewrite lor_shiftl_add by lia. now rewrite Z.shiftl_mul_pow2 by lia. Qed.

(** Completing a pending byte. *)
Lemma byte_combine : forall pend (c : nat) x, length pend = c -> (c <= 8)%nat -> 0 <= x < 2 ^ (8 - Z.of_nat c) ->
  bits_of 8 (Z.lor (val_of pend * 2 ^ (8 - Z.of_nat c)) x) = pend ++ bits_of (8 - c) x.
Proof.
  intros pend c x Hc H8 Hx. rewrite lor_pow2_add by lia.
  pose proof (bits_of_shift_lor c (8 - c) (val_of pend) x) as E.
  replace (c + (8 - c))%nat with 8%nat in E by lia.
  replace (Z.of_nat (8 - c)) with (8 - Z.of_nat c) in E by lia.
  rewrite E; [|apply val_of_range|exact Hx]. f_equal. subst c. apply bits_of_val_of.
Qed.

Lemma combine_byte_range : forall pend (c : nat) x, length pend = c -> (c <= 8)%nat ->
  0 <= x < 2 ^ (8 - Z.of_nat c) -> is_byte (Z.lor (val_of pend * 2 ^ (8 - Z.of_nat c)) x).
Proof.
  intros pend c x Hc H8 Hx. rewrite lor_pow2_add by lia. unfold is_byte.
  pose proof (val_of_range pend) as R. rewrite Hc in R.
  assert (P : 2 ^ Z.of_nat c * 2 ^ (8 - Z.of_nat c) = 256)
    by (rewrite <- Z.pow_add_r by lia; replace (Z.of_nat c + (8 - Z.of_nat c)) with 8 by lia; reflexivity).
  pose proof (pow2_pos (8 - Z.of_nat c) ltac:(lia)). nia.
Qed.

Lemma bits_of_to_u8 : forall x, bits_of 8 (to_u 8 x) = bits_of 8 x.
Proof. intros. unfold to_u. apply (bits_of_mod 8 8). lia. Qed.

Lemma to_u8_byte : forall x, is_byte (to_u 8 x).
Proof. intros. unfold is_byte. apply (to_u_range 8). lia. Qed.

Lemma bits_of_split : forall (n k : nat) r, (k <= n)%nat ->
  bits_of n r = bits_of (n - k) (r / 2 ^ Z.of_nat k) ++ bits_of k r.
Proof. intros n k r H. rewrite <- bits_of_app. f_equal. lia. Qed.

(** Low bits moved to the top of a byte. *)
Lemma low_to_top : forall r n, 0 <= n <= 8 ->
  to_u 8 (Z.shiftl (Z.land (to_u 8 r) (Z.shiftl 1 n - 1)) (8 - n)) = (r mod 2 ^ n) * 2 ^ (8 - n).
Proof.
  intros r n Hn. rewrite Z.shiftl_1_l, land_ones_lit by lia.
  unfold to_u at 2. rewrite mod_mod_pow2 by lia. rewrite Z.shiftl_mul_pow2 by lia.
  apply to_u_small.
  pose proof (Z.mod_pos_bound r (2 ^ n) (pow2_pos n ltac:(lia))) as R.
  assert (P : 2 ^ n * 2 ^ (8 - n) = 2 ^ 8)
    by (rewrite <- Z.pow_add_r by lia; replace (n + (8 - n)) with 8 by lia; reflexivity).
  pose proof (pow2_pos (8 - n) ltac:(lia)). nia.
Qed.

Lemma bw_whole_spec : forall fuel r n out, 0 <= r -> 0 <= n < 8 * Z.of_nat (S fuel) ->
  exists L pend, bw_whole fuel r n out =
      (out ++ L, val_of pend * 2 ^ (8 - Z.of_nat (length pend)), Z.of_nat (length pend)) /\
    bits_of (Z.to_nat n) r = bytes_bits L ++ pend /\ (length pend < 8)%nat /\ Forall is_byte L.
Proof.
  induction fuel as [|fuel IH]; intros r n out Hr Hn; cbn [bw_whole].
  - replace (8 <=? n) with false by lia. destruct (Z.ltb_spec 0 n).
    + exists [], (bits_of (Z.to_nat n) r). rewrite app_nil_r, bits_of_length, Z2Nat.id by lia.
      rewrite low_to_top by lia. rewrite val_of_bits_of, Z2Nat.id by lia.
      repeat split; auto. lia.
    + assert (n = 0) as -> by lia. exists [], []. rewrite app_nil_r. repeat split; auto. cbn; lia.
  - destruct (Z.leb_spec 8 n).
    + destruct (IH r (n - 8) (out ++ [to_u 8 (Z.shiftr r (n - 8))])) as (L & pend & E & Eb & Hl & HL); [lia|lia|].
      exists (to_u 8 (Z.shiftr r (n - 8)) :: L), pend. rewrite E, <- app_assoc.
      split; [reflexivity|]. split; [|split; [exact Hl|constructor; [apply to_u8_byte|exact HL]]].
      rewrite bytes_bits_cons, bits_of_to_u8, <- app_assoc, <- Eb.
      rewrite (bits_of_split (Z.to_nat n) (Z.to_nat (n - 8))) by lia.
      replace (Z.to_nat n - Z.to_nat (n - 8))%nat with 8%nat by lia.
      rewrite Z2Nat.id by lia. now rewrite Z.shiftr_div_pow2 by lia.
    + destruct (Z.ltb_spec 0 n).
      * exists [], (bits_of (Z.to_nat n) r). rewrite app_nil_r, bits_of_length, Z2Nat.id by lia.
        rewrite low_to_top by lia. rewrite val_of_bits_of, Z2Nat.id by lia.
        repeat split; auto. lia.
      * assert (n = 0) as -> by lia. exists [], []. rewrite app_nil_r. repeat split; auto. cbn; lia.
Qed.

(** The core: WriteBitsUnsafe with an already masked value. *)
Lemma bw_write_unsafe_rep : forall w bits r n, wrep w bits -> 0 <= n <= 248 -> 0 <= r < 2 ^ n ->
  let w' := bw_write_unsafe r n w in
  wrep (mkBW (bout w') (bcache w') (bcnt w') (bcount w + n)) (bits ++ bits_of (Z.to_nat n) r).
Proof.
  intros [out cache cnt count] bits r n (pend & Hb & Hc & H8 & Hcache & Hcount & Hout) Hn Hr.
  cbn [bout bcache bcnt bcount] in *. subst cnt.
  remember (length pend) as c eqn:Ec. symmetry in Ec.
  assert (Hlen : count + n = Z.of_nat (length (bits ++ bits_of (Z.to_nat n) r)))
    by (rewrite app_length, bits_of_length; lia).
  unfold bw_write_unsafe. cbn [bout bcache bcnt bcount]. rewrite (to_u_small 8 (Z.of_nat c + n)) by (change (2 ^ 8) with 256; lia).
  cbn [bout bcache bcnt bcount].
  destruct (Z.ltb_spec (Z.of_nat c + n) 8) as [L|L]; cbn [bout bcache bcnt].
  - exists (pend ++ bits_of (Z.to_nat n) r). cbn [bout bcache bcnt bcount].
    rewrite app_length, bits_of_length, Ec.
    repeat split; auto; try lia.
    + rewrite Hb. now rewrite app_assoc.
    + assert (Hr8 : 0 <= r < 2 ^ 8) by (pose proof (pow2_le n 8); lia).
      rewrite (to_u_small 8 r) by exact Hr8.
      set (e := 8 - (Z.of_nat c + n)). assert (He : 0 <= e) by (unfold e; lia).
      rewrite val_of_app, val_of_bits_of, bits_of_length, Z2Nat.id by lia.
      rewrite Z.mod_small by lia. rewrite Z.shiftl_mul_pow2 by lia.
      assert (Pn : 2 ^ (8 - Z.of_nat c) = 2 ^ n * 2 ^ e) by (rewrite <- Z.pow_add_r by lia; f_equal; unfold e; lia).
      pose proof (pow2_pos e He) as Pe.
      assert (Hx : 0 <= r * 2 ^ e < 2 ^ (8 - Z.of_nat c)) by (rewrite Pn; nia).
      rewrite (to_u_small 8 (r * 2 ^ e)).
      2:{ pose proof (pow2_le (8 - Z.of_nat c) 8). lia. }
      rewrite Hcache, lor_pow2_add by lia. rewrite Pn. ring.
  - destruct (Z.ltb_spec 8 (Z.of_nat c + n)) as [L2|L2].
    + set (free := 8 - Z.of_nat c).
      destruct (bw_whole_spec 32 r (n - free) (out ++ [Z.lor (cache) (to_u 8 (Z.shiftr r (n - free)))]))
        as (Lw & pend' & E & Eb & Hl & HL); [lia|lia|].
      rewrite E. exists pend'. cbn [bout bcache bcnt bcount].
      assert (Hx : 0 <= r / 2 ^ (n - free) < 2 ^ free).
      { split; [apply Z.div_pos; [lia|apply pow2_pos; lia]|].
        apply Z.div_lt_upper_bound; [apply pow2_pos; lia|]. rewrite <- Z.pow_add_r by lia.
        replace (n - free + free) with n by lia. lia. }
      assert (Hx8 : to_u 8 (Z.shiftr r (n - free)) = r / 2 ^ (n - free)).
      { rewrite Z.shiftr_div_pow2 by lia. apply to_u_small. pose proof (pow2_le free 8). lia. }
      rewrite Hx8 in *. rewrite Hcache in *.
      unfold free in *.
      repeat split; auto; try lia.
      * rewrite Hb. rewrite !bytes_bits_app, bytes_bits_cons. cbn [bytes_bits flat_map].
        rewrite app_nil_r. rewrite byte_combine by (first [reflexivity|assumption|lia]).
        rewrite <- !app_assoc. f_equal. f_equal. rewrite <- Eb.
        rewrite (bits_of_split (Z.to_nat n) (Z.to_nat (n - (8 - Z.of_nat c)))) by lia.
        rewrite Z2Nat.id by lia. f_equal. f_equal. lia.
      * apply Forall_app. split; [|exact HL]. apply Forall_app. split; [exact Hout|].
        constructor; [|constructor]. apply combine_byte_range; first [reflexivity|assumption|lia].
    + assert (E8 : Z.of_nat c + n = 8) by lia. exists []. cbn [bout bcache bcnt bcount length].
      assert (Hr8 : 0 <= r < 2 ^ 8) by (pose proof (pow2_le n 8); lia).
      rewrite (to_u_small 8 r) by exact Hr8. rewrite Hcache.
      assert (Hx : 0 <= r < 2 ^ (8 - Z.of_nat c)) by (replace (8 - Z.of_nat c) with n by lia; lia).
      repeat split; auto; try lia.
      * rewrite Hb, app_nil_r, bytes_bits_app, bytes_bits_cons. cbn [bytes_bits flat_map].
        rewrite app_nil_r, byte_combine by (first [reflexivity|assumption|lia]). rewrite <- app_assoc. f_equal. f_equal. f_equal. lia.
      * apply Forall_app. split; [exact Hout|]. constructor; [|constructor].
        apply combine_byte_range; first [reflexivity|assumption|lia].
Qed.

(** Masking. *)
Lemma mask_spec : forall r n, 0 <= r -> 0 <= n -> n <= 64 \/ r = 0 ->
  let m := Z.land r (to_u 64 (to_u 64 (Z.shiftl 1 n) - 1)) in
  0 <= m < 2 ^ n /\ bits_of (Z.to_nat n) m = bits_of (Z.to_nat n) r.
Proof.
  intros r n Hr Hn [H| ->].
  - pose proof (unsigned_limit n) as U. unfold u64, shl1_u64 in U. cbv zeta. unfold u64 in U.
    rewrite U by lia. rewrite land_ones_lit by lia.
    split; [apply Z.mod_pos_bound; apply pow2_pos; lia|].
    rewrite <- (Z2Nat.id n) at 2 by lia. apply bits_of_mod. lia.
  - rewrite Z.land_0_l. split; [|reflexivity]. pose proof (pow2_pos n). lia.
Qed.

Lemma bw_write_bits_rep : forall w bits r n, wrep w bits -> 0 <= n <= 248 -> 0 <= r ->
  n <= 64 \/ r = 0 -> wrep (bw_write_bits r n w) (bits ++ bits_of (Z.to_nat n) r).
Proof.
  intros w bits r n Hw Hn Hr H. destruct (mask_spec r n Hr ltac:(lia) H) as [Hm Eb].
  unfold bw_write_bits. rewrite <- Eb. now apply bw_write_unsafe_rep.
Qed.

Lemma bw_write_bits_unsafe_rep : forall w bits r n, wrep w bits -> 0 <= n <= 64 -> 0 <= r < 2 ^ n ->
  wrep (bw_write_bits_unsafe r n w) (bits ++ bits_of (Z.to_nat n) r).
Proof. intros. unfold bw_write_bits_unsafe. apply bw_write_unsafe_rep; auto; lia. Qed.

Lemma val_of_snoc : forall l b, val_of (l ++ [b]) = 2 * val_of l + b2z b.
Proof.
  intros. rewrite val_of_app. cbn [length]. change (2 ^ Z.of_nat 1) with 2.
  assert (E : val_of [b] = b2z b) by (unfold val_of; cbn; destruct b; reflexivity). rewrite E. ring.
Qed.

Lemma bw_write_bool_rep : forall w bits b, wrep w bits -> wrep (bw_write_bool b w) (bits ++ [b]).
Proof.
  intros w bits b (pend & Hb & Hc & H8 & Hcache & Hcount & Hout). unfold bw_write_bool.
  destruct (Z.eqb_spec (bcnt w) 7) as [E|E].
  - exists []. cbn [bout bcache bcnt bcount length]. rewrite E in *. change (8 - 7) with 1 in Hcache.
    assert (Eb : (if b then Z.lor (bcache w) 1 else bcache w) = Z.lor (val_of pend * 2 ^ 1) (b2z b)).
    { rewrite Hcache. destruct b; [reflexivity|]. cbn [b2z]. now rewrite Z.lor_0_r. }
    rewrite Eb. assert (L7 : length pend = 7%nat) by lia.
    assert (Hx : 0 <= b2z b < 2 ^ (8 - Z.of_nat 7)) by (destruct b; cbn; lia).
    repeat split; auto; try lia.
    + rewrite Hb, app_nil_r, bytes_bits_app, bytes_bits_cons. cbn [bytes_bits flat_map].
      pose proof (byte_combine pend 7 (b2z b) L7 ltac:(lia) Hx) as C.
      change (8 - Z.of_nat 7) with 1 in C. rewrite C. rewrite app_nil_r, <- app_assoc. f_equal. f_equal.
      destruct b; reflexivity.
    + rewrite app_length. cbn [length]. lia.
    + apply Forall_app. split; [exact Hout|]. constructor; [|constructor].
      apply (combine_byte_range pend 7); auto; lia.
  - exists (pend ++ [b]). cbn [bout bcache bcnt bcount]. rewrite !app_length. cbn [length].
    repeat split; auto; try lia.
    + rewrite Hb. now rewrite app_assoc.
    + rewrite val_of_snoc. set (e := 8 - (bcnt w + 1)). assert (He : 0 <= e) by (unfold e; lia).
      assert (P : 2 ^ (8 - bcnt w) = 2 ^ e * 2) by (rewrite <- (Z.pow_1_r 2) at 3; rewrite <- Z.pow_add_r by lia; f_equal; unfold e; lia).
      pose proof (pow2_pos e He).
      destruct b; cbn [b2z].
      * rewrite Z.shiftl_1_l, Hcache, lor_pow2_add by lia. rewrite P. ring.
      * rewrite Hcache, P. ring.
Qed.

Lemma low_to_top_byte : forall b n, 0 <= b < 256 -> 0 <= n <= 8 ->
  to_u 8 (Z.shiftl (Z.land b (Z.shiftl 1 n - 1)) (8 - n)) = (b mod 2 ^ n) * 2 ^ (8 - n).
Proof. intros b n Hb Hn. rewrite <- (to_u_small 8 b) at 1 by exact Hb. now apply low_to_top. Qed.

Lemma bw_unaligned_rep : forall w bits b, wrep w bits -> 0 < bcnt w -> 0 <= b < 256 ->
  let w' := bw_unaligned b w in
  wrep (mkBW (bout w') (bcache w') (bcnt w') (bcount w + 8)) (bits ++ bits_of 8 b).
Proof.
  intros [out cache cnt count] bits b (pend & Hb & Hc & H8 & Hcache & Hcount & Hout) Hpos Hbyte.
  cbn [bout bcache bcnt bcount] in *. subst cnt.
  remember (length pend) as c eqn:Ec. symmetry in Ec.
  unfold bw_unaligned. cbn [bout bcache bcnt bcount].
  exists (bits_of c b). cbn [bout bcache bcnt bcount].
  assert (Hx : 0 <= b / 2 ^ Z.of_nat c < 2 ^ (8 - Z.of_nat c)).
  { split; [apply Z.div_pos; [lia|apply pow2_pos; lia]|].
    apply Z.div_lt_upper_bound; [apply pow2_pos; lia|]. rewrite <- Z.pow_add_r by lia.
    replace (Z.of_nat c + (8 - Z.of_nat c)) with 8 by lia. exact (proj2 Hbyte). }
  rewrite Z.shiftr_div_pow2 by lia. rewrite Hcache.
  rewrite bits_of_length. repeat split; auto; try lia.
  - rewrite Hb, bytes_bits_app, bytes_bits_cons. cbn [bytes_bits flat_map]. rewrite app_nil_r.
    rewrite byte_combine by (first [reflexivity|assumption|lia]). rewrite <- !app_assoc. f_equal. f_equal.
    apply (bits_of_split 8 c). lia.
  - rewrite low_to_top_byte by lia. rewrite val_of_bits_of. reflexivity.
  - rewrite app_length, bits_of_length. lia.
  - apply Forall_app. split; [exact Hout|]. constructor; [|constructor].
    apply combine_byte_range; first [reflexivity|assumption|lia].
Qed.

Lemma wrep_aligned : forall w bits l, wrep w bits -> bcnt w = 0 -> Forall is_byte l ->
  wrep (mkBW (bout w ++ l) (bcache w) (bcnt w) (bcount w + 8 * Z.of_nat (length l))) (bits ++ bytes_bits l).
Proof.
  intros w bits l (pend & Hb & Hc & H8 & Hcache & Hcount & Hout) Hz Hl.
  assert (pend = []) as -> by (destruct pend; [reflexivity|cbn in Hc; lia]).
  exists []. cbn [bout bcache bcnt bcount]. rewrite app_nil_r in *.
  repeat split; auto; try lia.
  - rewrite Hb. now rewrite bytes_bits_app.
  - rewrite app_length, bytes_bits_length. lia.
  - apply Forall_app. auto.
Qed.

Lemma bw_write_byte_rep : forall w bits b, wrep w bits -> 0 <= b < 256 ->
  wrep (bw_write_byte b w) (bits ++ bits_of 8 b).
Proof.
  intros w bits b Hw Hb. unfold bw_write_byte. destruct (Z.eqb_spec (bcnt w) 0) as [E|E].
  - pose proof (wrep_aligned w bits [b] Hw E) as H. cbn [bytes_bits flat_map length] in H.
    rewrite app_nil_r in H. change (8 * Z.of_nat 1) with 8 in H. apply H. constructor; [exact Hb|constructor].
  - assert (0 < bcnt w) by (destruct Hw as (p & _ & Hc & _); lia).
    now apply bw_unaligned_rep.
Qed.

Lemma bw_unaligned_fields : forall b w, bcnt (bw_unaligned b w) = bcnt w /\ bcount (bw_unaligned b w) = bcount w.
Proof. intros. split; reflexivity. Qed.

Lemma wrep_count : forall w c bits, wrep w bits -> c = bcount w ->
  wrep (mkBW (bout w) (bcache w) (bcnt w) c) bits.
Proof. intros w c bits (p & H) ->. exists p. exact H. Qed.

Lemma bw_unaligned_list : forall l w bits, wrep w bits -> 0 < bcnt w -> Forall is_byte l ->
  let w' := fold_left (fun w b => bw_unaligned b w) l w in
  wrep (mkBW (bout w') (bcache w') (bcnt w') (bcount w + 8 * Z.of_nat (length l))) (bits ++ bytes_bits l).
Proof.
  induction l as [|b l IH]; intros w bits Hw Hpos Hl.
  - cbn. rewrite app_nil_r. apply wrep_count; [exact Hw|lia].
  - inversion Hl as [|? ? Hb Hl']; subst. cbn [fold_left].
    pose proof (bw_unaligned_rep w bits b Hw Hpos Hb) as H1. cbv zeta in H1.
    set (w1 := mkBW (bout (bw_unaligned b w)) (bcache (bw_unaligned b w)) (bcnt (bw_unaligned b w)) (bcount w + 8)) in *.
    specialize (IH w1 _ H1 Hpos Hl'). cbv zeta in IH.
    (* the counter does not influence the other fields *)
    assert (Fold : forall l w1 w2, bout w1 = bout w2 -> bcache w1 = bcache w2 -> bcnt w1 = bcnt w2 ->
      let a := fold_left (fun w b => bw_unaligned b w) l w1 in
      let d := fold_left (fun w b => bw_unaligned b w) l w2 in
      bout a = bout d /\ bcache a = bcache d /\ bcnt a = bcnt d).
    { clear. induction l as [|b l IH]; intros w1 w2 E1 E2 E3; [cbn; auto|].
      cbn [fold_left]. apply IH; unfold bw_unaligned; cbn [bout bcache bcnt bcount]; rewrite ?E1, ?E2, ?E3; reflexivity. }
    destruct (Fold l w1 (bw_unaligned b w) eq_refl eq_refl eq_refl) as (F1 & F2 & F3). cbv zeta in F1, F2, F3.
    rewrite F1, F2, F3 in IH. rewrite bytes_bits_cons, app_assoc.
    replace (bcount w + 8 * Z.of_nat (length (b :: l))) with (bcount w1 + 8 * Z.of_nat (length l));
      [exact IH|]. cbn [w1 bcount length]. lia.
Qed.

Lemma bw_write_rep : forall w bits l, wrep w bits -> Forall is_byte l ->
  wrep (bw_write l w) (bits ++ bytes_bits l).
Proof.
  intros w bits l Hw Hl. unfold bw_write. destruct (Z.eqb_spec (bcnt w) 0) as [E|E].
  - cbn [bout bcache bcnt bcount]. now apply wrep_aligned.
  - assert (0 < bcnt w) by (destruct Hw as (p & _ & Hc & _); lia). now apply bw_unaligned_list.
Qed.

(** Closing pads with zero bits to a whole byte. *)
Lemma bw_close_spec : forall w bits, wrep w bits ->
  exists k, (k < 8)%nat /\ bytes_bits (bw_close w) = bits ++ repeat false k /\ Forall is_byte (bw_close w).
Proof.
  intros w bits (pend & Hb & Hc & H8 & Hcache & Hcount & Hout). unfold bw_close.
  destruct (Z.ltb_spec 0 (bcnt w)).
  - exists (8 - length pend)%nat. split; [lia|].
    rewrite <- (Z.lor_0_r (bcache w)). rewrite Hcache.
    replace (bcnt w) with (Z.of_nat (length pend)) by lia.
    assert (Hx : 0 <= 0 < 2 ^ (8 - Z.of_nat (length pend))) by (split; [lia|apply pow2_pos; lia]).
    split.
    + rewrite Hb, bytes_bits_app, bytes_bits_cons. cbn [bytes_bits flat_map]. rewrite app_nil_r.
      rewrite byte_combine by (first [reflexivity|assumption|lia]). rewrite bits_of_0, app_assoc. reflexivity.
    + apply Forall_app. split; [exact Hout|]. constructor; [|constructor].
      apply combine_byte_range; first [reflexivity|assumption|lia].
  - exists 0%nat. split; [lia|]. split; [|exact Hout].
    assert (pend = []) as -> by (destruct pend; [reflexivity|cbn in Hc; lia]).
    cbn [repeat]. now rewrite app_nil_r, Hb, app_nil_r.
Qed.

(** Alignment. *)
Lemma discard_z_spec : forall (count boundary : nat), (0 < boundary < 256)%nat ->
  discard_z (Z.of_nat count) (Z.of_nat boundary) = Z.of_nat (discard count boundary).
Proof.
  intros count boundary Hb. unfold discard_z, discard.
  rewrite <- Nat2Z.inj_mod.
  pose proof (Nat.mod_upper_bound count boundary ltac:(lia)) as U.
  rewrite to_u_small by (change (2 ^ 8) with 256; lia).
  destruct (Nat.eqb_spec (count mod boundary) 0) as [E|E].
  - rewrite E. reflexivity.
  - replace (Z.of_nat (count mod boundary) =? 0) with false by lia.
    rewrite to_u_small by (change (2 ^ 8) with 256; lia). lia.
Qed.

Lemma discard_lt : forall count boundary, (0 < boundary)%nat -> (discard count boundary < boundary)%nat.
Proof.
  intros count boundary Hb. unfold discard.
  pose proof (Nat.mod_upper_bound count boundary ltac:(lia)).
  destruct (Nat.eqb_spec (count mod boundary) 0); lia.
Qed.

Lemma bw_align_rep : forall w bits (boundary : nat), wrep w bits -> (1 <= boundary <= 249)%nat ->
  exists w', bw_align (Z.of_nat boundary) w = Some (w', bcount w') /\
    wrep w' (bits ++ repeat false (discard (length bits) boundary)).
Proof.
  intros w bits boundary Hw Hb. unfold bw_align.
  replace (Z.of_nat boundary =? 0) with false by lia.
  assert (Hcount : bcount w = Z.of_nat (length bits)) by (destruct Hw as (p & _ & _ & _ & _ & H & _); exact H).
  rewrite Hcount, discard_z_spec by lia.
  pose proof (discard_lt (length bits) boundary ltac:(lia)) as U.
  destruct (Nat.eq_dec (discard (length bits) boundary) 0) as [E|E].
  - rewrite E. cbn [Z.of_nat Z.eqb repeat]. exists w. rewrite app_nil_r, Hcount. auto.
  - replace (Z.of_nat (discard (length bits) boundary) =? 0) with false by lia.
    eexists. split; [reflexivity|].
    rewrite <- bits_of_0. rewrite <- (Nat2Z.id (discard (length bits) boundary)) at 2.
    apply bw_write_bits_rep; auto; lia.
Qed.

(** ** Reader *)

Definition rrep (b : br) (r : rst) : Prop :=
  0 <= rcnt b < 8 /\ (rcnt b = 0 \/ 0 <= rcache b < 2 ^ rcnt b) /\ Forall is_byte (bin b) /\
  rrem r = bits_of (Z.to_nat (rcnt b)) (rcache b) ++ bytes_bits (bin b) /\ rcount b = Z.of_nat (rpos r).

Lemma rrep_new : forall l, Forall is_byte l -> rrep (br_new l) (mkR 0 (bytes_bits l)).
Proof. intros l Hl. unfold rrep, br_new. cbn. repeat split; auto; lia. Qed.

(** The implementation result [x] corresponds to the ideal result [y]. *)
Definition rsim {A} (x : br * outcome A) (y : rst * outcome A) : Prop :=
  snd x = snd y /\ rrep (fst x) (fst y).

Lemma firstn_bits_of_app : forall (n k : nat) x l, (k <= n)%nat ->
  firstn k (bits_of n x ++ l) = bits_of k (x / 2 ^ Z.of_nat (n - k)) /\
  skipn k (bits_of n x ++ l) = bits_of (n - k) x ++ l.
Proof.
  intros n k x l H. rewrite (bits_of_split n (n - k)) by lia.
  replace (n - (n - k))%nat with k by lia. rewrite <- app_assoc.
  pose proof (firstn_app_exact (bits_of k (x / 2 ^ Z.of_nat (n - k))) (bits_of (n - k) x ++ l)) as E1.
  pose proof (skipn_app_exact (bits_of k (x / 2 ^ Z.of_nat (n - k))) (bits_of (n - k) x ++ l)) as E2.
  rewrite bits_of_length in E1, E2. auto.
Qed.

Lemma u64_acc : forall u b, u64 (u64 (Z.shiftl u 8) + b) = u64 (u * 256 + b).
Proof.
  intros. unfold u64, to_u. rewrite Z.shiftl_mul_pow2 by lia. change (2 ^ 8) with 256.
  now rewrite Z.add_mod_idemp_l by lia.
Qed.

Lemma u64_idem_acc : forall u x k, u64 (u64 u * k + x) = u64 (u * k + x).
Proof.
  intros. unfold u64, to_u. rewrite <- Z.add_mod_idemp_l by lia.
  rewrite Z.mul_mod_idemp_l by lia. now rewrite Z.add_mod_idemp_l by lia.
Qed.

Lemma br_whole_spec : forall fuel u n inp, 0 <= n < 8 * Z.of_nat (S fuel) -> u64 u = u -> Forall is_byte inp ->
  let q := Z.to_nat (n / 8) in
  br_whole fuel u n inp =
    (if (q <=? length inp)%nat
     then Some (skipn q inp, u64 (u * 2 ^ (8 * Z.of_nat q) + val_of (bytes_bits (firstn q inp))), n mod 8)
     else None).
Proof.
  induction fuel as [|fuel IH]; intros u n inp Hn Hu Hi q.
  - cbn [br_whole]. replace (8 <=? n) with false by lia.
    assert (n / 8 = 0) as E by (apply Z.div_small; lia). unfold q. rewrite E. cbn [Z.to_nat].
    cbn [Nat.leb firstn skipn bytes_bits flat_map]. change (8 * Z.of_nat 0) with 0.
    change (val_of []) with 0. rewrite Z.pow_0_r, Z.mul_1_r, Z.add_0_r, Hu.
    rewrite Z.mod_small by lia. reflexivity.
  - cbn [br_whole]. destruct (Z.leb_spec 8 n).
    + assert (Eq : q = S (Z.to_nat ((n - 8) / 8))).
      { unfold q. replace n with ((n - 8) + 1 * 8) at 1 by ring. rewrite Z.div_add by lia.
        pose proof (Z.div_pos (n - 8) 8). lia. }
      destruct inp as [|b inp].
      * rewrite Eq. reflexivity.
      * inversion Hi as [|? ? Hb Hi']; subst. rewrite u64_acc. rewrite IH; auto.
        2: lia.
        2:{ unfold u64, to_u. now rewrite Z.mod_mod by lia. }
        rewrite Eq. cbn [length Nat.leb firstn skipn].
        destruct (Nat.leb_spec (Z.to_nat ((n - 8) / 8)) (length inp)) as [L|L]; [|reflexivity].
        f_equal. f_equal.
        2:{ replace n with ((n - 8) + 1 * 8) at 2 by ring. now rewrite Z.mod_add by lia. }
        f_equal. rewrite u64_idem_acc. f_equal.
        rewrite bytes_bits_cons, val_of_app, val_of_bits_of, bytes_bits_length, firstn_length_le by lia.
        change (2 ^ Z.of_nat 8) with 256. rewrite (Z.mod_small b) by exact Hb.
        set (k := Z.to_nat ((n - 8) / 8)).
        replace (8 * Z.of_nat (S k)) with (8 + 8 * Z.of_nat k) by lia.
        replace (Z.of_nat (8 * k)) with (8 * Z.of_nat k) by lia.
        rewrite Z.pow_add_r by lia. change (2 ^ 8) with 256. ring.
    + assert (n / 8 = 0) as E by (apply Z.div_small; lia). unfold q. rewrite E. cbn [Z.to_nat].
      cbn [Nat.leb firstn skipn bytes_bits flat_map]. change (8 * Z.of_nat 0) with 0.
      change (val_of []) with 0. rewrite Z.pow_0_r, Z.mul_1_r, Z.add_0_r, Hu.
      rewrite Z.mod_small by lia. reflexivity.
Qed.

Lemma bytes_bits_split : forall q l, bytes_bits l = bytes_bits (firstn q l) ++ bytes_bits (skipn q l).
Proof. intros. rewrite <- bytes_bits_app. now rewrite firstn_skipn. Qed.

Lemma Forall_skipn : forall {A} (P : A -> Prop) n l, Forall P l -> Forall P (skipn n l).
Proof. intros A P n l H. rewrite <- (firstn_skipn n l) in H. apply Forall_app in H. tauto. Qed.
Lemma Forall_firstn : forall {A} (P : A -> Prop) n l, Forall P l -> Forall P (firstn n l).
Proof. intros A P n l H. rewrite <- (firstn_skipn n l) in H. apply Forall_app in H. tauto. Qed.

Lemma bits_of_land_ones : forall (k : nat) x, bits_of k (Z.land x (Z.shiftl 1 (Z.of_nat k) - 1)) = bits_of k x.
Proof. intros. rewrite Z.shiftl_1_l, land_ones_lit by lia. apply bits_of_mod. lia. Qed.

Lemma land_ones_range : forall x k, 0 <= k -> 0 <= Z.land x (Z.shiftl 1 k - 1) < 2 ^ k.
Proof.
  intros x k Hk. rewrite Z.shiftl_1_l, land_ones_lit by lia. apply Z.mod_pos_bound. now apply pow2_pos.
Qed.

Lemma br_read_bits_sim : forall (n : nat) b r, rrep b r -> (1 <= n <= 255)%nat ->
  rsim (br_read_bits (Z.of_nat n) b) (read_bits n r).
Proof.
  intros n b [pos rem] (Hc & Hcache & Hin & Hrem & Hcount) Hn. cbn [rrem rpos] in *.
  set (c := Z.to_nat (rcnt b)) in *. assert (Ec : rcnt b = Z.of_nat c) by (unfold c; lia).
  assert (Hlen : length rem = (c + 8 * length (bin b))%nat)
    by (rewrite Hrem, app_length, bits_of_length, bytes_bits_length; reflexivity).
  unfold br_read_bits. rewrite Ec.
  assert (Hcm : (c = 0)%nat \/ 0 <= rcache b < 2 ^ Z.of_nat c) by (rewrite Ec in Hcache; lia).
  destruct (Z.ltb_spec (Z.of_nat n) (Z.of_nat c)) as [L|L].
  - (* inside the cache *)
    unfold read_bits. cbn [rrem rpos]. rewrite Hlen.
    replace (n <=? c + 8 * length (bin b))%nat with true by (symmetry; apply Nat.leb_le; lia).
    destruct (firstn_bits_of_app c n (rcache b) (bytes_bits (bin b))) as [F S]; [lia|].
    rewrite Hrem, F, S, val_of_bits_of.
    replace (Z.of_nat c - Z.of_nat n) with (Z.of_nat (c - n)) by lia.
    destruct Hcm as [Hc0|Hcm]; [lia|].
    assert (Hq : 0 <= rcache b / 2 ^ Z.of_nat (c - n) < 2 ^ Z.of_nat n).
    { split; [apply Z.div_pos; [lia|apply pow2_pos; lia]|].
      apply Z.div_lt_upper_bound; [apply pow2_pos; lia|]. rewrite <- Z.pow_add_r by lia.
      replace (Z.of_nat (c - n) + Z.of_nat n) with (Z.of_nat c) by lia. lia. }
    split; cbn [fst snd].
    + rewrite Z.shiftr_div_pow2 by lia. rewrite Z.mod_small by exact Hq.
      unfold u64. rewrite to_u_small; [reflexivity|].
      pose proof (pow2_le (Z.of_nat n) 64). lia.
    + unfold rrep. cbn [bin rcache rcnt rcount rrem rpos]. repeat split; auto; try lia.
      * right. apply land_ones_range. lia.
      * rewrite Nat2Z.id. now rewrite bits_of_land_ones.
  - destruct (Z.ltb_spec (Z.of_nat c) (Z.of_nat n)) as [L2|L2].
    + (* needs more bytes *)
      set (u := if 0 <? Z.of_nat c then rcache b else 0).
      set (n' := (n - c)%nat).
      replace (if 0 <? Z.of_nat c then Z.of_nat n - Z.of_nat c else Z.of_nat n) with (Z.of_nat n')
        by (unfold n'; destruct (Z.ltb_spec 0 (Z.of_nat c)); lia).
      assert (Hu : 0 <= u < 2 ^ Z.of_nat c).
      { unfold u. destruct (Z.ltb_spec 0 (Z.of_nat c)); [lia|].
        replace (Z.of_nat c) with 0 by lia. cbn. lia. }
      assert (Hu64 : u64 u = u).
      { unfold u64. apply to_u_small. pose proof (pow2_le (Z.of_nat c) 64). lia. }
      assert (Hcb : bits_of c (rcache b) = bits_of c u).
      { unfold u. destruct (Z.ltb_spec 0 (Z.of_nat c)); [reflexivity|].
        replace c with 0%nat by lia. reflexivity. }
      rewrite br_whole_spec; auto; [|unfold n'; lia].
      replace (Z.to_nat (Z.of_nat n' / 8)) with (n' / 8)%nat
        by (symmetry; change 8 with (Z.of_nat 8); rewrite <- Nat2Z.inj_div; apply Nat2Z.id).
      set (q := (n' / 8)%nat).
      replace (Z.of_nat n' mod 8) with (Z.of_nat (n' mod 8)) by (rewrite (Nat2Z.inj_mod n' 8); reflexivity).
      set (t := (n' mod 8)%nat).
      assert (Hn' : n' = (8 * q + t)%nat) by (unfold q, t; apply Nat.div_mod; lia).
      assert (Ht : (t < 8)%nat) by (unfold t; apply Nat.mod_upper_bound; lia).
      unfold read_bits. cbn [rrem rpos]. rewrite Hlen.
      assert (Hmod : (length rem mod 8 = c)%nat).
      { rewrite Hlen. rewrite Nat.mul_comm, Nat.mod_add, Nat.mod_small by lia. reflexivity. }
      assert (Hdiv : (length rem / 8 = length (bin b))%nat).
      { rewrite Hlen. rewrite Nat.mul_comm, Nat.div_add, Nat.div_small by lia. lia. }
      destruct (Nat.leb_spec q (length (bin b))) as [Q|Q].
      * destruct (Z.ltb_spec 0 (Z.of_nat t)) as [T|T].
        -- destruct (skipn q (bin b)) as [|x inp'] eqn:Esk.
           ++ (* fails fetching the last byte *)
              assert (length (bin b) = q).
              { apply (f_equal (@length Z)) in Esk. rewrite skipn_length in Esk. cbn [length] in Esk. lia. }
              replace (n <=? c + 8 * length (bin b))%nat with false by (symmetry; apply Nat.leb_gt; lia).
              split; [reflexivity|]. unfold rrep. cbn [fst bin rcache rcnt rcount rrem rpos].
              rewrite Nat2Z.id. repeat split; auto; try lia.
              ** cbn [bytes_bits flat_map]. rewrite app_nil_r, bits_of_0. unfold failed_rest.
                 rewrite Hmod, Hdiv. fold n'. fold q.
                 replace (q <=? length (bin b))%nat with true by (symmetry; apply Nat.leb_le; lia).
                 reflexivity.
           ++ assert (length (bin b) > q)%nat.
              { apply (f_equal (@length Z)) in Esk. rewrite skipn_length in Esk. cbn [length] in Esk. lia. }
              replace (n <=? c + 8 * length (bin b))%nat with true by (symmetry; apply Nat.leb_le; lia).
              assert (Hx : is_byte x).
              { pose proof (Forall_skipn _ q _ Hin) as F. rewrite Esk in F. now inversion F. }
              assert (Hall : rem = (bits_of c u ++ bytes_bits (firstn q (bin b)) ++
                                    bits_of t (x / 2 ^ Z.of_nat (8 - t))) ++
                                   (bits_of (8 - t) x ++ bytes_bits inp')).
              { rewrite Hrem, Hcb, (bytes_bits_split q (bin b)), Esk, bytes_bits_cons.
                rewrite (bits_of_split 8 (8 - t)) by lia. replace (8 - (8 - t))%nat with t by lia.
                rewrite <- !app_assoc. reflexivity. }
              assert (Hl1 : length (bits_of c u ++ bytes_bits (firstn q (bin b)) ++
                                    bits_of t (x / 2 ^ Z.of_nat (8 - t))) = n).
              { rewrite !app_length, !bits_of_length, bytes_bits_length, firstn_length_le by lia. lia. }
              rewrite Hall. rewrite <- Hl1 at 3 4. rewrite skipn_app_exact, firstn_app_exact.
              replace (8 - Z.of_nat t) with (Z.of_nat (8 - t)) by lia.
              split; cbn [fst snd].
              ** f_equal. rewrite !val_of_app, !val_of_bits_of, app_length, !bits_of_length, bytes_bits_length,
                   firstn_length_le by lia.
                 rewrite (Z.mod_small u) by exact Hu.
                 assert (Hxq : 0 <= x / 2 ^ Z.of_nat (8 - t) < 2 ^ Z.of_nat t).
                 { unfold is_byte in Hx. split; [apply Z.div_pos; [lia|apply pow2_pos; lia]|].
                   apply Z.div_lt_upper_bound; [apply pow2_pos; lia|]. rewrite <- Z.pow_add_r by lia.
                   replace (Z.of_nat (8 - t) + Z.of_nat t) with 8 by lia. exact (proj2 Hx). }
                 rewrite (Z.mod_small (x / _)) by exact Hxq.
                 rewrite Z.shiftr_div_pow2 by lia. rewrite Z.shiftl_mul_pow2 by lia.
                 assert (EE : forall A B C, u64 (u64 (u64 A * B) + C) = u64 (A * B + C)).
                 { intros. unfold u64, to_u. rewrite Z.add_mod_idemp_l by lia.
                   rewrite <- (Z.add_mod_idemp_l (A mod 2 ^ 64 * B)) by lia.
                   rewrite Z.mul_mod_idemp_l by lia. now rewrite Z.add_mod_idemp_l by lia. }
                 rewrite EE. f_equal.
                 replace (Z.of_nat (8 * q + t)) with (8 * Z.of_nat q + Z.of_nat t) by lia.
                 rewrite Z.pow_add_r by lia. ring.
              ** unfold rrep. cbn [bin rcache rcnt rcount rrem rpos]. repeat split; auto; try lia.
                 --- right. apply land_ones_range. lia.
                 --- pose proof (Forall_skipn _ q _ Hin) as F. rewrite Esk in F. now inversion F.
                 --- rewrite Nat2Z.id. now rewrite bits_of_land_ones.
        -- (* whole bytes only *)
           assert (t = 0)%nat by lia.
           replace (n <=? c + 8 * length (bin b))%nat with true by (symmetry; apply Nat.leb_le; lia).
           assert (Hall : rem = (bits_of c u ++ bytes_bits (firstn q (bin b))) ++ bytes_bits (skipn q (bin b))).
           { rewrite Hrem, Hcb, (bytes_bits_split q (bin b)). now rewrite <- app_assoc. }
           assert (Hl1 : length (bits_of c u ++ bytes_bits (firstn q (bin b))) = n).
           { rewrite !app_length, !bits_of_length, bytes_bits_length, firstn_length_le by lia. lia. }
           rewrite Hall. rewrite <- Hl1 at 3 4. rewrite skipn_app_exact, firstn_app_exact.
           split; cbn [fst snd].
           ++ f_equal. rewrite !val_of_app, !val_of_bits_of, bytes_bits_length, firstn_length_le by lia.
              rewrite (Z.mod_small u) by exact Hu.
              replace (Z.of_nat (8 * q)) with (8 * Z.of_nat q) by lia. reflexivity.
           ++ unfold rrep. cbn [bin rcache rcnt rcount rrem rpos]. repeat split; auto; try lia.
              now apply Forall_skipn.
      * (* fails in the byte loop *)
        replace (n <=? c + 8 * length (bin b))%nat with false by (symmetry; apply Nat.leb_gt; lia).
        split; [reflexivity|]. unfold rrep. cbn [fst bin rcache rcnt rcount rrem rpos].
        rewrite Nat2Z.id. repeat split; auto; try lia.
        cbn [bytes_bits flat_map]. rewrite app_nil_r. unfold failed_rest.
        rewrite Hmod, Hdiv. fold n'. fold q.
        replace (q <=? length (bin b))%nat with false by (symmetry; apply Nat.leb_gt; lia).
        rewrite Hrem. pose proof (firstn_app_exact (bits_of c (rcache b)) (bytes_bits (bin b))) as E.
        rewrite bits_of_length in E. exact E.
    + (* exactly the cache *)
      assert (n = c) by lia. subst n.
      unfold read_bits. cbn [rrem rpos]. rewrite Hlen.
      replace (c <=? c + 8 * length (bin b))%nat with true by (symmetry; apply Nat.leb_le; lia).
      destruct (firstn_bits_of_app c c (rcache b) (bytes_bits (bin b))) as [F S]; [lia|].
      rewrite Hrem, F, S, val_of_bits_of. rewrite Nat.sub_diag. cbn [bits_of app].
      rewrite Z.pow_0_r, Z.div_1_r. destruct Hcm as [Hc0|Hcm]; [lia|].
      split; cbn [fst snd].
      * rewrite Z.mod_small by exact Hcm. unfold u64. rewrite to_u_small; [reflexivity|].
        pose proof (pow2_le (Z.of_nat c) 64). lia.
      * unfold rrep. cbn [bin rcache rcnt rcount rrem rpos]. repeat split; auto; try lia.
Qed.

Lemma br_unaligned_sim : forall b r, rrep b r -> 0 < rcnt b ->
  let x := br_unaligned b in let y := read_bits 8 r in
  snd x = snd y /\
  (forall v, snd y = Ok v -> rrep (mkBR (bin (fst x)) (rcache (fst x)) (rcnt (fst x)) (rcount b + 8)) (fst y)
                             /\ rcnt (fst x) = rcnt b) /\
  (forall e, snd y = Err e -> e = EOF /\ bin (fst x) = [] /\ rcache (fst x) = 0 /\ rcnt (fst x) = rcnt b /\
     rcount (fst x) = rcount b /\ fst y = mkR (rpos r) (repeat false (Z.to_nat (rcnt b))) /\ bin b = []).
Proof.
  intros b [pos rem] (Hc & Hcache & Hin & Hrem & Hcount) Hpos. cbn [rrem rpos] in *. cbv zeta.
  set (c := Z.to_nat (rcnt b)) in *. assert (Ec : rcnt b = Z.of_nat c) by (unfold c; lia).
  assert (Hlen : length rem = (c + 8 * length (bin b))%nat)
    by (rewrite Hrem, app_length, bits_of_length, bytes_bits_length; reflexivity).
  destruct Hcache as [Hc0|Hcm]; [lia|]. rewrite Ec in Hcm.
  unfold br_unaligned, read_bits. cbn [rrem rpos]. rewrite Hlen.
  destruct (bin b) as [|x inp] eqn:Eb.
  - replace (8 <=? c + 8 * length (@nil Z))%nat with false by (symmetry; apply Nat.leb_gt; cbn; lia).
    cbn [fst snd]. split; [reflexivity|]. split; [intros v Hv; discriminate|].
    intros e He. injection He as <-. cbn [bin rcache rcnt rcount]. repeat split; auto.
    f_equal. unfold failed_rest. cbn [length] in Hlen. rewrite Nat.mul_0_r, Nat.add_0_r in Hlen.
    rewrite Hlen, Nat.mod_small, Nat.div_small by lia.
    replace ((8 - c) / 8)%nat with 0%nat by (symmetry; apply Nat.div_small; lia). reflexivity.
  - cbn [length] in *. replace (8 <=? c + 8 * S (length inp))%nat with true by (symmetry; apply Nat.leb_le; lia).
    inversion Hin as [|? ? Hx Hin']; subst x0 l.
    assert (Hall : rem = (bits_of c (rcache b) ++ bits_of (8 - c) (x / 2 ^ Z.of_nat c)) ++
                         (bits_of c x ++ bytes_bits inp)).
    { rewrite Hrem, bytes_bits_cons, (bits_of_split 8 c) by lia. now rewrite <- !app_assoc. }
    assert (Hl1 : length (bits_of c (rcache b) ++ bits_of (8 - c) (x / 2 ^ Z.of_nat c)) = 8%nat)
      by (rewrite app_length, !bits_of_length; lia).
    rewrite Hall.
    set (hd := bits_of c (rcache b) ++ bits_of (8 - c) (x / 2 ^ Z.of_nat c)) in *.
    pose proof (skipn_app_exact hd (bits_of c x ++ bytes_bits inp)) as S1.
    pose proof (firstn_app_exact hd (bits_of c x ++ bytes_bits inp)) as F1.
    rewrite Hl1 in S1, F1. rewrite S1, F1. unfold hd. clear S1 F1.
    cbn [fst snd bin rcache rcnt rcount]. split; [|split; [|intros e He; discriminate]].
    + f_equal. rewrite val_of_app, !val_of_bits_of, bits_of_length.
      assert (Hxq : 0 <= x / 2 ^ Z.of_nat c < 2 ^ Z.of_nat (8 - c)).
      { unfold is_byte in Hx. split; [apply Z.div_pos; [lia|apply pow2_pos; lia]|].
        apply Z.div_lt_upper_bound; [apply pow2_pos; lia|]. rewrite <- Z.pow_add_r by lia.
        replace (Z.of_nat c + Z.of_nat (8 - c)) with 8 by lia. exact (proj2 Hx). }
      rewrite (Z.mod_small (rcache b)), (Z.mod_small (x / _)) by assumption.
      rewrite Z.shiftr_div_pow2 by lia. rewrite Ec. rewrite Z.shiftl_mul_pow2 by lia.
      replace (8 - Z.of_nat c) with (Z.of_nat (8 - c)) by lia.
      assert (P : 2 ^ Z.of_nat c * 2 ^ Z.of_nat (8 - c) = 256)
        by (rewrite <- Z.pow_add_r by lia; replace (Z.of_nat c + Z.of_nat (8 - c)) with 8 by lia; reflexivity).
      pose proof (pow2_pos (Z.of_nat (8 - c)) ltac:(lia)).
      rewrite (to_u_small 8) by (change (2 ^ 8) with 256; nia).
      rewrite lor_pow2_add by lia.
      unfold u64. rewrite to_u_small; [reflexivity|].
      assert (256 < 2 ^ 64) by reflexivity. nia.
    + intros v Hv. split; [|reflexivity]. unfold rrep. cbn [bin rcache rcnt rcount rrem rpos].
      rewrite Ec. repeat split; auto; try lia.
      * right. apply land_ones_range. lia.
      * rewrite Nat2Z.id. now rewrite bits_of_land_ones.
Qed.

Lemma br_read_byte_sim : forall b r, rrep b r -> rsim (br_read_byte b) (read_byte r).
Proof.
  intros b r H. unfold br_read_byte. destruct (Z.eqb_spec (rcnt b) 0) as [E|E].
  - destruct H as (Hc & Hcache & Hin & Hrem & Hcount). destruct r as [pos rem]. cbn [rrem rpos] in *.
    rewrite E in Hrem. cbn [Z.to_nat bits_of app] in Hrem.
    unfold read_byte, read_bits. cbn [rrem rpos].
    destruct (bin b) as [|x inp] eqn:Eb.
    + subst rem. cbn [bytes_bits flat_map length Nat.leb].
      split; [reflexivity|]. unfold rrep. cbn [fst rrem rpos]. rewrite E, Eb. repeat split; auto; lia.
    + inversion Hin as [|? ? Hx Hin']; subst x0 l. rewrite Hrem, bytes_bits_cons.
      rewrite app_length, bits_of_length.
      replace (8 <=? 8 + length (bytes_bits inp))%nat with true by (symmetry; apply Nat.leb_le; lia).
      pose proof (firstn_app_exact (bits_of 8 x) (bytes_bits inp)) as E1.
      pose proof (skipn_app_exact (bits_of 8 x) (bytes_bits inp)) as E2.
      rewrite bits_of_length in E1, E2. rewrite E1, E2, val_of_bits_of. split; cbn [fst snd].
      * f_equal. change (2 ^ Z.of_nat 8) with 256. rewrite Z.mod_small by exact Hx.
        unfold u64. rewrite to_u_small; [reflexivity|]. assert (256 < 2 ^ 64) by reflexivity. unfold is_byte in Hx. lia.
      * unfold rrep. cbn [bin rcache rcnt rcount rrem rpos]. rewrite E. repeat split; auto; lia.
  - assert (Hpos : 0 < rcnt b) by (destruct H; lia).
    pose proof (br_unaligned_sim b r H Hpos) as (E1 & HO & HE). cbv zeta in *.
    unfold read_byte. destruct (br_unaligned b) as [b' o]. cbn [fst snd] in *.
    destruct (read_bits 8 r) as [r' o'] eqn:Er. cbn [fst snd] in *. subst o'.
    destruct o as [v|e| |].
    + destruct (HO v eq_refl) as [Hr _]. split; [reflexivity|exact Hr].
    + destruct (HE e eq_refl) as (-> & B1 & B2 & B3 & B4 & B5 & B6). split; [reflexivity|].
      cbn [fst]. subst r'. destruct H as (Hc & _ & _ & _ & Hcount).
      unfold rrep. cbn [rrem rpos]. rewrite B1, B2, B3, B4. repeat split; auto; try lia.
      * cbn [bytes_bits flat_map]. now rewrite app_nil_r, bits_of_0.
    + unfold read_bits in Er. destruct (_ <=? _)%nat; discriminate.
    + unfold read_bits in Er. destruct (_ <=? _)%nat; discriminate.
Qed.

Lemma br_read_bool_sim : forall b r, rrep b r -> rsim (br_read_bool b) (read_bool r).
Proof.
  intros b [pos rem] (Hc & Hcache & Hin & Hrem & Hcount). cbn [rrem rpos] in *.
  unfold br_read_bool, read_bool, rbind, read_bits. cbn [rrem rpos].
  destruct (Z.eqb_spec (rcnt b) 0) as [E|E].
  - rewrite E in Hrem. cbn [Z.to_nat bits_of app] in Hrem. subst rem.
    destruct (bin b) as [|x inp] eqn:Eb.
    + cbn [bytes_bits flat_map length Nat.leb]. split; [reflexivity|].
      unfold rrep. cbn [fst bin rcache rcnt rcount rrem rpos]. rewrite E. repeat split; auto; try lia.
    + inversion Hin as [|? ? Hx Hin']; subst x0 l. unfold is_byte in Hx.
      rewrite bytes_bits_cons, app_length, bits_of_length. cbn [Nat.leb plus].
      change (bits_of 8 x ++ bytes_bits inp) with (Z.testbit x 7 :: (bits_of 7 x ++ bytes_bits inp)).
      cbn [firstn skipn]. unfold rret. split; cbn [fst snd].
      * f_equal. change 128 with (2 ^ 7). rewrite land_pow2_testbit by lia.
        destruct (Z.testbit x 7); reflexivity.
      * unfold rrep. cbn [bin rcache rcnt rcount rrem rpos]. repeat split; auto; try lia.
        -- right. change 127 with (Z.shiftl 1 7 - 1). apply land_ones_range. lia.
        -- change (Z.to_nat 7) with 7%nat. f_equal. symmetry.
           apply (bits_of_land_ones 7).
  - set (c := Z.to_nat (rcnt b - 1)). assert (Ec : rcnt b = Z.of_nat (S c)) by (unfold c; lia).
    rewrite Ec in Hrem. rewrite Nat2Z.id in Hrem. subst rem. cbn [bits_of app length Nat.leb firstn skipn].
    destruct Hcache as [H0|Hcm]; [lia|].
    replace (rcnt b - 1) with (Z.of_nat c) by lia. rewrite Z.shiftl_1_l.
    unfold rret. split; cbn [fst snd].
    + f_equal. rewrite land_pow2_testbit by lia. destruct (Z.testbit (rcache b) (Z.of_nat c)); reflexivity.
    + unfold rrep. cbn [bin rcache rcnt rcount rrem rpos].
      repeat split; auto; try lia.
      * right. rewrite <- (Z.shiftl_1_l (Z.of_nat c)) at 1 2. apply land_ones_range. lia.
      * rewrite Nat2Z.id, <- Z.shiftl_1_l. now rewrite bits_of_land_ones.
Qed.

Lemma skipn_skipn_add : forall {A} (a b : nat) (l : list A), skipn a (skipn b l) = skipn (a + b) l.
Proof.
  intros A a b; revert a. induction b as [|b IH]; intros a l; [now rewrite Nat.add_0_r|].
  rewrite Nat.add_succ_r. destruct l as [|x l]; [now rewrite !skipn_nil|]. cbn [skipn]. apply IH.
Qed.

(** The byte loop of an unaligned Read. *)
Lemma br_read_loop_sim : forall k b r, rrep b r -> 0 < rcnt b ->
  let c := Z.to_nat (rcnt b) in
  let '(b', l, ok) := br_read_loop k b in
  rcnt b' = rcnt b /\
  if (k <=? length (bin b))%nat
  then ok = true /\ l = take_bytes k (rrem r) /\
       rrep (mkBR (bin b') (rcache b') (rcnt b') (rcount b + 8 * Z.of_nat k)) (mkR (rpos r + 8 * k) (skipn (8 * k) (rrem r)))
  else ok = false /\ length l = length (bin b) /\ bin b' = [] /\ rcache b' = 0.
Proof.
  induction k as [|k IH]; intros b r Hr Hpos c.
  - cbn [br_read_loop]. cbn [Nat.leb take_bytes skipn]. split; [reflexivity|].
    change (8 * 0)%nat with 0%nat. change (8 * Z.of_nat 0) with 0. rewrite Z.add_0_r, Nat.add_0_r. split; [reflexivity|]. split; [reflexivity|].
    destruct r; destruct b; exact Hr.
  - cbn [br_read_loop].
    pose proof (br_unaligned_sim b r Hr Hpos) as (E1 & HO & HE). cbv zeta in *.
    assert (Hlen : length (rrem r) = (c + 8 * length (bin b))%nat).
    { destruct Hr as (_ & _ & _ & Hrem & _). rewrite Hrem, app_length, bits_of_length, bytes_bits_length. reflexivity. }
    assert (Hc8 : (c < 8)%nat) by (destruct Hr as (Hc & _); lia).
    destruct (br_unaligned b) as [b1 o] eqn:Eu. cbn [fst snd] in *.
    destruct (read_bits 8 r) as [r1 o'] eqn:Er. cbn [fst snd] in *. subst o'.
    destruct o as [v|e| |].
    + destruct (HO v eq_refl) as [Hr1 Hc1].
      assert (Hbin : exists x, bin b = x :: bin b1).
      { unfold br_unaligned in Eu. destruct (bin b) as [|x inp]; [discriminate|].
        injection Eu as <- _. cbn. eauto. }
      destruct Hbin as [x Hbin].
      specialize (IH _ _ Hr1). cbn [bin rcache rcnt rcount] in IH. rewrite Hc1 in IH. specialize (IH Hpos).
      (* the loop does not look at the counter *)
      assert (Cnt : forall k b1 n, let '(b', l, ok) := br_read_loop k b1 in
                    br_read_loop k (mkBR (bin b1) (rcache b1) (rcnt b1) n) =
                    (mkBR (bin b') (rcache b') (rcnt b') n, l, ok)).
      { clear. induction k as [|k IH]; intros b1 n; cbn [br_read_loop]; [reflexivity|].
        unfold br_unaligned. cbn [bin rcache rcnt rcount].
        destruct (bin b1) as [|x inp]; [reflexivity|].
        specialize (IH (mkBR inp (Z.land x (Z.shiftl 1 (rcnt b1) - 1)) (rcnt b1) (rcount b1)) n).
        cbn [bin rcache rcnt rcount] in IH.
        destruct (br_read_loop k (mkBR inp (Z.land x (Z.shiftl 1 (rcnt b1) - 1)) (rcnt b1) (rcount b1)))
          as [[b' l] ok]. rewrite IH. reflexivity. }
      specialize (Cnt k b1 (rcount b + 8)). rewrite Hc1 in Cnt.
      destruct (br_read_loop k b1) as [[b' l] ok]. rewrite Cnt in IH. cbn [bin rcache rcnt rcount] in IH.
      rewrite Hbin. cbn [length Nat.leb].
      unfold read_bits in Er. destruct (Nat.leb_spec 8 (length (rrem r))) as [L8|L8]; [|discriminate].
      apply ok_inj in Er. destruct Er as [<- Ev]. cbn [rrem rpos] in IH.
      destruct IH as [IH0 IH]. split; [exact IH0|].
      destruct (k <=? length (bin b1))%nat.
      * destruct IH as (-> & -> & IH3). split; [reflexivity|]. split.
        -- cbn [take_bytes]. f_equal. rewrite <- Ev. pose proof (val_of_range (firstn 8 (rrem r))) as R.
           rewrite firstn_length_le in R by lia. unfold u64. apply to_u_small.
           change (2 ^ Z.of_nat 8) with 256 in R. assert (256 < 2 ^ 64) by reflexivity. lia.
        -- replace (rcount b + 8 * Z.of_nat (S k)) with (rcount b + 8 + 8 * Z.of_nat k) by lia.
           replace (rpos r + 8 * S k)%nat with (rpos r + 8 + 8 * k)%nat by lia.
           replace (skipn (8 * S k) (rrem r)) with (skipn (8 * k) (skipn 8 (rrem r))); [exact IH3|].
           rewrite skipn_skipn_add. f_equal. lia.
      * destruct IH as (-> & Hl & B1 & B2). cbn [length]. auto.
    + destruct (HE e eq_refl) as (-> & B1 & B2 & B3 & B4 & B5 & B6). rewrite B6.
      cbn [length Nat.leb]. split; [exact B3|]. auto.
    + unfold read_bits in Er. destruct (_ <=? _)%nat; discriminate.
    + unfold read_bits in Er. destruct (_ <=? _)%nat; discriminate.
Qed.

Lemma take_bytes_bytes_bits : forall k l, Forall is_byte l -> (k <= length l)%nat ->
  take_bytes k (bytes_bits l) = firstn k l.
Proof.
  induction k as [|k IH]; intros l Hl Hk; [reflexivity|].
  destruct l as [|b l]; [cbn in Hk; lia|]. inversion Hl as [|? ? Hb Hl']; subst.
  cbn [length] in Hk. change (firstn (S k) (b :: l)) with (b :: firstn k l).
  change (take_bytes (S k) (bytes_bits (b :: l)))
    with (val_of (firstn 8 (bytes_bits (b :: l))) :: take_bytes k (skipn 8 (bytes_bits (b :: l)))).
  rewrite bytes_bits_cons.
  pose proof (firstn_app_exact (bits_of 8 b) (bytes_bits l)) as E1.
  pose proof (skipn_app_exact (bits_of 8 b) (bytes_bits l)) as E2.
  rewrite bits_of_length in E1, E2. rewrite E1, E2, val_of_bits_of, IH by (auto; lia).
  f_equal. apply Z.mod_small. exact Hb.
Qed.

Lemma br_read_full_sim : forall k b r, rrep b r -> 0 <= k ->
  rsim (br_read_full k b) (read_full k r).
Proof.
  intros k b r Hr Hk. pose proof Hr as (Hc & Hcache & Hin & Hrem & Hcount).
  set (c := Z.to_nat (rcnt b)) in *.
  assert (Hlen : length (rrem r) = (c + 8 * length (bin b))%nat).
  { rewrite Hrem, app_length, bits_of_length, bytes_bits_length. reflexivity. }
  assert (Hc8 : (c < 8)%nat) by lia.
  assert (Hmod : (length (rrem r) mod 8 = c)%nat).
  { rewrite Hlen, Nat.mul_comm, Nat.mod_add, Nat.mod_small by lia. reflexivity. }
  assert (Hdiv : (length (rrem r) / 8 = length (bin b))%nat).
  { rewrite Hlen, Nat.mul_comm, Nat.div_add, Nat.div_small by lia. lia. }
  unfold br_read_full, read_full. rewrite Hmod, Hdiv.
  destruct (Z.eqb_spec (rcnt b) 0) as [E|E].
  - assert (c = 0)%nat by lia.
    destruct (Nat.leb_spec (Z.to_nat k) (length (bin b))) as [L|L].
    + replace (8 * k <=? Z.of_nat (length (rrem r))) with true by lia.
      rewrite H in Hrem. cbn [bits_of app] in Hrem.
      split; cbn [fst snd].
      * rewrite Hrem, take_bytes_bytes_bits by assumption. reflexivity.
      * unfold rrep. cbn [bin rcache rcnt rcount rrem rpos]. repeat split; auto; try lia.
        -- now apply Forall_skipn.
        -- cbn [Z.to_nat bits_of app]. rewrite Hrem, (bytes_bits_split (Z.to_nat k) (bin b)).
           rewrite <- (firstn_length_le (bin b) L) at 1. rewrite <- bytes_bits_length, skipn_app_exact. reflexivity.
    + replace (8 * k <=? Z.of_nat (length (rrem r))) with false by lia.
      split; cbn [fst snd].
      * rewrite Hlen. destruct (bin b) as [|x inp]; cbn [length].
        -- replace (c + 8 * 0 <? 8)%nat with true by (symmetry; apply Nat.ltb_lt; lia). reflexivity.
        -- replace (c + 8 * S (length inp) <? 8)%nat with false by (symmetry; apply Nat.ltb_ge; lia). reflexivity.
      * unfold rrep. cbn [bin rcache rcnt rcount rrem rpos]. rewrite H. cbn [repeat Z.to_nat bits_of app bytes_bits flat_map]. repeat split; auto; try lia.
  - assert (Hpos : 0 < rcnt b) by lia.
    pose proof (br_read_loop_sim (Z.to_nat k) b r Hr Hpos) as Lp. cbv zeta in Lp.
    destruct (br_read_loop (Z.to_nat k) b) as [[b' l] ok]. destruct Lp as [Lc Lp].
    destruct (Nat.leb_spec (Z.to_nat k) (length (bin b))) as [L|L].
    + destruct Lp as (-> & -> & Hr'). replace (8 * k <=? Z.of_nat (length (rrem r))) with true by lia.
      rewrite take_bytes_length. rewrite Z2Nat.id in * by lia. split; [reflexivity|exact Hr'].
    + destruct Lp as (-> & Hl & B1 & B2). replace (8 * k <=? Z.of_nat (length (rrem r))) with false by lia.
      split; cbn [fst snd].
      * f_equal. destruct l as [|y l]; cbn [length] in Hl.
        -- replace (length (rrem r) <? 8)%nat with true by (symmetry; apply Nat.ltb_lt; lia). reflexivity.
        -- replace (length (rrem r) <? 8)%nat with false by (symmetry; apply Nat.ltb_ge; lia). reflexivity.
      * unfold rrep. cbn [bin rcache rcnt rcount rrem rpos]. rewrite B1, B2, Lc. fold c.
        repeat split; auto; try lia.
        -- cbn [bytes_bits flat_map]. now rewrite app_nil_r, bits_of_0.
Qed.

Lemma br_align_sim : forall (boundary : nat) b r, rrep b r -> (boundary < 256)%nat ->
  let x := br_align (Z.of_nat boundary) b in
  let y := ralign boundary r in
  (match snd y with
   | Ok p => snd x = Ok (Z.of_nat p)
   | Err e => snd x = Err e
   | Panic => snd x = Panic
   | NoFuel => False
   end) /\ rrep (fst x) (fst y).
Proof.
  intros boundary b r Hr Hb. cbv zeta. unfold br_align, ralign.
  destruct (Nat.eqb_spec boundary 0) as [->|Hne]; [split; [reflexivity|exact Hr]|].
  replace (Z.of_nat boundary =? 0) with false by lia.
  pose proof Hr as (_ & _ & _ & _ & Hcount). rewrite Hcount, discard_z_spec by lia.
  destruct (Nat.eqb_spec (discard (rpos r) boundary) 0) as [E|E].
  - rewrite E. cbn [Z.of_nat Z.eqb]. split; [reflexivity|exact Hr].
  - replace (Z.of_nat (discard (rpos r) boundary) =? 0) with false by lia.
    pose proof (discard_lt (rpos r) boundary ltac:(lia)).
    destruct (br_read_bits_sim (discard (rpos r) boundary) b r Hr) as [E1 E2]; [lia|].
    unfold rbind. destruct (br_read_bits (Z.of_nat (discard (rpos r) boundary)) b) as [b' o].
    destruct (read_bits (discard (rpos r) boundary) r) as [r' o'] eqn:Er. cbn [fst snd] in *. subst o'.
    pose proof E2 as (_ & _ & _ & _ & Hcount'). destruct o; cbn [fst snd].
    + split; [now rewrite Hcount'|exact E2].
    + split; [reflexivity|exact E2].
    + unfold read_bits in Er. destruct (_ <=? _)%nat; discriminate.
    + unfold read_bits in Er. destruct (_ <=? _)%nat; discriminate.
Qed.
