(** Proofs of the stream properties. *)

Require Import ZArith List Bool Lia ZifyBool ZifyNat.
From Verif Require Import Bits BitsFacts Stream StreamFacts Scalars FixedFacts VarFacts PrefixFacts ScalarFacts
  BitIO BitIOFacts Marshal StreamSpec.
Import ListNotations.
Open Scope Z_scope.

Lemma discard_mod : forall pos b, (0 < b)%nat ->
  Z.of_nat (discard pos b) = (- Z.of_nat pos) mod Z.of_nat b.
Proof.
  intros pos b Hb. unfold discard.
  pose proof (Nat.mod_upper_bound pos b ltac:(lia)) as U.
  pose proof (Nat2Z.inj_mod pos b) as E.
  destruct (Nat.eqb_spec (pos mod b) 0) as [Z0|NZ].
  - rewrite Z0 in E. rewrite Z.mod_opp_l_z by lia. reflexivity.
  - rewrite Z.mod_opp_l_nz by lia. lia.
Qed.

Lemma discard_least : forall pos b, (0 < b)%nat ->
  least_padding (Z.of_nat pos) (Z.of_nat b) (Z.of_nat (discard pos b)).
Proof.
  intros pos b Hb. rewrite discard_mod by lia. set (p := Z.of_nat pos). set (m := Z.of_nat b).
  assert (Hm : 0 < m) by (unfold m; lia).
  pose proof (Z.mod_pos_bound (- p) m Hm) as R.
  split; [lia|]. split.
  - rewrite Z.add_mod_idemp_r by lia. replace (p + - p) with 0 by lia. now rewrite Z.mod_0_l by lia.
  - intros d' Hd' E. destruct (Z.le_gt_cases ((- p) mod m) d') as [L|L]; [exact L|exfalso].
    assert (E2 : (- p) mod m = d').
    { assert (d' < m) by lia. rewrite <- (Z.mod_small d' m) by lia.
      replace (- p) with (d' + - (p + d')) by lia.
      apply Z.mod_divide in E; [|lia]. destruct E as [q E]. rewrite E.
      replace (d' + - (q * m)) with (d' + (- q) * m) by ring. now rewrite Z.mod_add by lia. }
    lia.
Qed.

Lemma op_bits_align : forall b pos, 1 <= b -> op_bits (OAlign b) (Z.of_nat pos) = repeat false (discard pos (Z.to_nat b)).
Proof.
  intros b pos Hb. cbn [op_bits]. f_equal. pose proof (discard_mod pos (Z.to_nat b) ltac:(lia)) as E.
  rewrite Z2Nat.id in E by lia. rewrite <- E. apply Nat2Z.id.
Qed.

Lemma bw_op_rep : forall o w bits, wop_ok o -> wrep w bits ->
  exists w', bw_op o w = Some w' /\ wrep w' (bits ++ op_bits o (Z.of_nat (length bits))).
Proof.
  intros o w bits Ho Hw. destruct o; cbn [bw_op op_bits wop_ok] in *.
  - destruct Ho as [Hr Hn]. eexists; split; [reflexivity|]. unfold in_u in Hr. apply bw_write_bits_rep; auto; lia.
  - destruct Ho as [Hr Hn]. eexists; split; [reflexivity|]. apply bw_write_bits_unsafe_rep; auto; lia.
  - eexists; split; [reflexivity|]. now apply bw_write_bool_rep.
  - eexists; split; [reflexivity|]. now apply bw_write_byte_rep.
  - eexists; split; [reflexivity|]. now apply bw_write_rep.
  - change (repeat false (Z.to_nat (- Z.of_nat (length bits) mod boundary)))
      with (op_bits (OAlign boundary) (Z.of_nat (length bits))).
    rewrite op_bits_align by lia.
    destruct (bw_align_rep w bits (Z.to_nat boundary) Hw) as (w' & E & H'); [lia|].
    rewrite Z2Nat.id in E by lia. rewrite E. exists w'. split; [reflexivity|exact H'].
Qed.

Lemma wrep_bcount : forall w bits, wrep w bits -> bcount w = Z.of_nat (length bits).
Proof. intros w bits (p & _ & _ & _ & _ & H & _). exact H. Qed.

Lemma bw_run_rep : forall p w bits, wprog_ok p -> wrep w bits ->
  exists w', bw_run p w = (w', ends p (Z.of_nat (length bits))) /\
    wrep w' (bits ++ written p (Z.of_nat (length bits))).
Proof.
  induction p as [|e|o k IH]; intros w bits Hp Hw.
  - cbn. rewrite app_nil_r. eauto.
  - cbn. rewrite app_nil_r. eauto.
  - destruct Hp as [Ho Hk]. cbn [bw_run ends written].
    destruct (bw_op_rep o w bits Ho Hw) as (w1 & E & H1). rewrite E.
    pose proof (wrep_bcount _ _ H1) as Ec.
    assert (El : Z.of_nat (length bits) + Z.of_nat (length (op_bits o (Z.of_nat (length bits)))) = bcount w1).
    { rewrite Ec, app_length. lia. }
    rewrite El.
    destruct (IH (bcount w1) w1 _ (Hk _) H1) as (w2 & E2 & H2).
    rewrite <- Ec in E2, H2. exists w2. rewrite E2. split; [reflexivity|].
    now rewrite app_assoc.
Qed.

Lemma bw_run_spec : forall p, wprog_ok p ->
  exists w, bw_run p bw_new = (w, ends p 0) /\ bcount w = Z.of_nat (length (written p 0)) /\
    zero_padded (bw_close w) (written p 0).
Proof.
  intros p Hp. destruct (bw_run_rep p bw_new [] Hp wrep_new) as (w & E & H). cbn [length app Z.of_nat] in *.
  exists w. split; [exact E|]. split; [now apply wrep_bcount|].
  destruct (bw_close_spec w _ H) as (k & Hk & Eb & Hf). split; [exact Hf|]. eauto.
Qed.

Lemma st_op_spec : forall o bits, wop_ok o ->
  st_op o (mkW bits []) = (mkW (bits ++ op_bits o (Z.of_nat (length bits))) [], Ok tt).
Proof.
  intros o bits Ho. destruct o; cbn [st_op wop_ok] in *; try reflexivity.
  rewrite op_bits_align by lia. unfold walign, wbind. cbn [wbits wfaults].
  destruct (Nat.eqb_spec (Z.to_nat boundary) 0); [lia|].
  destruct (Nat.eqb_spec (discard (length bits) (Z.to_nat boundary)) 0) as [E|E].
  - rewrite E. cbn [repeat]. now rewrite app_nil_r.
  - unfold write_bits, put, wret. cbn [wfaults wbits]. now rewrite bits_of_0.
Qed.

Lemma st_run_spec : forall p bits, wprog_ok p ->
  st_run p (mkW bits []) = (mkW (bits ++ written p (Z.of_nat (length bits))) [], ends p (Z.of_nat (length bits))).
Proof.
  induction p as [|e|o k IH]; intros bits Hp.
  - cbn. now rewrite app_nil_r.
  - cbn. now rewrite app_nil_r.
  - destruct Hp as [Ho Hk]. cbn [st_run written ends]. unfold wbind at 1.
    rewrite st_op_spec by exact Ho. cbn [wbits]. rewrite IH by apply Hk.
    rewrite app_length, Nat2Z.inj_add, app_assoc. reflexivity.
Qed.

Lemma br_op_sim : forall o b r, rop_ok o -> rrep b r ->
  snd (br_op o b) = snd (sr_op o r) /\ rrep (fst (br_op o b)) (fst (sr_op o r)).
Proof.
  intros o b r Ho Hr. destruct o; cbn [br_op sr_op rop_ok] in *.
  - destruct (br_read_bits_sim (Z.to_nat n) b r Hr) as [E1 E2]; [lia|]. rewrite Z2Nat.id in * by lia.
    destruct (br_read_bits n b), (read_bits (Z.to_nat n) r). cbn [fst snd] in *. subst. auto.
  - destruct (br_read_bool_sim b r Hr) as [E1 E2].
    destruct (br_read_bool b), (read_bool r). cbn [fst snd] in *. subst. auto.
  - destruct (br_read_byte_sim b r Hr) as [E1 E2].
    destruct (br_read_byte b), (read_byte r). cbn [fst snd] in *. subst. auto.
  - destruct (br_read_full_sim k b r Hr Ho) as [E1 E2]. auto.
  - pose proof (br_align_sim (Z.to_nat boundary) b r Hr ltac:(lia)) as [E1 E2]. cbv zeta in *.
    rewrite Z2Nat.id in * by lia.
    destruct (br_align boundary b), (ralign (Z.to_nat boundary) r) as [r' o']. cbn [fst snd] in *.
    split; [|exact E2]. destruct o'; [subst; reflexivity|subst; reflexivity|subst; reflexivity|destruct E1].
Qed.

Lemma br_run_sim : forall p b r, rprog_ok p -> rrep b r -> br_run p b = sr_run p r.
Proof.
  induction p as [v|e|o k IH]; intros b r Hp Hr; [reflexivity|reflexivity|].
  destruct Hp as [Ho Hk]. cbn [br_run sr_run].
  destruct (br_op_sim o b r Ho Hr) as [E1 E2].
  destruct (br_op o b) as [b' v], (sr_op o r) as [r' v']. cbn [fst snd] in *. subst v'.
  pose proof E2 as (_ & _ & _ & _ & Hcount). rewrite Hcount. apply IH; auto.
Qed.

Lemma br_run_spec : forall p l, rprog_ok p -> Forall is_byte l ->
  br_run p (br_new l) = sr_run p (mkR 0 (bytes_bits l)).
Proof. intros p l Hp Hl. apply br_run_sim; [exact Hp|now apply rrep_new]. Qed.

Lemma read_fields_ok : forall ns acc, Forall (fun n => 1 <= n <= 64)%nat ns -> rprog_ok (read_fields ns acc).
Proof.
  induction ns as [|n ns IH]; intros acc H; [exact I|]. inversion H; subst.
  cbn [read_fields rprog_ok rop_ok]. split; [lia|]. intros [l|e| |] pos; cbn; auto.
Qed.

Lemma sr_read_fields : forall ns acc pos rem, Forall (fun n => 1 <= n <= 64)%nat ns ->
  sr_run (read_fields ns acc) (mkR pos rem) =
    if (total ns <=? length rem)%nat then Ok (acc ++ slices ns rem) else Err EOF.
Proof.
  induction ns as [|n ns IH]; intros acc pos rem H.
  - cbn. now rewrite app_nil_r.
  - inversion H as [|? ? Hn Hns]; subst. cbn [read_fields sr_run sr_op]. rewrite Nat2Z.id.
    unfold read_bits. cbn [rrem rpos]. unfold total in *. cbn [fold_right].
    destruct (Nat.leb_spec n (length rem)) as [L|L].
    + cbn [omap]. rewrite IH by exact Hns. rewrite skipn_length. cbn [slices].
      assert (Ev : u64 (val_of (firstn n rem)) = val_of (firstn n rem)).
      { unfold u64. apply to_u_small. pose proof (val_of_range (firstn n rem)) as R.
        rewrite firstn_length_le in R by lia. pose proof (pow2_le (Z.of_nat n) 64). lia. }
      rewrite Ev, <- app_assoc. cbn [app].
      destruct (Nat.leb_spec (fold_right Nat.add 0%nat ns) (length rem - n)%nat),
               (Nat.leb_spec (n + fold_right Nat.add 0%nat ns)%nat (length rem)); try lia; reflexivity.
    + cbn [omap sr_run]. destruct (Nat.leb_spec (n + fold_right Nat.add 0%nat ns)%nat (length rem)); [lia|reflexivity].
Qed.

Lemma br_read_fields : forall ns l, Forall (fun n => 1 <= n <= 64)%nat ns -> Forall is_byte l ->
  br_run (read_fields ns []) (br_new l) =
    if (total ns <=? 8 * length l)%nat then Ok (slices ns (bytes_bits l)) else Err EOF.
Proof.
  intros ns l Hn Hl. rewrite br_run_spec by (auto using read_fields_ok).
  rewrite sr_read_fields by exact Hn. rewrite bytes_bits_length. reflexivity.
Qed.

(** A zero-width read on a byte boundary returns the last byte's leftover. *)
Lemma zero_width_read : exists l v, Forall is_byte l /\
  br_run (RStep (IReadBits 3) (fun _ _ => RStep (IReadBits 5) (fun _ _ =>
          RStep (IReadBits 0) (fun v _ => match v with Ok x => RDone x | _ => RFail EOF end)))) (br_new l) = Ok [v] /\
  v <> 0.
Proof.
  exists [31], 31. split; [repeat constructor; unfold is_byte; lia|]. split; [vm_compute; reflexivity|discriminate].
Qed.

(** ** Alignment *)

Lemma walign_spec : forall b w, (0 < b)%nat -> wfaults w = [] ->
  exists d, least_padding (Z.of_nat (length (wbits w))) (Z.of_nat b) (Z.of_nat d) /\
    walign b w = (mkW (wbits w ++ repeat false d) [], Ok (length (wbits w) + d)%nat).
Proof.
  intros b [bits fl] Hb Hf. cbn [wbits wfaults] in *. subst fl.
  exists (discard (length bits) b). split; [now apply discard_least|].
  unfold walign. cbn [wbits]. destruct (Nat.eqb_spec b 0); [lia|].
  destruct (Nat.eqb_spec (discard (length bits) b) 0) as [E|E].
  - rewrite E. cbn [repeat]. now rewrite app_nil_r, Nat.add_0_r.
  - unfold wbind, write_bits, put. cbn [wfaults wbits]. now rewrite bits_of_0, app_length, repeat_length.
Qed.

Lemma ralign_spec : forall b pos rem, (0 < b)%nat ->
  exists d, least_padding (Z.of_nat pos) (Z.of_nat b) (Z.of_nat d) /\
    ((d <= length rem)%nat -> ralign b (mkR pos rem) = (mkR (pos + d) (skipn d rem), Ok (pos + d)%nat)) /\
    ((length rem < d)%nat -> snd (ralign b (mkR pos rem)) = Err EOF).
Proof.
  intros b pos rem Hb. exists (discard pos b). split; [now apply discard_least|].
  unfold ralign. cbn [rpos]. destruct (Nat.eqb_spec b 0); [lia|].
  destruct (Nat.eqb_spec (discard pos b) 0) as [E|E].
  - rewrite E. cbn [skipn]. rewrite Nat.add_0_r. split; [reflexivity|lia].
  - unfold rbind, read_bits. cbn [rrem rpos]. split; intros H.
    + replace (discard pos b <=? length rem)%nat with true by (symmetry; apply Nat.leb_le; lia). reflexivity.
    + replace (discard pos b <=? length rem)%nat with false by (symmetry; apply Nat.leb_gt; lia). reflexivity.
Qed.

Lemma CountAlignBits_spec : forall pos b, 0 <= pos -> 0 < b ->
  exists d, CountAlignBits pos b = Some d /\ least_padding pos b d.
Proof.
  intros pos b Hp Hb. pose proof (discard_least (Z.to_nat pos) (Z.to_nat b) ltac:(lia)) as L.
  rewrite !Z2Nat.id in L by lia. eexists. split; [|exact L].
  unfold CountAlignBits. replace (b =? 0) with false by lia.
  rewrite Z.rem_mod_nonneg by lia. rewrite discard_mod by lia. rewrite !Z2Nat.id by lia.
  destruct (Z.eqb_spec (pos mod b) 0) as [E|E].
  - now rewrite Z.mod_opp_l_z by lia.
  - now rewrite Z.mod_opp_l_nz by lia.
Qed.

Lemma least_padding_unique : forall pos b d1 d2, least_padding pos b d1 -> least_padding pos b d2 -> d1 = d2.
Proof. intros pos b d1 d2 (A1 & B1 & C1) (A2 & B2 & C2). specialize (C1 d2 A2 B2). specialize (C2 d1 A1 B1). lia. Qed.

(** Large boundaries on the byte-cached writer: [n] zero bits, then Align. *)
Fixpoint bools (n : nat) (k : wprog) : wprog :=
  match n with O => k | S n' => WStep (OWriteBool false) (fun _ => bools n' k) end.

Lemma big_boundaries : forall b, 250 <= b <= 255 -> exists n w,
  bw_run (bools n (WStep (OAlign b) (fun _ => WDone))) bw_new = (w, Ok tt) /\
  bcount w mod b = 0 /\ Z.of_nat (8 * length (bw_close w)) < bcount w.
Proof.
  intros b Hb.
  assert (C : b = 250 \/ b = 251 \/ b = 252 \/ b = 253 \/ b = 254 \/ b = 255) by lia.
  destruct C as [->|[->|[->|[->|[->| ->]]]]].
  - exists 751%nat. eexists. vm_compute. repeat split.
  - exists 503%nat. eexists. vm_compute. repeat split.
  - exists 253%nat. eexists. vm_compute. repeat split.
  - exists 255%nat. eexists. vm_compute. repeat split.
  - exists 255%nat. eexists. vm_compute. repeat split.
  - exists 511%nat. eexists. vm_compute. repeat split.
Qed.

(** ** Marshal and Unmarshal *)

Lemma bytes_bits_take : forall k l, (8 * k <= length l)%nat -> bytes_bits (take_bytes k l) = firstn (8 * k) l.
Proof.
  induction k as [|k IH]; intros l H; [reflexivity|].
  change (take_bytes (S k) l) with (val_of (firstn 8 l) :: take_bytes k (skipn 8 l)).
  rewrite bytes_bits_cons, IH by (rewrite skipn_length; lia).
  replace (8 * S k)%nat with (8 + 8 * k)%nat by lia.
  rewrite <- (firstn_skipn 8 l) at 3.
  assert (L8 : length (firstn 8 l) = 8%nat) by (apply firstn_length_le; lia).
  rewrite firstn_app, L8. replace (8 + 8 * k - 8)%nat with (8 * k)%nat by lia.
  rewrite (firstn_all2 (firstn 8 l)) by lia. f_equal.
  pose proof (bits_of_val_of (firstn 8 l)) as E. rewrite L8 in E. exact E.
Qed.

Lemma take_bytes_bytes : forall k l, Forall is_byte (take_bytes k l).
Proof.
  induction k as [|k IH]; intros l; constructor; [|apply IH].
  unfold is_byte. pose proof (val_of_range (firstn 8 l)) as R. pose proof (firstn_le_length 8 l).
  pose proof (pow2_le (Z.of_nat (length (firstn 8 l))) 8 ltac:(lia)). change (2 ^ 8) with 256 in *. lia.
Qed.

Lemma firstn_repeat_le : forall {A} (x : A) a b, (a <= b)%nat -> firstn a (repeat x b) = repeat x a.
Proof.
  induction a as [|a IH]; intros [|b] H; [reflexivity|reflexivity|lia|]. cbn. f_equal. apply IH. lia.
Qed.

Lemma pack_padded : forall bits, zero_padded (pack bits) bits.
Proof.
  intros bits. split; [apply take_bytes_bytes|].
  set (n := length bits). set (q := ((n + 7) / 8)%nat).
  pose proof (Nat.div_mod (n + 7) 8 ltac:(lia)) as D. pose proof (Nat.mod_upper_bound (n + 7) 8 ltac:(lia)) as U.
  fold q in D. exists (8 * q - n)%nat. split; [lia|].
  unfold pack. fold n q. rewrite bytes_bits_take by (rewrite app_length, repeat_length; fold n; lia).
  rewrite firstn_app. fold n. rewrite firstn_all2 by lia. f_equal.
  apply firstn_repeat_le. lia.
Qed.

Lemma bytes_bits_inj : forall a b, Forall is_byte a -> Forall is_byte b -> bytes_bits a = bytes_bits b -> a = b.
Proof.
  induction a as [|x a IH]; intros [|y b] Ha Hb E; [reflexivity| | |].
  - apply (f_equal (@length bool)) in E. rewrite !bytes_bits_length in E. cbn in E. lia.
  - apply (f_equal (@length bool)) in E. rewrite !bytes_bits_length in E. cbn in E. lia.
  - inversion Ha as [|? ? Hx Ha']; inversion Hb as [|? ? Hy Hb']; subst. rewrite !bytes_bits_cons in E.
    assert (E1 : bits_of 8 x = bits_of 8 y).
    { apply (f_equal (firstn 8)) in E.
      pose proof (firstn_app_exact (bits_of 8 x) (bytes_bits a)) as F1.
      pose proof (firstn_app_exact (bits_of 8 y) (bytes_bits b)) as F2.
      rewrite bits_of_length in F1, F2. congruence. }
    rewrite E1 in E. apply app_inv_head in E. f_equal; [|auto].
    apply (f_equal val_of) in E1. rewrite !val_of_bits_of in E1.
    change (2 ^ Z.of_nat 8) with 256 in E1. unfold is_byte in *. rewrite !Z.mod_small in E1 by lia. exact E1.
Qed.

Lemma zero_padded_unique : forall a b bits, zero_padded a bits -> zero_padded b bits -> a = b.
Proof.
  intros a b bits (Fa & ka & Ka & Ea) (Fb & kb & Kb & Eb). apply bytes_bits_inj; auto.
  rewrite Ea, Eb. f_equal. f_equal.
  apply (f_equal (@length bool)) in Ea. apply (f_equal (@length bool)) in Eb.
  rewrite app_length, repeat_length, bytes_bits_length in Ea, Eb. lia.
Qed.

Lemma Marshal_bytes_ideal : forall p, wprog_ok p -> Marshal_bytes p = Marshal (st_run p).
Proof.
  intros p Hp. unfold Marshal_bytes, Marshal.
  destruct (bw_run_spec p Hp) as (w & E & _ & Z). rewrite E.
  rewrite (st_run_spec p [] Hp). cbn [app length Z.of_nat wbits].
  destruct (ends p 0); try reflexivity. f_equal.
  eapply zero_padded_unique; [exact Z|apply pack_padded].
Qed.

Lemma pack_length : forall bits, length (pack bits) = ((length bits + 7) / 8)%nat.
Proof. intros. unfold pack. apply take_bytes_length. Qed.

Lemma Marshal_ok : forall m bs, encodes m bs -> Marshal m = Ok (pack bs).
Proof. intros m bs H. unfold Marshal. now rewrite (H (mkW [] []) eq_refl). Qed.

Lemma Unmarshal_ok : forall {A} (r : reader A) bs a suffix, decodes r bs a ->
  Unmarshal r (pack bs ++ suffix) = Ok a.
Proof.
  intros A r bs a suffix H. unfold Unmarshal. rewrite bytes_bits_app.
  destruct (pack_padded bs) as (_ & k & _ & E). rewrite E, <- app_assoc, H. reflexivity.
Qed.

Lemma Unmarshal_suffix : forall {A} (r : reader A) b a, prefix_determined r ->
  Unmarshal r b = Ok a -> forall suffix, Unmarshal r (b ++ suffix) = Ok a.
Proof.
  intros A r b a Hp H suffix. unfold Unmarshal in *.
  destruct (r (mkR 0 (bytes_bits b))) as [r' o] eqn:E. cbn [snd] in H. subst o.
  destruct (Hp _ _ _ _ E) as (c & Ec & _ & Hc & _). rewrite bytes_bits_app, Ec, <- app_assoc, Hc. reflexivity.
Qed.

Lemma Marshal_error : forall m w e, m (mkW [] []) = (w, Err e) -> Marshal m = Err e.
Proof. intros m w e H. unfold Marshal. now rewrite H. Qed.
