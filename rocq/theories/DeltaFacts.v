(** Facts about delta packing contexts. *)

Require Import ZArith List Bool Lia ZifyBool ZifyNat.
From Verif Require Import Bits BitsFacts Stream StreamFacts Scalars FixedFacts Traits Delta DeltaSpec.
Import ListNotations.
Open Scope Z_scope.

Lemma len64_le : forall x m, 0 <= x -> 0 <= m -> (len64 x <= m <-> x < 2 ^ m).
Proof.
  intros x m Hx Hm. unfold len64. destruct (x <=? 0) eqn:E.
  - assert (x = 0) by lia. subst. pose proof (pow2_pos m Hm). lia.
  - assert (0 < x) by lia. split; intros H1.
    + assert (Z.log2 x < m) by lia. apply Z.log2_lt_pow2; lia.
    + assert (Z.log2 x < m); [|lia]. apply Z.log2_lt_pow2; lia.
Qed.

Lemma len64_nonneg : forall x, 0 <= len64 x.
Proof. intros x. unfold len64. destruct (x <=? 0); [lia|]. pose proof (Z.log2_nonneg x). lia. Qed.

Lemma len64_reached : forall x, 0 < x -> 2 ^ (len64 x - 1) <= x.
Proof.
  intros x Hx. unfold len64. replace (x <=? 0) with false by lia.
  replace (Z.log2 x + 1 - 1) with (Z.log2 x) by lia. apply Z.log2_spec. lia.
Qed.

Lemma absDiff_abs : forall a b, 0 <= a < 2 ^ 64 -> 0 <= b < 2 ^ 64 -> absDiff a b = Z.abs (a - b).
Proof.
  intros a b Ha Hb. unfold absDiff. destruct (b <? a) eqn:E; unfold u64; rewrite to_u_small; lia.
Qed.

(** ** Differences *)

(** Every difference along the sequence needs at most [m] bits. *)
Fixpoint fits (m p : Z) (us : list Z) : Prop :=
  match us with
  | [] => True
  | u :: us' => Z.abs (u - p) < 2 ^ m /\ fits m u us'
  end.

(** The width the context ends up with. *)
Fixpoint mx (M p : Z) (us : list Z) : Z :=
  match us with
  | [] => M
  | u :: us' => mx (if M <=? 62 then Z.max M (len64 (Z.abs (u - p))) else M) u us'
  end.

Lemma mx_ge : forall us M p, M <= mx M p us.
Proof.
  induction us as [|u us IH]; intros M p; cbn; [lia|].
  destruct (M <=? 62); [|apply IH]. etransitivity; [|apply IH]. lia.
Qed.

Lemma fits_mono : forall us m m' p, 0 <= m <= m' -> fits m p us -> fits m' p us.
Proof.
  induction us as [|u us IH]; intros m m' p Hm H; cbn in *; [exact I|].
  destruct H as [H1 H2]. split; [|now apply (IH m)].
  pose proof (pow2_le m m' Hm). lia.
Qed.

Lemma mx_fits : forall us M p, 0 <= M -> mx M p us <= 62 -> fits (mx M p us) p us.
Proof.
  induction us as [|u us IH]; intros M p HM H; cbn in *; [exact I|].
  destruct (M <=? 62) eqn:E.
  - set (M' := Z.max M (len64 (Z.abs (u - p)))) in *.
    pose proof (len64_nonneg (Z.abs (u - p))).
    split; [|apply IH; [lia|exact H]].
    apply len64_le; [lia| |].
    + pose proof (mx_ge us M' u). lia.
    + pose proof (mx_ge us M' u). lia.
  - pose proof (mx_ge us M u). lia.
Qed.

(** If all differences fit 62 bits the width is the exact one. *)
Lemma mx_le : forall us M p m, 0 <= M <= m -> m <= 62 -> fits m p us -> mx M p us <= m.
Proof.
  induction us as [|u us IH]; intros M p m HM Hm H; cbn in *; [lia|].
  destruct H as [H1 H2]. replace (M <=? 62) with true by lia.
  apply IH; [|exact Hm|exact H2].
  assert (len64 (Z.abs (u - p)) <= m) by (apply len64_le; lia). lia.
Qed.

Lemma mx_reached : forall us M p, 0 <= M -> mx M p us <= 62 ->
  mx M p us = M \/ exists a b, In (a, b) (neighbours (p :: us)) /\ 2 ^ (mx M p us - 1) <= Z.abs (b - a).
Proof.
  induction us as [|u us IH]; intros M p HM H; cbn in *; [now left|].
  destruct (M <=? 62) eqn:E.
  - set (L := len64 (Z.abs (u - p))) in *.
    destruct (IH (Z.max M L) u ltac:(lia) H) as [H1|(a & b & Hin & Hp)].
    + destruct (Z.max_spec M L) as [[H2 H3]|[H2 H3]].
      * right. exists p, u. split; [now left|]. rewrite H1, H3. unfold L. apply len64_reached.
        assert (u - p <> 0); [|lia]. intros E0. unfold L in H2. rewrite E0 in H2. cbn in H2. lia.
      * left. lia.
    + right. exists a, b. split; [|exact Hp]. now right.
  - destruct (IH M u ltac:(lia) H) as [H1|(a & b & Hin & Hp)]; [now left|].
    right. exists a, b. split; [|exact Hp]. now right.
Qed.

Lemma fits_neighbours : forall us m p,
  fits m p us <-> (forall a b, In (a, b) (neighbours (p :: us)) -> Z.abs (b - a) < 2 ^ m).
Proof.
  induction us as [|u us IH]; intros m p; cbn.
  - tauto.
  - rewrite (IH m u). split.
    + intros [H1 H2] a b [H|H]; [injection H as <- <-; exact H1|now apply H2].
    + intros H. split; [apply H; now left|]. intros a b Hin. apply H. now right.
Qed.

Lemma delta_width_unique : forall us m m', delta_width us m -> delta_width us m' -> m = m'.
Proof.
  assert (W : forall us m m', delta_width us m -> delta_width us m' -> ~ m < m').
  { intros us m m' (H1 & H2 & H3) (G1 & G2 & G3) Hlt. destruct G3 as [->|(a & b & Hin & Hge)]; [lia|].
    specialize (H2 a b Hin). pose proof (pow2_le m (m' - 1) ltac:(lia)). lia. }
  intros us m m' H G. pose proof (W us m m' H G). pose proof (W us m' m G H). lia.
Qed.

(** Exact width of a sequence. *)
Fixpoint width (p : Z) (us : list Z) : Z :=
  match us with
  | [] => 0
  | u :: us' => Z.max (len64 (Z.abs (u - p))) (width u us')
  end.

Lemma width_nonneg : forall us p, 0 <= width p us.
Proof. induction us as [|u us IH]; intros p; cbn; [lia|]. specialize (IH u). lia. Qed.

Lemma width_fits : forall us p m, 0 <= m -> (width p us <= m <-> fits m p us).
Proof.
  induction us as [|u us IH]; intros p m Hm; cbn; [lia|].
  rewrite <- (IH u m Hm), <- (len64_le (Z.abs (u - p)) m) by lia. lia.
Qed.

Lemma width_delta_width : forall us p, delta_width (p :: us) (width p us).
Proof.
  intros us p. pose proof (width_nonneg us p) as H0. split; [exact H0|]. split.
  - apply fits_neighbours. apply width_fits; lia.
  - clear H0. revert p. induction us as [|u us IH]; intros p; [now left|].
    cbn [width]. destruct (IH u) as [H|(a & b & Hin & Hp)].
    + rewrite H. destruct (Z.eq_dec (u - p) 0) as [E|E].
      * left. rewrite E. reflexivity.
      * right. exists p, u. split; [now left|].
        pose proof (len64_nonneg (Z.abs (u - p))). rewrite Z.max_l by lia. apply len64_reached. lia.
    + destruct (Z.max_spec (len64 (Z.abs (u - p))) (width u us)) as [[H1 ->]|[H1 ->]].
      * right. exists a, b. split; [now right|exact Hp].
      * destruct (Z.eq_dec (u - p) 0) as [E|E].
        -- left. rewrite E. reflexivity.
        -- right. exists p, u. split; [now left|]. apply len64_reached. lia.
Qed.

Lemma mx_width : forall us p, mx 0 p us <= 62 <-> width p us <= 62.
Proof.
  intros us p. split; intros H.
  - apply width_fits; [lia|]. pose proof (mx_ge us 0 p).
    apply (fits_mono us (mx 0 p us)); [lia|]. apply mx_fits; lia.
  - apply mx_le; [lia|lia|]. apply width_fits; lia.
Qed.

Lemma mx_eq : forall us p, width p us <= 62 -> mx 0 p us = width p us.
Proof.
  intros us p H. pose proof (width_nonneg us p). apply Z.le_antisymm.
  - apply mx_le; [lia|exact H|]. apply width_fits; lia.
  - pose proof (mx_ge us 0 p). apply width_fits; [lia|]. apply mx_fits; [lia|]. now apply mx_width.
Qed.

(** ** Initialisation *)

Definition sized {A} (T : traits A) (e : A) : Prop := exists s, t_size T e = Ok s.
Definition size_of {A} (T : traits A) (e : A) : Z := match t_size T e with Ok s => s | _ => 0 end.
Definition numbered {A} (T : traits A) (e : A) : Prop := 0 <= t_as T e < 2 ^ 64.

Lemma size_of_eq : forall {A} (T : traits A) e, sized T e -> t_size T e = Ok (size_of T e).
Proof. intros A T e [s H]. unfold size_of. now rewrite H. Qed.

Lemma init_rest : forall {A} (T : traits A) es c p,
  Forall (sized T) es -> Forall (numbered T) es ->
  d_prev c = Some p -> 0 <= p < 2 ^ 64 -> 1 <= d_num c -> 0 <= d_max c ->
  d_packed c = (2 <=? d_num c) && (d_max c <=? 62) ->
  d_init_all T es c = Ok (mkD (Some (last (map (t_as T) es) p)) (mx (d_max c) p (map (t_as T) es))
    (d_unpacked c + sum (map (size_of T) es)) (d_first c) (d_num c + Z.of_nat (length es))
    ((2 <=? d_num c + Z.of_nat (length es)) && (mx (d_max c) p (map (t_as T) es) <=? 62)) (d_started c)).
Proof.
  intros A T. induction es as [|e es IH]; intros c p Hs Hn Hp Hpr Hnum Hmax Hpk.
  - cbn. rewrite !Z.add_0_r, <- Hpk, <- Hp. destruct c; reflexivity.
  - apply Forall_cons_iff in Hs as [Hs1 Hs2]. apply Forall_cons_iff in Hn as [Hn1 Hn2].
    cbn [d_init_all]. unfold d_init. rewrite (size_of_eq T e Hs1), Hp.
    rewrite (absDiff_abs _ _ Hn1 Hpr).
    pose proof (len64_nonneg (Z.abs (t_as T e - p))) as HL.
    set (L := len64 (Z.abs (t_as T e - p))) in *.
    assert (EM : forall M, mx M p (map (t_as T) (e :: es)) =
                 mx (if M <=? 62 then Z.max M L else M) (t_as T e) (map (t_as T) es)) by reflexivity.
    assert (El : last (map (t_as T) (e :: es)) p = last (map (t_as T) es) (t_as T e)).
    { cbn [map]. destruct (map (t_as T) es) as [|x xs]; [reflexivity|]. cbn [last].
      clear. revert x. induction xs as [|y ys IHy]; intros x; [reflexivity|]. exact (IHy y). }
    change (sum (map (size_of T) (e :: es))) with (size_of T e + sum (map (size_of T) es)).
    change (length (e :: es)) with (S (length es)).
    rewrite EM, El. change maxBitNumberLimit with 62.
    destruct (d_max c <=? 62) eqn:E62.
    + destruct (d_max c <? L) eqn:EL.
      * rewrite (IH _ (t_as T e)); cbn [d_prev d_max d_num d_packed d_unpacked d_first d_started];
          try assumption; try reflexivity; try lia.
        rewrite (Z.max_r (d_max c) L) by lia. 
        f_equal. f_equal; lia.
      * rewrite (IH _ (t_as T e)); cbn [d_prev d_max d_num d_packed d_unpacked d_first d_started];
          try assumption; try reflexivity; try lia.
        rewrite (Z.max_l (d_max c) L) by lia. 
        f_equal. f_equal; lia.
    + rewrite (IH _ (t_as T e)); cbn [d_prev d_max d_num d_packed d_unpacked d_first d_started];
        try assumption; try reflexivity; try lia.
      f_equal. f_equal; lia.
Qed.

Lemma init_all : forall {A} (T : traits A) e es,
  Forall (sized T) (e :: es) -> Forall (numbered T) (e :: es) ->
  let us := map (t_as T) es in let u := t_as T e in
  d_init_all T (e :: es) d_empty = Ok (mkD (Some (last us u)) (mx 0 u us)
    (sum (map (size_of T) (e :: es))) (size_of T e) (Z.of_nat (length (e :: es)))
    ((2 <=? Z.of_nat (length (e :: es))) && (mx 0 u us <=? 62)) false).
Proof.
  intros A T e es Hs Hn us u. apply Forall_cons_iff in Hs as [Hs1 Hs2]. apply Forall_cons_iff in Hn as [Hn1 Hn2].
  cbn [d_init_all]. unfold d_init. rewrite (size_of_eq T e Hs1). cbn [d_empty d_prev d_max d_num d_packed d_unpacked d_first d_started].
  rewrite (init_rest T es _ u); cbn [d_prev d_max d_num d_packed d_unpacked d_first d_started];
    try assumption; try reflexivity; try lia.
  change (sum (map (size_of T) (e :: es))) with (size_of T e + sum (map (size_of T) es)).
  fold us. f_equal. f_equal; try (cbn [length]; lia).
Qed.

(** The decision of finishInit. *)
Lemma finish_packed : forall {A} (T : traits A) e es c,
  Forall (sized T) (e :: es) -> Forall (numbered T) (e :: es) ->
  d_init_all T (e :: es) d_empty = Ok c ->
  d_packed (finishInit c) = packs (map (size_of T) (e :: es)) (width (t_as T e) (map (t_as T) es)) /\
  (d_packed (finishInit c) = true -> d_max c = width (t_as T e) (map (t_as T) es) /\ d_max c <= 62) /\
  d_started c = false.
Proof.
  intros A T e es c Hs Hn H. rewrite (init_all T e es Hs Hn) in H.
  apply (f_equal (fun o => match o with Ok x => x | _ => c end)) in H. cbn beta iota in H.
  set (us := map (t_as T) es) in *. set (u := t_as T e) in *.
  pose proof (width_nonneg us u) as Hw. pose proof (mx_width us u) as Hmw.
  unfold finishInit, packs, packed_size, plain_size. rewrite map_length.
  subst c. cbn [d_prev d_max d_num d_packed d_unpacked d_first d_started set_packed].
  unfold deltaBitsize. cbn [d_max]. change maxBitNumberBits with 6.
  set (n := Z.of_nat (length (e :: es))) in *.
  assert (En : Z.of_nat (length (e :: es)) = n) by reflexivity.
  set (S0 := sum (map (size_of T) (e :: es))) in *.
  change (hd 0 (map (size_of T) (e :: es))) with (size_of T e).
  destruct (width u us <=? 62) eqn:E62.
  - assert (Ew : mx 0 u us = width u us) by (apply mx_eq; lia). rewrite Ew, E62.
    destruct (2 <=? n) eqn:E2; cbn [andb].
    + unfold delta_cost. replace (0 <? width u us) with (negb (width u us =? 0)) by lia.
      destruct (width u us =? 0) eqn:Ez; cbn [negb];
        match goal with |- context [if ?c then _ else _] => destruct c eqn:Ec end;
        cbn [d_packed d_max d_started set_packed]; repeat split; try lia; try discriminate.
    + cbn [d_packed d_max d_started]. repeat split; try lia; discriminate.
  - assert (mx 0 u us <=? 62 = false) as -> by lia. rewrite andb_false_r. cbn [andb d_packed d_started].
    repeat split; try discriminate.
Qed.

(** ** One element *)

(** What the element codec must do. *)
Definition element_ok {A} (T : traits A) (enc : list bool) (e : A) : Prop :=
  roundtrips (t_write T e) (t_read T) enc e.
Definition number_ok {A} (T : traits A) (e : A) : Prop :=
  0 <= t_as T e < 2 ^ 64 /\ t_from T (t_as T e) = e.

(** Writer and reader contexts in step, with the numbers [todo] still to be written: either
    nothing has been written, or both have the same mode, width and previous
    element. *)
Definition in_step (cw cr : dctx) (todo : list Z) : Prop :=
  (d_started cw = false /\ cr = d_empty /\
     (d_packed (finishInit cw) = true -> 0 <= d_max cw <= 62 /\
        match todo with [] => True | u :: us => fits (d_max cw) u us end))
  \/
  (d_started cw = true /\ d_started cr = true /\ d_packed cw = d_packed cr /\
     (d_packed cw = true -> exists p, d_prev cw = Some p /\ d_prev cr = Some p /\ 0 <= p < 2 ^ 64 /\
        d_max cw = d_max cr /\ 0 <= d_max cw <= 62 /\ fits (d_max cw) p todo)).

(** The bits one Write emits. *)
Definition step_bits {A} (T : traits A) (c : dctx) (enc : list bool) (e : A) : list bool :=
  if negb (d_started c) then
    (if d_packed (finishInit c) then true :: bits_of 6 (d_max c) else [false]) ++ enc
  else if negb (d_packed c) then enc
  else match d_prev c with
       | Some p => bits_of (Z.to_nat (delta_cost (d_max c))) (t_as T e - p)
       | None => []
       end.

Lemma finishInit_fields : forall c, d_prev (finishInit c) = d_prev c /\ d_max (finishInit c) = d_max c /\
  d_started (finishInit c) = d_started c.
Proof. intros c. unfold finishInit. destruct (d_packed c); [destruct (_ <=? _)|]; cbn; auto. Qed.

Lemma finishInit_started : forall c, finishInit (set_started c) = set_started (finishInit c).
Proof. intros [p m u f n k s]. unfold finishInit, deltaBitsize. cbn. destruct k; [|reflexivity]. destruct (_ <=? _); reflexivity. Qed.

Lemma finishInit_idem : forall c, finishInit (finishInit c) = finishInit c.
Proof.
  intros c. unfold finishInit at 2 3. destruct (d_packed c) eqn:E.
  - destruct (1 + d_unpacked c <=? _) eqn:E1.
    + unfold finishInit. cbn. reflexivity.
    + unfold finishInit. now rewrite E, E1.
  - unfold finishInit. now rewrite E.
Qed.

(** Context after writing [e]. *)
Definition next_ctx {A} (T : traits A) (c : dctx) (e : A) : dctx :=
  if negb (d_started c) then set_prev (t_as T e) (finishInit (set_started c))
  else if d_packed c && (d_max c <=? 0) then c
  else set_prev (t_as T e) c.

Lemma write_step : forall {A} (T : traits A) c enc e w, wfaults w = [] ->
  encodes (t_write T e) enc -> 0 <= d_max c -> (d_packed (finishInit c) = true -> d_max c <= 62) ->
  (d_started c = true -> d_packed c = true -> exists p, d_prev c = Some p /\ d_max c <= 62) ->
  d_write T e (c, w) = ((next_ctx T c e, mkW (wbits w ++ step_bits T c enc e) []), Ok tt).
Proof.
  intros A T c enc e w Hw He Hm0 Hm1 Hst.
  unfold d_write, step_bits, next_ctx. unfold sbind at 1. cbn [get_ctx fst].
  destruct (d_started c) eqn:Es; cbn [negb].
  - destruct (d_packed c) eqn:Ep; cbn [negb andb].
    + destruct (Hst eq_refl eq_refl) as (p & Hp & Hm). rewrite Hp.
      destruct (0 <? d_max c) eqn:E0.
      * replace (d_max c <=? 0) with false by lia. unfold sbind, on_stream, on_ctx, write_bits.
        rewrite (encodes_put _ w Hw). unfold to_u. rewrite (Z.mod_small (d_max c + 1)) by lia.
        unfold delta_cost. replace (d_max c =? 0) with false by lia.
        do 4 f_equal. apply bits_of_eqm. rewrite Z2Nat.id by lia. unfold u64, to_u.
        apply mod_mod_pow2. lia.
      * replace (d_max c <=? 0) with true by lia. unfold sret, delta_cost.
        replace (d_max c =? 0) with true by lia. cbn [Z.to_nat bits_of]. rewrite app_nil_r.
        destruct w as [wb wf]; cbn in *; now subst wf.
    + unfold writeUnpacked, sbind, on_ctx, on_stream. rewrite (He w Hw). reflexivity.
  - unfold sbind, on_ctx, get_ctx, on_stream. cbn [fst].
    rewrite finishInit_started. unfold WriteDescriptor, wbind, write_bool.
    cbn [set_started d_packed d_max]. rewrite (encodes_put _ w Hw).
    destruct (finishInit_fields c) as (_ & Hmax & _). rewrite Hmax.
    destruct (d_packed (finishInit c)) eqn:Ep.
    + unfold write_bits. rewrite (encodes_put _ (mkW (wbits w ++ [true]) []) eq_refl). cbn [wbits].
      unfold writeUnpacked, sbind, on_ctx, on_stream. rewrite He by reflexivity. cbn [wbits].
      rewrite <- !app_assoc. cbn [app]. unfold u64. rewrite to_u_small; [reflexivity|]. specialize (Hm1 eq_refl). lia.
    + unfold wret, writeUnpacked, sbind, on_ctx, on_stream. rewrite He by reflexivity. cbn [wbits].
      rewrite <- !app_assoc. reflexivity.
Qed.

(** What reading the bits of one element gives. *)
Definition next_rctx {A} (T : traits A) (cw cr : dctx) (e : A) : dctx :=
  if negb (d_started cr) then
    set_prev (t_as T e)
      (if d_packed (finishInit cw) then set_max (d_max cw) (set_packed true (set_started cr))
       else set_packed false (set_started cr))
  else if d_packed cr && (d_max cr <=? 0) then cr
  else set_prev (t_as T e) cr.

Lemma read_delta_value : forall p u m, 0 <= p < 2 ^ 64 -> 0 <= u < 2 ^ 64 ->
  0 <= m <= 62 -> Z.abs (u - p) < 2 ^ m -> u64 (i64 (i64 p + (u - p))) = u.
Proof.
  intros p u m Hp Hu Hm Hd. unfold u64, i64, to_u.
  rewrite (to_s_mod 64) by lia.
  rewrite <- Z.add_mod_idemp_l by lia. rewrite (to_s_mod 64) by lia. rewrite Z.add_mod_idemp_l by lia.
  replace (p + (u - p)) with u by lia. apply Z.mod_small. lia.
Qed.

(** The element that comes back: a difference only carries the number. *)
Definition read_back {A} (T : traits A) (c : dctx) (e : A) : A :=
  if d_started c && d_packed c then t_from T (t_as T e) else e.

Lemma read_back_same : forall {A} (T : traits A) c e, number_ok T e -> read_back T c e = e.
Proof. intros A T c e [_ H]. unfold read_back. destruct (_ && _); [exact H|reflexivity]. Qed.

Lemma read_step_any : forall {A} (T : traits A) cw cr enc e todo pos rest,
  element_ok T enc e -> numbered T e -> in_step cw cr (t_as T e :: todo) ->
  d_read T (cr, mkR pos (step_bits T cw enc e ++ rest)) =
    ((next_rctx T cw cr e, mkR (pos + length (step_bits T cw enc e)) rest), Ok (read_back T cw e)).
Proof.
  intros A T cw cr enc e todo pos rest [_ Hdec] Hn [(Hs & -> & Hp)|(Hsw & Hsr & Hpk & Hp)];
    unfold read_back; rewrite ?Hs, ?Hsw; cbn [andb].
  - unfold d_read, sbind, get_ctx. cbn [fst d_empty d_started negb].
    unfold step_bits, next_rctx. rewrite Hs. cbn [negb d_empty d_started].
    unfold on_ctx at 1. unfold signore.
    unfold ReadDescriptor.
    destruct (d_packed (finishInit cw)) eqn:Ep.
    + destruct (Hp eq_refl) as [Hm Hf].
      change ((true :: bits_of 6 (d_max cw)) ++ enc) with ([true] ++ (bits_of 6 (d_max cw) ++ enc)).
      rewrite <- !app_assoc. rewrite (decodes_read_bool true).
      change (Z.to_nat maxBitNumberBits) with 6%nat.
      rewrite (decodes_read_bits_of 6 (d_max cw)); [|lia|change (2 ^ Z.of_nat 6) with 64; lia].
      unfold readUnpacked, sbind, on_stream. rewrite Hdec. unfold on_ctx, sret.
      rewrite !app_length. cbn [set_started set_packed set_max set_prev d_prev d_max d_unpacked d_first d_num d_packed d_started length].
      do 3 f_equal. lia.
    + cbn [app]. change (false :: enc ++ rest) with ([false] ++ (enc ++ rest)).
      rewrite (decodes_read_bool false).
      unfold readUnpacked, sbind, on_stream. rewrite Hdec. unfold on_ctx, sret.
      cbn [set_started set_packed set_max set_prev d_prev d_max d_unpacked d_first d_num d_packed d_started length].
      do 3 f_equal. lia.
  - unfold d_read, sbind, get_ctx. cbn [fst]. unfold step_bits, next_rctx. rewrite Hsw, Hsr. cbn [negb].
    rewrite <- Hpk. destruct (d_packed cw) eqn:Ep; cbn [negb andb].
    + destruct (Hp eq_refl) as (p & Hpw & Hpr & Hprange & Hmax & Hm & Hf). rewrite Hpw, Hpr, <- Hmax.
      cbn [map fits] in Hf. destruct Hf as [Hd _].
      destruct (0 <? d_max cw) eqn:E0.
      * replace (d_max cw <=? 0) with false by lia. unfold delta_cost. replace (d_max cw =? 0) with false by lia.
        unfold to_u. rewrite (Z.mod_small (d_max cw + 1)) by lia. unfold on_stream.
        assert (Hb : - 2 ^ (d_max cw + 1 - 1) <= t_as T e - p < 2 ^ (d_max cw + 1 - 1)).
        { replace (d_max cw + 1 - 1) with (d_max cw) by lia. lia. }
        rewrite (ReadSignedBits_ok (t_as T e - p) (d_max cw + 1) ltac:(lia) Hb).
        unfold on_ctx, sret. rewrite (read_delta_value p (t_as T e) (d_max cw)) by assumption.
        reflexivity.
      * replace (d_max cw <=? 0) with true by lia. unfold sret, delta_cost.
        replace (d_max cw =? 0) with true by lia. cbn [Z.to_nat bits_of app length]. rewrite Nat.add_0_r.
        assert (E1 : d_max cw = 0) by lia. rewrite E1 in Hd. cbn in Hd.
        replace p with (t_as T e) by lia. reflexivity.
    + unfold readUnpacked, sbind, on_stream. rewrite Hdec. unfold on_ctx, sret. reflexivity.
Qed.

Lemma read_step : forall {A} (T : traits A) cw cr enc e todo pos rest,
  element_ok T enc e -> number_ok T e -> in_step cw cr (t_as T e :: todo) ->
  d_read T (cr, mkR pos (step_bits T cw enc e ++ rest)) =
    ((next_rctx T cw cr e, mkR (pos + length (step_bits T cw enc e)) rest), Ok e).
Proof.
  intros A T cw cr enc e todo pos rest He Hn Hs.
  rewrite (read_step_any T cw cr enc e todo pos rest He (proj1 Hn) Hs). now rewrite read_back_same.
Qed.

Lemma step_in_step : forall {A} (T : traits A) cw cr e todo,
  numbered T e -> in_step cw cr (t_as T e :: todo) ->
  in_step (next_ctx T cw e) (next_rctx T cw cr e) todo.
Proof.
  intros A T cw cr e todo Hn; unfold numbered in Hn; intros [(Hs & -> & Hp)|(Hsw & Hsr & Hpk & Hp)].
  - right. unfold next_ctx, next_rctx. rewrite Hs. cbn [negb d_empty d_started]. rewrite finishInit_started.
    destruct (finishInit_fields cw) as (F1 & F2 & F3).
    destruct (d_packed (finishInit cw)) eqn:Ep; cbn [set_started set_packed set_max set_prev d_prev d_max d_unpacked d_first d_num d_packed d_started].
    + destruct (Hp eq_refl) as [Hm Hf]. repeat split; try assumption; try reflexivity.
      intros _. exists (t_as T e). rewrite F2. repeat split; try assumption; try lia; reflexivity.
    + repeat split; try assumption; try reflexivity. rewrite Ep. discriminate.
  - right. unfold next_ctx, next_rctx. rewrite Hsw, Hsr, <- Hpk. cbn [negb].
    destruct (d_packed cw) eqn:Ep; cbn [andb].
    + destruct (Hp eq_refl) as (p & Hpw & Hpr & Hprange & Hmax & Hm & Hf). rewrite <- Hmax.
      cbn [map fits] in Hf. destruct Hf as [Hd Hf].
      destruct (d_max cw <=? 0) eqn:E0.
      * rewrite Ep, Hsw, Hsr, <- Hpk. repeat split; try reflexivity. intros _. exists p.
        assert (E1 : d_max cw = 0) by lia. assert (t_as T e = p) by (rewrite E1 in Hd; cbn in Hd; lia).
        subst p. repeat split; try assumption; lia.
      * cbn [set_started set_packed set_max set_prev d_prev d_max d_unpacked d_first d_num d_packed d_started].
        rewrite Hsw, Hsr, <- Hpk, Ep. repeat split; try reflexivity. intros _. exists (t_as T e).
        repeat split; try assumption; try reflexivity; lia.
    + cbn [set_started set_packed set_max set_prev d_prev d_max d_unpacked d_first d_num d_packed d_started].
      rewrite Hsw, Hsr, <- Hpk, Ep. repeat split; try reflexivity. discriminate.
Qed.

(** A context is ready for the sequence it was initialised with. *)
Lemma init_in_step : forall {A} (T : traits A) es c,
  Forall (sized T) es -> Forall (numbered T) es -> d_init_all T es d_empty = Ok c ->
  in_step c d_empty (map (t_as T) es) /\ 0 <= d_max c.
Proof.
  intros A T [|e es] c Hs Hn H.
  - cbn in H. injection H as <-. split; [|cbn; lia]. left. repeat split; cbn; lia.
  - destruct (finish_packed T e es c Hs Hn H) as (H1 & H2 & H3). split.
    + left. split; [exact H3|]. split; [reflexivity|]. intros Hp. destruct (H2 Hp) as [E1 E2]. cbn [map].
      pose proof (width_nonneg (map (t_as T) es) (t_as T e)). split; [lia|]. apply width_fits; lia.
    + rewrite (init_all T e es Hs Hn) in H. injection H as <-. cbn. apply mx_ge.
Qed.

(** ** Whole sequences *)

Fixpoint run_bits {A} (T : traits A) (enc : A -> list bool) (c : dctx) (es : list A) : list bool :=
  match es with
  | [] => []
  | e :: es' => step_bits T c (enc e) e ++ run_bits T enc (next_ctx T c e) es'
  end.

Lemma in_step_write : forall {A} (T : traits A) cw cr e todo enc w,
  0 <= d_max cw -> wfaults w = [] -> encodes (t_write T e) enc -> in_step cw cr (t_as T e :: todo) ->
  d_write T e (cw, w) = ((next_ctx T cw e, mkW (wbits w ++ step_bits T cw enc e) []), Ok tt).
Proof.
  intros A T cw cr e todo enc w Hm Hw He Hst. apply write_step; try assumption.
  - intros Hp. destruct Hst as [(Hs & -> & H)|(Hsw & Hsr & Hpk & H)]; [apply H, Hp|].
    assert (H0 : d_packed cw = true).
    { destruct (d_packed cw) eqn:E; [reflexivity|]. unfold finishInit in Hp. rewrite E in Hp. congruence. }
    destruct (H H0) as (p & ? & ? & ? & ? & ? & ?). lia.
  - intros Hs1 Hp1. destruct Hst as [(Hs & -> & H)|(Hsw & Hsr & Hpk & H)]; [congruence|].
    destruct (H Hp1) as (p & ? & ? & ? & ? & ? & ?). exists p. split; [assumption|lia].
Qed.

Lemma next_max : forall {A} (T : traits A) c e, d_max (next_ctx T c e) = d_max c.
Proof.
  intros A T c e. unfold next_ctx. destruct (d_started c); cbn [negb].
  - destruct (_ && _); reflexivity.
  - cbn [set_prev d_max]. destruct (finishInit_fields (set_started c)) as (_ & H & _). exact H.
Qed.

Lemma write_all_ok : forall {A} (T : traits A) (enc : A -> list bool) es cw cr w,
  Forall (fun e => encodes (t_write T e) (enc e)) es -> Forall (number_ok T) es ->
  0 <= d_max cw -> wfaults w = [] -> in_step cw cr (map (t_as T) es) ->
  exists c', d_write_all T es (cw, w) = ((c', mkW (wbits w ++ run_bits T enc cw es) []), Ok tt).
Proof.
  intros A T enc. induction es as [|e es IH]; intros cw cr w He Hn Hm Hw Hst.
  - exists cw. cbn. unfold sret. rewrite app_nil_r. destruct w as [wb wf]; cbn in *; now subst wf.
  - apply Forall_cons_iff in He as [He1 He2]. apply Forall_cons_iff in Hn as [Hn1 Hn2].
    cbn [d_write_all run_bits]. unfold sbind.
    rewrite (in_step_write T cw cr e (map (t_as T) es) (enc e) w Hm Hw He1 Hst).
    destruct (IH (next_ctx T cw e) (next_rctx T cw cr e) (mkW (wbits w ++ step_bits T cw (enc e) e) []) He2 Hn2)
      as [c' Hc']; [now rewrite next_max|reflexivity|apply step_in_step; [apply Hn1|exact Hst]|].
    exists c'. rewrite Hc'. cbn [wbits]. now rewrite app_assoc.
Qed.

Lemma read_n_ok : forall {A} (T : traits A) (enc : A -> list bool) es cw cr pos rest,
  Forall (fun e => element_ok T (enc e) e) es -> Forall (number_ok T) es ->
  in_step cw cr (map (t_as T) es) ->
  exists c', d_read_n T (length es) (cr, mkR pos (run_bits T enc cw es ++ rest)) =
    ((c', mkR (pos + length (run_bits T enc cw es)) rest), Ok es).
Proof.
  intros A T enc. induction es as [|e es IH]; intros cw cr pos rest He Hn Hst.
  - exists cr. cbn. unfold sret. now rewrite Nat.add_0_r.
  - apply Forall_cons_iff in He as [He1 He2]. apply Forall_cons_iff in Hn as [Hn1 Hn2].
    cbn [length d_read_n run_bits]. unfold sbind. rewrite <- app_assoc.
    rewrite (read_step T cw cr (enc e) e (map (t_as T) es) pos _ He1 Hn1 Hst).
    destruct (IH (next_ctx T cw e) (next_rctx T cw cr e) (pos + length (step_bits T cw (enc e) e))%nat rest He2 Hn2)
      as [c' Hc']; [apply step_in_step; [apply Hn1|exact Hst]|].
    exists c'. rewrite Hc'. unfold sret. rewrite app_length, Nat.add_assoc. reflexivity.
Qed.

Lemma number_ok_numbered : forall {A} (T : traits A) es, Forall (number_ok T) es -> Forall (numbered T) es.
Proof. intros A T es H. eapply Forall_impl; [|exact H]. now intros a [H1 _]. Qed.

Lemma element_ok_encodes : forall {A} (T : traits A) (enc : A -> list bool) es,
  Forall (fun e => element_ok T (enc e) e) es -> Forall (fun e => encodes (t_write T e) (enc e)) es.
Proof. intros A T enc es H. eapply Forall_impl; [|exact H]. now intros a [H1 _]. Qed.

(** The bits of a run are the specified wire format. *)
Lemma run_packed : forall {A} (T : traits A) enc es c p,
  d_started c = true -> d_packed c = true -> d_prev c = Some p -> fits (d_max c) p (map (t_as T) es) -> 0 <= d_max c ->
  run_bits T enc c es =
    concat (map (fun q => bits_of (Z.to_nat (delta_cost (d_max c))) (snd q - fst q)) (neighbours (p :: map (t_as T) es))).
Proof.
  intros A T enc. induction es as [|e es IH]; intros c p Hs Hp Hpr Hf Hm; [reflexivity|].
  cbn [map fits] in Hf. destruct Hf as [Hf1 Hf2].
  change (neighbours (p :: map (t_as T) (e :: es))) with ((p, t_as T e) :: neighbours (t_as T e :: map (t_as T) es)).
  cbn [run_bits map concat fst snd]. unfold step_bits at 1. rewrite Hs, Hp, Hpr. cbn [negb]. f_equal.
  rewrite (IH (next_ctx T c e) (t_as T e)).
  - now rewrite next_max.
  - unfold next_ctx. rewrite Hs. cbn [negb]. destruct (_ && _); exact Hs.
  - unfold next_ctx. rewrite Hs. cbn [negb]. destruct (_ && _); exact Hp.
  - unfold next_ctx. rewrite Hs, Hp. cbn [negb andb]. destruct (d_max c <=? 0) eqn:E0; [|reflexivity].
    rewrite Hpr. f_equal. assert (E1 : d_max c = 0) by lia. rewrite E1 in Hf1. cbn in Hf1. lia.
  - now rewrite next_max.
  - now rewrite next_max.
Qed.

Lemma run_plain : forall {A} (T : traits A) enc es c,
  d_started c = true -> d_packed c = false -> run_bits T enc c es = concat (map enc es).
Proof.
  intros A T enc. induction es as [|e es IH]; intros c Hs Hp; [reflexivity|].
  cbn [run_bits map concat]. unfold step_bits. rewrite Hs, Hp. cbn [negb]. f_equal.
  apply IH; unfold next_ctx; rewrite Hs, Hp; cbn; assumption.
Qed.

Lemma run_wire : forall {A} (T : traits A) enc e es c,
  Forall (sized T) (e :: es) -> Forall (numbered T) (e :: es) ->
  d_init_all T (e :: es) d_empty = Ok c ->
  run_bits T enc c (e :: es) =
    delta_wire (map enc (e :: es)) (map (size_of T) (e :: es)) (map (t_as T) (e :: es))
               (width (t_as T e) (map (t_as T) es)).
Proof.
  intros A T enc e es c Hs Hn H. destruct (finish_packed T e es c Hs Hn H) as (H1 & H2 & H3).
  unfold delta_wire. rewrite <- H1. cbn [run_bits]. unfold step_bits at 1. rewrite H3. cbn [negb].
  destruct (finishInit_fields c) as (F1 & F2 & F3).
  assert (Eq : next_ctx T c e = set_prev (t_as T e) (set_started (finishInit c))).
  { unfold next_ctx. rewrite H3. cbn [negb]. now rewrite finishInit_started. }
  destruct (d_packed (finishInit c)) eqn:Ep.
  - destruct (H2 eq_refl) as [E1 E2]. pose proof (width_nonneg (map (t_as T) es) (t_as T e)).
    unfold packed_wire. cbn [map hd]. rewrite <- E1. cbn [app]. f_equal. rewrite <- app_assoc. f_equal. f_equal.
    rewrite Eq. erewrite run_packed; [|reflexivity|exact Ep|reflexivity| |].
    + cbn [set_prev set_started d_max]. now rewrite F2.
    + cbn [set_prev set_started d_max]. rewrite F2, E1. apply width_fits; lia.
    + cbn [set_prev set_started d_max]. lia.
  - unfold plain_wire. cbn [map concat app]. f_equal. f_equal. rewrite Eq. apply run_plain; [reflexivity|exact Ep].
Qed.

(** ** Round trip of a sequence *)
Theorem delta_roundtrip : forall {A} (T : traits A) (enc : A -> list bool) e es,
  Forall (fun e => element_ok T (enc e) e) (e :: es) -> Forall (number_ok T) (e :: es) ->
  Forall (sized T) (e :: es) ->
  roundtrips (delta_marshal T (e :: es)) (delta_unmarshal T (length (e :: es)))
    (delta_wire (map enc (e :: es)) (map (size_of T) (e :: es)) (map (t_as T) (e :: es))
               (width (t_as T e) (map (t_as T) es))) (e :: es).
Proof.
  intros A T enc e es He Hn Hs. pose proof (number_ok_numbered T _ Hn) as Hn'.
  pose proof (init_all T e es Hs Hn') as Hi. cbn zeta in Hi.
  match type of Hi with _ = Ok ?c => set (c0 := c) in * end.
  destruct (init_in_step T (e :: es) c0 Hs Hn' Hi) as [Hst Hm].
  rewrite <- (run_wire T enc e es c0 Hs Hn' Hi). split.
  - intros w Hw. unfold delta_marshal. rewrite Hi. unfold with_ctx.
    destruct (write_all_ok T enc (e :: es) c0 d_empty w (element_ok_encodes T enc _ He) Hn Hm Hw Hst) as [c' ->].
    reflexivity.
  - intros pos rest. unfold delta_unmarshal, with_ctx.
    destruct (read_n_ok T enc (e :: es) c0 d_empty pos rest He Hn Hst) as [c' ->]. reflexivity.
Qed.
