(** Types of arithmetic and of bit fields. *)

Require Import ZArith String Ascii List Bool Lia ZifyBool ZifyNat.
From Verif Require Import Bits AstExpr AstTypes AstTypesSpec.
Import ListNotations.
Open Scope Z_scope.

(** What matters about an integer type: its rank, its sign and its Go type. *)
Definition fits (signed : bool) (r v : Z) : Prop := if signed then - 2 ^ (r - 1) <= v < 2 ^ (r - 1) else 0 <= v < 2 ^ r.

Definition regular (t : tref) : Prop :=
  exists r g lo hi, rank_of t = Some r /\ 1 <= r <= 64 /\ GoType t = Some g /\ In (g, (lo, hi)) go_range /\
    (is_signed (t_name t) = (lo <? 0)) /\ (forall v, fits (is_signed (t_name t)) r v -> lo <= v < hi).

Lemma fits_mono : forall s r r' v, 1 <= r <= r' -> fits s r v -> fits s r' v.
Proof.
  intros [] r r' v Hr H; cbn in *.
  - assert (2 ^ (r - 1) <= 2 ^ (r' - 1)) by (apply Z.pow_le_mono_r; lia). lia.
  - assert (2 ^ r <= 2 ^ r') by (apply Z.pow_le_mono_r; lia). lia.
Qed.
Lemma fits_nonneg : forall s r v, 1 <= r -> 0 <= v -> fits s r v -> fits false r v.
Proof.
  intros [] r v Hr Hv H; cbn in *; [|exact H]. assert (2 ^ (r - 1) <= 2 ^ r) by (apply Z.pow_le_mono_r; lia). lia.
Qed.

Lemma named_regular : forall n r, In (n, r) named_range ->
  regular (mkT n 0 false) /\ (forall v k, in_range r v -> rank_of (mkT n 0 false) = Some k -> fits (is_signed n) k v) /\
  (is_signed n = true -> exists n', to_unsigned n = Some n' /\ regular (mkT n' 0 false) /\ is_signed n' = false /\
     forall k, rank_of (mkT n 0 false) = Some k -> exists k', rank_of (mkT n' 0 false) = Some k' /\ k <= k').
Proof.
  intros n r H. unfold named_range in H.
  assert (R : forall n0 rk g lo hi, rank_of (mkT n0 0 false) = Some rk -> 1 <= rk <= 64 -> GoType (mkT n0 0 false) = Some g ->
    In (g, (lo, hi)) go_range -> is_signed n0 = (lo <? 0) -> (forall v, fits (is_signed n0) rk v -> lo <= v < hi) -> regular (mkT n0 0 false)).
  { intros n0 rk g lo hi H1 H2 H3 H4 H5 H6. exists rk, g, lo, hi. repeat (split; [assumption|]). assumption. }
  repeat (destruct H as [H|H]; [injection H as <- <-|]); try contradiction;
  (split; [eapply R; [reflexivity|lia|reflexivity|cbn; tauto|reflexivity|intros v Hv; cbn in *; lia]|]);
  (split; [intros v k Hv Hk; injection Hk as <-; unfold in_range in Hv; cbn in *; lia|]);
  try discriminate;
  (intros _; eexists; split; [reflexivity|]; split; [eapply R; [reflexivity|lia|reflexivity|cbn; tauto|reflexivity|intros v Hv; cbn in *; lia]|]; split; [reflexivity|];
   intros k Hk; injection Hk as <-; eexists; split; [reflexivity|lia]).
Qed.

Lemma bit_regular : forall n, 1 <= n <= 64 -> regular (mkT "bit" n false) /\ rank_of (mkT "bit" n false) = Some n.
Proof.
  intros n Hn.
  assert (Hr : rank_of (mkT "bit" n false) = Some n) by (unfold rank_of; cbn; destruct (n =? 0) eqn:E; [lia|reflexivity]).
  split; [|exact Hr]. unfold regular.
  assert (P : forall w, n <= w -> 2 ^ n <= 2 ^ w) by (intros w Hw; apply Z.pow_le_mono_r; lia).
  assert (G : GoType (mkT "bit" n false) = Some ("uint" ++ goBits n)%string) by reflexivity. rewrite Hr, G. unfold goBits.
  destruct (n =? 0) eqn:E0; [lia|].
  destruct (n <=? 8) eqn:E8; [exists n, "uint8"%string, 0, (2 ^ 8)|destruct (n <=? 16) eqn:E16; [exists n, "uint16"%string, 0, (2 ^ 16)|
    destruct (n <=? 32) eqn:E32; [exists n, "uint32"%string, 0, (2 ^ 32)|exists n, "uint64"%string, 0, (2 ^ 64)]]];
  (split; [reflexivity|]; split; [lia|]; split; [reflexivity|]; split; [cbn; tauto|]; split; [reflexivity|]; intros v Hv; cbn [t_name] in Hv;
   change (is_signed "bit") with false in Hv; unfold fits in Hv).
  - specialize (P 8 ltac:(lia)). lia.
  - specialize (P 16 ltac:(lia)). lia.
  - specialize (P 32 ltac:(lia)). lia.
  - specialize (P 64 ltac:(lia)). lia.
Qed.
Lemma int_regular : forall n, 1 <= n <= 64 -> regular (mkT "int" n false) /\ rank_of (mkT "int" n false) = Some n.
Proof.
  intros n Hn.
  assert (Hr : rank_of (mkT "int" n false) = Some n) by (unfold rank_of; cbn; destruct (n =? 0) eqn:E; [lia|reflexivity]).
  split; [|exact Hr]. unfold regular.
  assert (P : forall w, n <= w -> 2 ^ (n - 1) <= 2 ^ (w - 1)) by (intros w Hw; apply Z.pow_le_mono_r; lia).
  assert (G : GoType (mkT "int" n false) = Some ("int" ++ goBits n)%string) by reflexivity. rewrite Hr, G. unfold goBits.
  destruct (n =? 0) eqn:E0; [lia|].
  destruct (n <=? 8) eqn:E8; [exists n, "int8"%string, (- 2 ^ 7), (2 ^ 7)|destruct (n <=? 16) eqn:E16; [exists n, "int16"%string, (- 2 ^ 15), (2 ^ 15)|
    destruct (n <=? 32) eqn:E32; [exists n, "int32"%string, (- 2 ^ 31), (2 ^ 31)|exists n, "int64"%string, (- 2 ^ 63), (2 ^ 63)]]];
  (split; [reflexivity|]; split; [lia|]; split; [reflexivity|]; split; [cbn; tauto|]; split; [reflexivity|]; intros v Hv; cbn [t_name] in Hv;
   change (is_signed "int") with true in Hv; unfold fits in Hv).
  - specialize (P 8 ltac:(lia)). change (8 - 1) with 7 in P. lia.
  - specialize (P 16 ltac:(lia)). change (16 - 1) with 15 in P. lia.
  - specialize (P 32 ltac:(lia)). change (32 - 1) with 31 in P. lia.
  - specialize (P 64 ltac:(lia)). change (64 - 1) with 63 in P. lia.
Qed.
Lemma dynamic_regular : forall n, In n ["bit"; "int"]%string -> regular (mkT n 0 true) /\ rank_of (mkT n 0 true) = Some 64.
Proof.
  intros n [<-|[<-|[]]]; (split; [|reflexivity]).
  - exists 64, "uint64"%string, 0, (2 ^ 64). repeat (split; [first [reflexivity|lia|cbn; tauto]|]). intros v Hv. cbn in *. lia.
  - exists 64, "int64"%string, (- 2 ^ 63), (2 ^ 63). repeat (split; [first [reflexivity|lia|cbn; tauto]|]). intros v Hv. cbn in *. lia.
Qed.

Lemma type_regular : forall t r, int_type_range t r ->
  regular t /\ (forall v k, in_range r v -> rank_of t = Some k -> fits (is_signed (t_name t)) k v) /\
  (is_signed (t_name t) = true -> exists n, to_unsigned (t_name t) = Some n /\ regular (mkT n (t_bits t) (t_dynamic t)) /\ is_signed n = false /\
     forall k, rank_of t = Some k -> exists k', rank_of (mkT n (t_bits t) (t_dynamic t)) = Some k' /\ k <= k').
Proof.
  intros t r H. destruct H as [n r H|n H|n H| |].
  - exact (named_regular n r H).
  - destruct (bit_regular n H) as (R & K). split; [exact R|]. split; [|discriminate]. intros v k Hv Hk. rewrite K in Hk. injection Hk as <-. exact Hv.
  - destruct (int_regular n H) as (R & K). destruct (bit_regular n H) as (R' & K'). split; [exact R|]. split.
    + intros v k Hv Hk. rewrite K in Hk. injection Hk as <-. exact Hv.
    + intros _. exists "bit"%string. split; [reflexivity|]. split; [exact R'|]. split; [reflexivity|]. intros k Hk. rewrite K in Hk. injection Hk as <-.
      exists n. split; [exact K'|lia].
  - destruct (dynamic_regular "bit") as (R & K); [cbn; tauto|]. split; [exact R|]. split; [|discriminate]. intros v k Hv Hk. rewrite K in Hk. injection Hk as <-. exact Hv.
  - destruct (dynamic_regular "int") as (R & K); [cbn; tauto|]. destruct (dynamic_regular "bit") as (R' & K'); [cbn; tauto|]. split; [exact R|]. split.
    + intros v k Hv Hk. rewrite K in Hk. injection Hk as <-. exact Hv.
    + intros _. exists "bit"%string. split; [reflexivity|]. split; [exact R'|]. split; [reflexivity|]. intros k Hk. rewrite K in Hk. injection Hk as <-.
      exists 64. split; [exact K'|lia].
Qed.

Lemma range_sign : forall t r, int_type_range t r -> is_signed (t_name t) = (fst r <? 0).
Proof.
  intros t r H. destruct H as [n r H|n H|n H| |]; try reflexivity.
  - unfold named_range in H. repeat (destruct H as [H|H]; [injection H as <- <-; reflexivity|]). contradiction.
  - cbn. symmetry. assert (0 < 2 ^ (n - 1)) by (apply Z.pow_pos_nonneg; lia). lia.
Qed.

Lemma mixed_type : forall x y rx ry, int_type_range x rx -> int_type_range y ry ->
  exists t g lo hi, mix_int (Some x) (Some y) = Some (Some t) /\ GoType t = Some g /\ In (g, (lo, hi)) go_range /\
  (lo < 0 <-> fst rx < 0 /\ fst ry < 0) /\
  (forall v, in_range rx v \/ in_range ry v -> 0 <= v \/ (fst rx < 0 /\ fst ry < 0) -> lo <= v < hi).
Proof.
  intros x y rx ry Hx Hy.
  destruct (type_regular x rx Hx) as ((kx & gx & lx & hx & Kx & Bx & Gx & Ix & Sx & Fx) & Vx & Ux).
  destruct (type_regular y ry Hy) as ((ky & gy & ly & hy & Ky & By & Gy & Iy & Sy & Fy) & Vy & Uy).
  pose proof (range_sign x rx Hx) as Rx. pose proof (range_sign y ry Hy) as Ry.
  unfold mix_int. destruct (same_native (Some x) (Some y)) eqn:Es.
  - assert (x = y). { destruct x as [nx bx dx], y as [ny by' dy]. cbn in Es. apply andb_prop in Es. destruct Es as (Es & E4).
      apply andb_prop in Es. destruct Es as (Es & E3). apply andb_prop in Es. destruct Es as (E1 & E2).
      apply String.eqb_eq in E1. subst. f_equal; [lia|]. destruct dx, dy; cbn in *; congruence. }
    subst y. exists x, gx, lx, hx. split; [reflexivity|]. split; [exact Gx|]. split; [exact Ix|]. split; [lia|].
    intros v Hv _. apply Fx. destruct Hv as [Hv|Hv]; [exact (Vx v kx Hv Kx)|exact (Vy v kx Hv Kx)].
  - rewrite Kx, Ky.
    (* a type [t] whose rank is at least both *)
    assert (Main : forall t kt gt lt ht, rank_of t = Some kt -> kx <= kt -> ky <= kt -> 1 <= kt -> GoType t = Some gt -> In (gt, (lt, ht)) go_range ->
      is_signed (t_name t) = (lt <? 0) -> (forall v, fits (is_signed (t_name t)) kt v -> lt <= v < ht) ->
      is_signed (t_name t) = is_signed (t_name x) && is_signed (t_name y) ->
      (lt < 0 <-> fst rx < 0 /\ fst ry < 0) /\
      (forall v, in_range rx v \/ in_range ry v -> 0 <= v \/ (fst rx < 0 /\ fst ry < 0) -> lt <= v < ht)).
    { intros t kt gt lt ht Kt Hkx Hky Hkt Gt It St Ft Hs. split; [lia|]. intros v Hv Hor. apply Ft.
      assert (Hone : forall s k, k <= kt -> 1 <= k -> fits s k v -> (s = true -> is_signed (t_name t) = true \/ 0 <= v) -> (s = false -> is_signed (t_name t) = true -> False) -> fits (is_signed (t_name t)) kt v).
      { intros s k Hk Hk1 Hf Hs1 Hs2. destruct s, (is_signed (t_name t)) eqn:Et.
        - exact (fits_mono true k kt v (conj Hk1 Hk) Hf).
        - apply (fits_mono false k kt v (conj Hk1 Hk)). apply (fits_nonneg true); auto. destruct (Hs1 eq_refl); [discriminate|assumption].
        - exfalso. auto.
        - exact (fits_mono false k kt v (conj Hk1 Hk) Hf). }
      destruct Hv as [Hv|Hv].
      - apply (Hone (is_signed (t_name x)) kx); [assumption|lia|exact (Vx v kx Hv Kx)| |].
        + intros Hsx. destruct Hor as [Hor|Hor]; [right; exact Hor|left; lia].
        + intros Hsx Hst. rewrite Hs, Hsx in Hst. discriminate.
      - apply (Hone (is_signed (t_name y)) ky); [assumption|lia|exact (Vy v ky Hv Ky)| |].
        + intros Hsx. destruct Hor as [Hor|Hor]; [right; exact Hor|left; lia].
        + intros Hsx Hst. rewrite Hs, Hsx, andb_false_r in Hst. discriminate. }
    assert (One : forall t kt gt lt ht, rank_of t = Some kt -> kx <= kt -> ky <= kt -> 1 <= kt -> GoType t = Some gt -> In (gt, (lt, ht)) go_range ->
      is_signed (t_name t) = (lt <? 0) -> (forall v, fits (is_signed (t_name t)) kt v -> lt <= v < ht) ->
      (is_signed (t_name t) = false -> is_signed (t_name x) && is_signed (t_name y) = false) ->
      (is_signed (t_name t) = true -> exists n, to_unsigned (t_name t) = Some n /\ regular (mkT n (t_bits t) (t_dynamic t)) /\ is_signed n = false /\
        forall k, rank_of t = Some k -> exists k', rank_of (mkT n (t_bits t) (t_dynamic t)) = Some k' /\ k <= k') ->
      exists t' g lo hi,
        (if Bool.eqb (is_signed (t_name t)) (is_signed (t_name x) && is_signed (t_name y)) then Some (Some t)
          else match to_unsigned (t_name t) with
               | Some n => Some (Some (mkT n (t_bits t) (t_dynamic t)))
               | None => None
               end) = Some (Some t') /\ GoType t' = Some g /\ In (g, (lo, hi)) go_range /\
        (lo < 0 <-> fst rx < 0 /\ fst ry < 0) /\
        (forall v, in_range rx v \/ in_range ry v -> 0 <= v \/ (fst rx < 0 /\ fst ry < 0) -> lo <= v < hi)).
    { intros t kt gt lt ht Kt Hkx Hky Hkt Gt It St Ft Hfalse Ht. destruct (Bool.eqb _ _) eqn:Ee.
      - apply Bool.eqb_prop in Ee. exists t, gt, lt, ht. split; [reflexivity|]. split; [exact Gt|]. split; [exact It|].
        exact (Main t kt gt lt ht Kt Hkx Hky Hkt Gt It St Ft Ee).
      - destruct (is_signed (t_name t)) eqn:Et; [|rewrite (Hfalse eq_refl) in Ee; discriminate].
        destruct (Ht eq_refl) as (n & Hn & (k' & g' & l' & h' & Kt' & Bt' & Gt' & It' & St' & Ft') & Hsn & Hk). rewrite Hn.
        destruct (Hk kt Kt) as (k'' & Kt'' & Hle). assert (k'' = k') by congruence. subst k''.
        exists (mkT n (t_bits t) (t_dynamic t)), g', l', h'. split; [reflexivity|]. split; [exact Gt'|]. split; [exact It'|].
        eapply (Main _ k' g' l' h'); eauto; try lia. cbn [t_name]. rewrite Hsn. destruct (is_signed (t_name x) && is_signed (t_name y)); [discriminate|reflexivity]. }
    destruct (ky <=? kx) eqn:Ek.
    + apply (One x kx gx lx hx); auto; lia.
    + apply (One y ky gy ly hy); auto; lia.
Qed.

(** ** Bit field references *)

Lemma digit_char_digit : forall d, (d <= 9)%nat -> digit (digit_char d) = Some (Z.of_nat d).
Proof. intros d Hd. do 10 (destruct d as [|d]; [reflexivity|]). lia. Qed.

Lemma fold_mono : forall ds n, 0 <= n -> n <= fold_left (fun n d => n * 10 + Z.of_nat d) ds n.
Proof. induction ds as [|d ds IH]; intros n Hn; cbn [fold_left]; [lia|]. specialize (IH (n * 10 + Z.of_nat d)). lia. Qed.

Lemma parse_text : forall ds n, Forall (fun d => (d <= 9)%nat) ds -> 0 <= n <= 255 ->
  parse_digits (text_of ds) n = Z.min 255 (fold_left (fun n d => n * 10 + Z.of_nat d) ds n).
Proof.
  induction ds as [|d ds IH]; intros n Hd Hn; cbn [text_of parse_digits fold_left]; [lia|].
  inversion Hd as [|? ? H1 H2]; subst. rewrite digit_char_digit by exact H1.
  destruct (255 <? n * 10 + Z.of_nat d) eqn:E; [|apply IH; [assumption|lia]].
  pose proof (fold_mono ds (n * 10 + Z.of_nat d)). lia.
Qed.

Lemma parse_number : forall ds, ds <> [] -> Forall (fun d => (d <= 9)%nat) ds -> ParseUint8 (text_of ds) = Z.min 255 (number_of ds).
Proof.
  intros [|d ds] Hne Hd; [congruence|]. unfold ParseUint8, number_of. cbn [text_of].
  change (parse_digits (text_of (d :: ds)) 0 = Z.min 255 (fold_left (fun n d => n * 10 + Z.of_nat d) (d :: ds) 0)). apply parse_text; [exact Hd|lia].
Qed.

Lemma cut_bit : forall s, cut_colon ("bit:" ++ s) = Some ("bit", s)%string.
Proof. reflexivity. Qed.
Lemma cut_int : forall s, cut_colon ("int:" ++ s) = Some ("int", s)%string.
Proof. reflexivity. Qed.

Lemma field_reference : forall (signed : bool) ds, ds <> [] -> Forall (fun d => (d <= 9)%nat) ds ->
  let n := number_of ds in
  let name := if signed then "int"%string else "bit"%string in
  let t := VisitTypeReference (name ++ ":" ++ text_of ds) in
  let standard := (n =? 8) || (n =? 16) || (n =? 32) || (n =? 64) in
  t_bits t = (if standard then 0 else Z.min 255 n) /\ t_dynamic t = false /\
  t_name t = (if standard then (if signed then "int" else "uint") ++ goBits n else name)%string /\
  GoType t = Some ((if signed then "int" else "uint") ++ goBits n)%string.
Proof.
  intros signed ds Hne Hd n name t standard.
  assert (Hn : 0 <= n) by (unfold n, number_of; apply fold_mono; lia).
  assert (Et : t = let bits := Z.min 255 n in
    let suffix := if bits =? 8 then "8"%string else if bits =? 16 then "16"%string else if bits =? 32 then "32"%string else "64"%string in
    if (bits =? 8) || (bits =? 16) || (bits =? 32) || (bits =? 64) then
      mkT ((if signed then "int" else "uint") ++ suffix) 0 false else mkT name bits false).
  { unfold t, n. rewrite <- (parse_number ds Hne Hd). unfold name. destruct signed; unfold VisitTypeReference.
    - change ("int" ++ ":" ++ text_of ds)%string with ("int:" ++ text_of ds)%string. rewrite cut_int. reflexivity.
    - change ("bit" ++ ":" ++ text_of ds)%string with ("bit:" ++ text_of ds)%string. rewrite cut_bit. reflexivity. }
  cbn zeta in Et. rewrite Et. clear Et t. unfold standard.
  assert (Eq : forall k, k < 255 -> (Z.min 255 n =? k) = (n =? k)) by (intros; lia). rewrite !Eq by lia.
  destruct (n =? 8) eqn:E8; [replace n with 8 by lia; destruct signed; repeat split; reflexivity|].
  destruct (n =? 16) eqn:E16; [replace n with 16 by lia; destruct signed; repeat split; reflexivity|].
  destruct (n =? 32) eqn:E32; [replace n with 32 by lia; destruct signed; repeat split; reflexivity|].
  destruct (n =? 64) eqn:E64; [replace n with 64 by lia; destruct signed; repeat split; reflexivity|].
  cbn [orb t_bits t_dynamic t_name].
  assert (G : goBits (Z.min 255 n) = goBits n).
  { destruct (n <=? 255) eqn:E; [replace (Z.min 255 n) with n by lia; reflexivity|]. unfold goBits.
    replace (Z.min 255 n) with 255 by lia. cbn. replace (n =? 0) with false by lia. replace (n <=? 8) with false by lia.
    replace (n <=? 16) with false by lia. replace (n <=? 32) with false by lia. reflexivity. }
  rewrite <- G. unfold name. destruct signed; repeat split; reflexivity.
Qed.

(** The Go type is the smallest one that holds the values. *)
Lemma go_bits_smallest : forall n, 1 <= n <= 64 ->
  exists w, In w [8; 16; 32; 64] /\ n <= w /\ (forall w', In w' [8; 16; 32; 64] -> n <= w' -> w <= w') /\
  In (("uint" ++ goBits n)%string, (0, 2 ^ w)) go_range /\ In (("int" ++ goBits n)%string, (- 2 ^ (w - 1), 2 ^ (w - 1))) go_range.
Proof.
  intros n Hn. unfold goBits. destruct (n =? 0) eqn:E0; [lia|].
  destruct (n <=? 8) eqn:E8; [exists 8|destruct (n <=? 16) eqn:E16; [exists 16|destruct (n <=? 32) eqn:E32; [exists 32|exists 64]]];
  (split; [cbn; tauto|]; split; [lia|]; split; [cbn; intros w' H; intuition lia|]; split; cbn; tauto).
Qed.
