(** Proofs about literals. *)

Require Import ZArith String Ascii List Bool Lia ZifyBool ZifyNat.
From Verif Require Import Bits Files Literals LiteralsSpec.
Import ListNotations.
Open Scope Z_scope.

(** ** Digits and numerals *)

Ltac digits H :=
  repeat match type of H with
  | nth_error _ ?d = Some _ => is_var d; destruct d as [|d]; [cbn in H; injection H as <-|cbn [nth_error str list_ascii_of_string] in H]
  end.

Lemma digit_byte : forall c d, digit c d ->
  digit_of c = Some (Z.of_nat d) /\ c <> "_"%char /\ (d < 16)%nat /\ (48 <= byte c <= 57 /\ byte c - 48 = Z.of_nat d <-> (d < 10)%nat).
Proof.
  intros c d [H|H];
  do 16 (destruct d as [|d]; [cbn in H; injection H as <-; (split; [reflexivity|]; split; [discriminate|]; split; [lia|]; cbv; split; [intros [[] ?]; lia || congruence|intro; repeat split; congruence || lia])|]);
  cbn in H; destruct d; discriminate.
Qed.

Lemma digit_unique : forall c d d', digit c d -> digit c d' -> d = d'.
Proof.
  intros c d d' H H'. destruct (digit_byte _ _ H) as [E _], (digit_byte _ _ H') as [E' _].
  rewrite E in E'. injection E' as E'. lia.
Qed.

Definition dval (c : ascii) : Z := match digit_of c with Some d => d | None => 0 end.
Definition okdigit (base : Z) (c : ascii) : Prop := exists d, digit c d /\ Z.of_nat d < base.
Definition number (base : Z) (t : text) (n : Z) : Z := fold_left (fun n c => n * base + dval c) t n.

Lemma numeral_number : forall base t z, numeral base t z -> Forall (okdigit base) t /\ z = number base t 0.
Proof.
  induction 1 as [|t z c d _ [IH ->] Hd Hb]; [now split|].
  unfold number in *. rewrite fold_left_app. cbn [fold_left].
  destruct (digit_byte _ _ Hd) as [E _]. unfold dval. rewrite E. split; [|reflexivity].
  apply Forall_app. split; [assumption|]. constructor; [now exists d|constructor].
Qed.

Lemma number_numeral : forall base t, Forall (okdigit base) t -> numeral base t (number base t 0).
Proof.
  intros base t. induction t as [|c t IH] using rev_ind; intro H; [constructor|].
  apply Forall_app in H as [H H1]. inversion H1 as [|? ? [d [Hd Hb]] _]; subst.
  unfold number in *. rewrite fold_left_app. cbn [fold_left].
  destruct (digit_byte _ _ Hd) as [E _]. unfold dval at 2. rewrite E. constructor; auto.
Qed.

Lemma numeral_unique : forall base t z z', numeral base t z -> numeral base t z' -> z = z'.
Proof. intros base t z z' H H'. apply numeral_number in H as [_ ->], H' as [_ ->]. reflexivity. Qed.

Lemma okdigit_dval : forall base c, okdigit base c -> digit_of c = Some (dval c) /\ 0 <= dval c < base /\ c <> "_"%char.
Proof.
  intros base c [d [H Hb]]. destruct (digit_byte _ _ H) as (E & Hu & _). unfold dval. rewrite E. repeat split; (lia || assumption).
Qed.

Lemma number_ge : forall base t n, 1 <= base -> Forall (okdigit base) t -> 0 <= n -> n <= number base t n.
Proof.
  intros base t n Hb H. revert n. induction H as [|c t Hc _ IH]; intros n Hn; cbn; [lia|].
  pose proof (proj1 (proj2 (okdigit_dval _ _ Hc))). specialize (IH (n * base + dval c) ltac:(nia)). unfold number in IH. nia.
Qed.

Lemma loop_number : forall under base max t n, 2 <= base <= 16 -> max < 2^64 -> Forall (okdigit base) t -> 0 <= n <= max ->
  uint_loop under base max t n = if number base t n <=? max then Some (number base t n) else None.
Proof.
  intros under base max t n Hb Hmax H. revert n. induction H as [|c t Hc Ht IH]; intros n Hn; cbn [uint_loop].
  { cbn. destruct (Z.leb_spec n max); [reflexivity|lia]. }
  destruct (okdigit_dval _ _ Hc) as (E & Hd & Hu). rewrite E.
  replace (under && (c =? "_")%char) with false by (destruct (Ascii.eqb_spec c "_"); [contradiction|now rewrite andb_false_r]).
  destruct (Z.leb_spec base (dval c)); [lia|].
  pose proof (number_ge base t (n * base + dval c) ltac:(lia) Ht ltac:(nia)) as Hge.
  change (number base (c :: t) n) with (number base t (n * base + dval c)).
  destruct (Z.leb_spec ((2^64 - 1) / base + 1) n) as [Hcut|Hcut].
  - assert (2^64 - 1 < n * base).
    { pose proof (Z.div_mod (2^64 - 1) base ltac:(lia)). pose proof (Z.mod_pos_bound (2^64 - 1) base ltac:(lia)). nia. }
    destruct (Z.leb_spec (number base t (n * base + dval c)) max); [lia|reflexivity].
  - assert (Hm : n * base <= 2^64 - 1).
    { pose proof (Z.div_mod (2^64 - 1) base ltac:(lia)). pose proof (Z.mod_pos_bound (2^64 - 1) base ltac:(lia)). nia. }
    unfold u64, to_u. rewrite (Z.mod_small (n * base)) by nia.
    destruct (Z.le_gt_cases (2^64) (n * base + dval c)) as [Hov|Hov].
    + assert (Hw : (n * base + dval c) mod 2^64 = n * base + dval c - 2^64).
      { symmetry. apply Zmod_unique with 1; lia. }
      rewrite Hw. destruct (Z.ltb_spec (n * base + dval c - 2^64) (n * base)); [|lia].
      destruct (Z.leb_spec (number base t (n * base + dval c)) max); [lia|reflexivity].
    + rewrite Z.mod_small by nia. destruct (Z.ltb_spec (n * base + dval c) (n * base)); [lia|].
      destruct (Z.ltb_spec max (n * base + dval c)); cbn [orb].
      * destruct (Z.leb_spec (number base t (n * base + dval c)) max); [lia|reflexivity].
      * apply IH. nia.
Qed.

Lemma loop_numeral : forall under base bits t z, 2 <= base <= 16 -> 0 <= bits <= 64 -> numeral base t z ->
  0 <= z /\ uint_loop under base (2^bits - 1) t 0 = if z <? 2^bits then Some z else None.
Proof.
  intros under base bits t z Hb Hbits H. apply numeral_number in H as [H ->].
  pose proof (Z.pow_pos_nonneg 2 bits ltac:(lia) ltac:(lia)). pose proof (Z.pow_le_mono_r 2 bits 64 ltac:(lia) ltac:(lia)).
  split; [apply number_ge; lia || assumption|].
  rewrite loop_number; try (lia || assumption).
  destruct (Z.leb_spec (number base t 0) (2^bits - 1)), (Z.ltb_spec (number base t 0) (2^bits)); reflexivity || lia.
Qed.

(** ** Integer literals *)

Lemma digit_not : forall base c (x : ascii), okdigit base c -> digit_of x = None -> (c =? x)%char = false.
Proof. intros base c x H Hx. apply Ascii.eqb_neq. intros ->. apply okdigit_dval in H as [H _]. congruence. Qed.

Lemma signs : forall base c, okdigit base c -> (c =? "-")%char = false /\ (c =? "+")%char = false.
Proof. intros base c H. split; apply (digit_not _ _ _ H); reflexivity. Qed.

Lemma numeral_head : forall base c t z, numeral base (c :: t) z -> okdigit base c.
Proof. intros base c t z H. apply numeral_number in H as [H _]. now inversion H. Qed.

Lemma parse_int_base : forall base t z, base = 2 \/ base = 10 -> t <> [] -> numeral base t z ->
  parse_int t base = if z <? 2^63 then Some z else None.
Proof.
  intros base t z Hb Ht H. destruct t as [|c t]; [contradiction|]. unfold parse_int.
  destruct (signs _ _ (numeral_head _ _ _ _ H)) as [-> ->]. cbn [orb].
  unfold parse_uint. replace (base =? 0) with false by lia.
  destruct (loop_numeral false base 64 _ _ ltac:(lia) ltac:(lia) H) as [H0 ->].
  destruct (Z.ltb_spec z (2^64)) as [H1|H1].
  - destruct (Z.leb_spec (2^63) z), (Z.ltb_spec z (2^63)); reflexivity || lia.
  - destruct (Z.ltb_spec z (2^63)); [lia|reflexivity].
Qed.

Lemma parse_int_zero : forall base rest s z, 2 <= base <= 16 -> numeral base s z ->
  parse_uint ("0"%char :: rest) 0 64 = uint_loop true base (2^64 - 1) s 0 ->
  parse_int ("0"%char :: rest) 0 = if z <? 2^63 then Some z else None.
Proof.
  intros base rest s z Hb H E. unfold parse_int. change (("0" =? "-")%char) with false. change (("0" =? "+")%char) with false. cbn [orb].
  rewrite E. destruct (loop_numeral true base 64 _ _ Hb ltac:(lia) H) as [H0 ->].
  destruct (Z.ltb_spec z (2^64)) as [H1|H1].
  - destruct (Z.leb_spec (2^63) z), (Z.ltb_spec z (2^63)); reflexivity || lia.
  - destruct (Z.ltb_spec z (2^63)); [lia|reflexivity].
Qed.

Lemma octal_prefix : forall c, okdigit 8 c ->
  (Z.lor (byte c) 32 =? 98) = false /\ (Z.lor (byte c) 32 =? 111) = false /\ (Z.lor (byte c) 32 =? 120) = false.
Proof.
  intros c [d [H Hd]].
  destruct H as [H|H]; do 8 (destruct d as [|d]; [cbn in H; injection H as <-; repeat split; reflexivity|]); lia.
Qed.

(** The suffix B in upper case. *)
Definition upper_binary (k : token) (t : text) : Prop := k = TBinary /\ exists s, t = s ++ ["B"%char].

Lemma int_literal_value : forall k t z, int_literal k t z ->
  0 <= z /\
  (eval_literal k t = Some (VInt z) <-> z < 2^63 /\ ~ upper_binary k t) /\
  (eval_literal k t = None <-> 2^63 <= z \/ upper_binary k t).
Proof.
  intros k t z H.
  assert (Hfin : forall r : option Z, ~ upper_binary k t -> 0 <= z -> r = (if z <? 2^63 then Some z else None) ->
    eval_literal k t = option_map VInt r ->
    0 <= z /\ (eval_literal k t = Some (VInt z) <-> z < 2^63 /\ ~ upper_binary k t) /\
    (eval_literal k t = None <-> 2^63 <= z \/ upper_binary k t)).
  { intros r Hu H0 -> ->. split; [assumption|].
    destruct (Z.ltb_spec z (2^63)); cbn [option_map]; (split; split; intro X;
      [ | | | ]); try discriminate; try reflexivity; try (split; [lia|assumption]); try lia; try tauto; try (destruct X; (lia || contradiction)). }
  destruct H as [t z c Ht H Hc|t z Ht H|x t z Hx Ht H| |c t z Hc H].
  - destruct (loop_numeral false 2 64 _ _ ltac:(lia) ltac:(lia) H) as [H0 _].
    destruct Hc as [<-|[<-|[]]].
    + apply (Hfin (parse_int t 2)); try assumption.
      * intros [_ [s Hs]]. apply app_inj_tail in Hs as [_ Hs]. discriminate.
      * apply parse_int_base; auto.
      * unfold eval_literal, eval_binary_literal, ends_in_b. rewrite rev_app_distr. cbn [rev app].
        change (("b" =? "b")%char) with true. cbv iota.
        rewrite app_length. cbn [length]. replace (length t + 1 - 1)%nat with (length t) by lia.
        rewrite firstn_app, firstn_all, Nat.sub_diag, firstn_O, app_nil_r. now destruct (parse_int t 2).
    + assert (E : eval_literal TBinary (t ++ ["B"%char]) = None).
      { unfold eval_literal, eval_binary_literal, ends_in_b. rewrite rev_app_distr. cbn [rev app]. reflexivity. }
      assert (U : upper_binary TBinary (t ++ ["B"%char])) by (split; [reflexivity|now exists t]).
      rewrite E. split; [assumption|]. split; split; intro X; try discriminate; try tauto.
  - destruct (loop_numeral false 8 64 _ _ ltac:(lia) ltac:(lia) H) as [H0 _].
    apply (Hfin (parse_int ("0"%char :: t) 0)); try assumption; try reflexivity.
    + intros [X _]. discriminate.
    + apply parse_int_zero with 8 t; [lia|assumption|].
      unfold parse_uint. cbn [Z.eqb]. change (("0" =? "0")%char) with true. cbv iota.
      destruct t as [|p [|q t]]; [reflexivity|reflexivity|].
      destruct (octal_prefix p) as (-> & -> & ->); [|reflexivity]. now apply numeral_head in H.
  - destruct (loop_numeral false 16 64 _ _ ltac:(lia) ltac:(lia) H) as [H0 _].
    apply (Hfin (parse_int ("0"%char :: x :: t) 0)); try assumption; try reflexivity.
    + intros [X _]. discriminate.
    + apply parse_int_zero with 16 t; [lia|assumption|].
      unfold parse_uint. cbn [Z.eqb]. change (("0" =? "0")%char) with true. cbv iota.
      destruct t as [|q t]; [contradiction|]. destruct Hx as [<-|[<-|[]]]; reflexivity.
  - apply (Hfin (Some 0)); try reflexivity. intros [X _]. discriminate.
  - destruct (loop_numeral false 10 64 _ _ ltac:(lia) ltac:(lia) H) as [H0 _].
    apply (Hfin (parse_int (c :: t) 10)); try assumption; try reflexivity.
    + intros [X _]. discriminate.
    + apply parse_int_base; [auto|discriminate|assumption].
Qed.

Lemma int_literal_unique : forall k t z z', int_literal k t z -> int_literal k t z' -> z = z'.
Proof.
  intros k t z z' H H'.
  destruct H as [t z c Ht H Hc|t z Ht H|x t z Hx Ht H| |c t z Hc H]; inversion H'; subst.
  - match goal with E : _ ++ [_] = _ ++ [_] |- _ => apply app_inj_tail in E as [-> ->] end. eapply numeral_unique; eassumption.
  - eapply numeral_unique; eassumption.
  - eapply numeral_unique; eassumption.
  - reflexivity.
  - contradiction.
  - contradiction.
  - eapply numeral_unique; eassumption.
Qed.

(** ** The alignment of a field *)

Lemma alignment_value : forall k t z, int_literal k t z ->
  visit_alignment k t = if (match k with TDecimal => true | _ => false end) && (z <=? 255) then Some z else None.
Proof.
  intros k t z H. destruct H as [t z c Ht H Hc|t z Ht H|x t z Hx Ht H| |c t z Hc H]; try reflexivity.
  cbn [andb]. unfold visit_alignment, parse_uint. cbn [Z.eqb].
  destruct (loop_numeral false 10 8 _ _ ltac:(lia) ltac:(lia) H) as [H0 ->].
  change (2^8) with 256. destruct (Z.ltb_spec z 256), (Z.leb_spec z 255); try lia; try reflexivity.
  destruct (Z.ltb_spec 255 z); [lia|]. unfold to_u. change (2^8) with 256. now rewrite Z.mod_small by lia.
Qed.

(** ** Float literals *)

Lemma decimal_byte : forall c, okdigit 10 c -> 48 <= byte c <= 57 /\ byte c - 48 = dval c.
Proof.
  intros c [d [H Hd]]. destruct (digit_byte _ _ H) as (E & _ & _ & Hb). unfold dval. rewrite E. apply Hb. lia.
Qed.

Definition stops (s : text) : Prop := match s with c :: _ => ~ (48 <= byte c <= 57) | [] => True end.

Lemma take_number : forall t s n k, Forall (okdigit 10) t -> stops s ->
  take_digits (t ++ s) n k = (number 10 t n, k + Z.of_nat (length t), s).
Proof.
  intros t s n k H Hs. revert n k. induction H as [|c t Hc _ IH]; intros n k.
  - cbn [app length number fold_left]. rewrite Z.add_0_r. destruct s as [|c s]; [reflexivity|]. cbn [take_digits stops] in *.
    destruct ((48 <=? byte c) && (byte c <=? 57)) eqn:E; [lia|reflexivity].
  - cbn [app take_digits]. destruct (decimal_byte _ Hc) as [Hb E].
    replace ((48 <=? byte c) && (byte c <=? 57)) with true by lia. rewrite IH, E. cbn [length].
    change (number 10 (c :: t) n) with (number 10 t (n * 10 + dval c)). f_equal. f_equal. lia.
Qed.

Lemma take_number_all : forall t n k, Forall (okdigit 10) t -> take_digits t n k = (number 10 t n, k + Z.of_nat (length t), []).
Proof. intros t n k H. rewrite <- (app_nil_r t) at 1. now apply take_number. Qed.

Lemma number_app : forall base a b n, number base (a ++ b) n = number base b (number base a n).
Proof. intros. unfold number. apply fold_left_app. Qed.

(** What is left after a literal: nothing, or a byte that no number has. *)
Definition stops_float (s : text) : Prop := s = [] \/ exists c s', s = c :: s' /\ In c (str "fF").

Lemma stops_float_stops : forall s, stops_float s -> stops s.
Proof. intros s [->|(c & s' & -> & Hc)]; [exact I|]. destruct Hc as [<-|[<-|[]]]; cbv; intros []; congruence || lia. Qed.

(** The exponent part of read_float *)
Definition read_exp (m frac : Z) (s2 : text) : option (Z * Z * text) :=
  match s2 with
  | c :: t =>
      if (c =? "e")%char || (c =? "E")%char then
        match t with
        | [] => None
        | sg :: t1 =>
            let neg := (sg =? "-")%char in
            let t2 := if neg || (sg =? "+")%char then t1 else t in
            let '(e, ke, rest) := take_digits t2 0 0 in
            if ke =? 0 then None else Some (m, (if neg then - e else e) - frac, rest)
        end
      else Some (m, - frac, s2)
  | [] => Some (m, - frac, s2)
  end.

Lemma read_exp_exponent : forall x e m frac s, exponent x e -> stops_float s -> read_exp m frac (x ++ s) = Some (m, e - frac, s).
Proof.
  intros x e m frac s H Hs. apply stops_float_stops in Hs.
  assert (Hlen : forall t : text, t <> [] -> (0 + Z.of_nat (length t) =? 0) = false).
  { intros t Ht. destruct t; [contradiction|]. cbn [length]. lia. }
  destruct H as [c t z Hc Ht H|c t z Hc Ht H|c t z Hc Ht H]; apply numeral_number in H as [H ->];
    (assert (Ec : ((c =? "e") || (c =? "E"))%char = true) by (destruct Hc as [<-|[<-|[]]]; reflexivity));
    cbn [app]; unfold read_exp; rewrite Ec.
  - destruct t as [|d t]; [contradiction|]. cbn [app].
    inversion H as [|? ? Hd Hrest]; subst. destruct (signs _ _ Hd) as [-> ->]. cbn [orb].
    change (d :: t ++ s) with ((d :: t) ++ s). rewrite take_number by assumption. rewrite Hlen by assumption. reflexivity.
  - change (("+" =? "-")%char) with false. change (("+" =? "+")%char) with true. cbn [orb].
    rewrite take_number by assumption. rewrite Hlen by assumption. reflexivity.
  - change (("-" =? "-")%char) with true. cbn [orb].
    rewrite take_number by assumption. rewrite Hlen by assumption. reflexivity.
Qed.

Lemma read_exp_or_none : forall x e m frac s, exponent_or_none x e -> stops_float s -> read_exp m frac (x ++ s) = Some (m, e - frac, s).
Proof.
  intros x e m frac s [H|[-> ->]] Hs; [now apply read_exp_exponent|].
  cbn [app]. destruct Hs as [->|(c & s' & -> & Hc)]; [reflexivity|]. destruct Hc as [<-|[<-|[]]]; reflexivity.
Qed.

Lemma exponent_stops : forall x e s, exponent x e -> stops (x ++ s) /\ exists c r, x ++ s = c :: r /\ (c =? ".")%char = false.
Proof.
  intros x e s H. destruct H as [c t z Hc _ _|c t z Hc _ _|c t z Hc _ _]; destruct Hc as [<-|[<-|[]]]; cbn [app];
    (split; [cbv; intros []; congruence || lia|eexists _, _; split; reflexivity]).
Qed.

Lemma read_float_unfold : forall s, read_float s =
  let '(n, k, s1) := take_digits s 0 0 in
  let '(m, k', frac, s2) :=
    match s1 with
    | c :: t => if (c =? ".")%char then let '(m, k', t') := take_digits t n 0 in (m, k + k', k', t') else (n, k, 0, s1)
    | [] => (n, k, 0, s1)
    end in
  if k' =? 0 then None else read_exp m frac s2.
Proof. reflexivity. Qed.

Lemma read_double : forall t m e s, double_literal t m e -> stops_float s -> read_float (t ++ s) = Some (m, e, s).
Proof.
  intros t m e s H Hs. rewrite read_float_unfold. destruct H as [i x m e Hi H Hx|i f x m e Hif H Hx].
  - apply numeral_number in H as [H ->]. rewrite <- app_assoc.
    destruct (exponent_stops x e s Hx) as [Hst (c & r & E & Ec)].
    rewrite take_number by assumption. rewrite E, Ec. cbv beta iota.
    replace (0 + Z.of_nat (length i) =? 0) with false by (destruct i; [contradiction|cbn [length]; lia]).
    rewrite <- E. rewrite (read_exp_exponent x e) by assumption. now rewrite Z.sub_0_r.
  - apply numeral_number in H as [H ->]. apply Forall_app in H as [H1 H2].
    rewrite <- app_assoc. cbn [app]. rewrite <- app_assoc.
    rewrite take_number; [|assumption|cbv; intros []; congruence || lia].
    change (("." =? ".")%char) with true. cbv beta iota.
    rewrite take_number; [|assumption|].
    2: { destruct Hx as [Hx|[-> ->]]; [exact (proj1 (exponent_stops _ _ s Hx))|]. cbn [app]. now apply stops_float_stops. }
    cbv beta iota.
    replace (0 + Z.of_nat (length i) + (0 + Z.of_nat (length f)) =? 0) with false.
    2: { destruct i; [destruct f; [contradiction|]|]; cbn [length]; lia. }
    rewrite (read_exp_or_none x e) by assumption. now rewrite number_app.
Qed.

Lemma float_literal_fails : forall t m e, float_literal t m e -> eval_literal TFloat t = None.
Proof.
  intros t m e [t' m' e' c H Hc]. unfold eval_literal, parse_float.
  rewrite (read_double t' m' e'); [reflexivity|assumption|]. right. exists c, []. now split.
Qed.

Lemma limit_less : forall m e, below_limit m e = true <-> less_than m e ((2^54 - 1) * 2^970).
Proof.
  intros m e. unfold below_limit, less_than, float64_limit. generalize ((2^54 - 1) * 2^970). intro L.
  destruct (Z.leb_spec 0 e).
  - rewrite Z.ltb_lt. split; [intro; left; now split|intros [[_ ?]|[? _]]; [assumption|lia]].
  - rewrite Z.ltb_lt. split; [intro; right; now split|intros [[? _]|[_ ?]]; [lia|assumption]].
Qed.

Lemma double_literal_value : forall t m e, double_literal t m e ->
  (less_than m e ((2^54 - 1) * 2^970) -> eval_literal TDouble t = Some (VFloat false m e)) /\
  (~ less_than m e ((2^54 - 1) * 2^970) -> eval_literal TDouble t = None).
Proof.
  intros t m e H. unfold eval_literal, parse_float.
  pose proof (read_double t m e [] H (or_introl eq_refl)) as E. rewrite app_nil_r in E. rewrite E.
  pose proof (limit_less m e) as L. destruct (below_limit m e); split; intro X.
  - reflexivity.
  - exfalso. apply X, L. reflexivity.
  - apply L in X. discriminate.
  - reflexivity.
Qed.

(** ** String literals *)

Lemma string_literal_value : forall body,
  eval_literal TString (quote :: body ++ [quote]) = Some (VText body).
Proof.
  intro body. unfold eval_literal, eval_string_literal, len. cbn [length skipn]. rewrite app_length. cbn [length].
  destruct (Z.ltb_spec (Z.of_nat (S (length body + 1))) 2); [lia|].
  replace (S (length body + 1) - 2)%nat with (length body) by lia.
  rewrite firstn_app, Nat.sub_diag, firstn_all, firstn_O, app_nil_r. reflexivity.
Qed.

Lemma utf8_length : forall n, (length (utf8 n) <= 3)%nat /\ (n < 2048 -> (length (utf8 n) <= 2)%nat) /\ (n < 128 -> length (utf8 n) = 1%nat).
Proof.
  intro n. unfold utf8. destruct (Z.ltb_spec n 128); [cbn; repeat split; lia|].
  destruct (Z.ltb_spec n 2048); cbn; repeat split; lia.
Qed.

Lemma number_bound : forall base t n, 0 < base -> Forall (okdigit base) t -> 0 <= n ->
  number base t n < (n + 1) * base ^ Z.of_nat (length t).
Proof.
  intros base t n Hb H. revert n. induction H as [|c t Hc _ IH]; intros n Hn.
  - cbn. lia.
  - change (number base (c :: t) n) with (number base t (n * base + dval c)).
    destruct (okdigit_dval _ _ Hc) as (_ & Hd & _). specialize (IH (n * base + dval c) ltac:(nia)).
    cbn [length]. rewrite Nat2Z.inj_succ, Z.pow_succ_r by lia.
    pose proof (Z.pow_pos_nonneg base (Z.of_nat (length t)) Hb ltac:(lia)). nia.
Qed.

Lemma string_char_length : forall a x, string_char a x ->
  (a = x /\ ~ In backslash a) \/ (In backslash a /\ (length x < length a)%nat).
Proof.
  intros a x H. destruct H as [c Hq Hc|c n H|h z Hl H|h z Hl H|o z Hl H Hz].
  - left. split; [reflexivity|]. intros [->|[]]. contradiction.
  - right. split; [now left|]. cbn. lia.
  - right. split; [now left|]. cbn [length]. pose proof (utf8_length z). lia.
  - right. split; [now left|]. cbn [length].
    apply numeral_number in H as [H ->]. pose proof (number_bound 16 h 0 ltac:(lia) H ltac:(lia)) as B.
    rewrite Hl in B. change ((0 + 1) * 16 ^ Z.of_nat 2) with 256 in B.
    destruct (utf8_length (number 16 h 0)) as (_ & Hu & _). specialize (Hu ltac:(lia)). lia.
  - right. split; [now left|]. cbn [length]. destruct (utf8_length z) as (_ & Hu & _). specialize (Hu ltac:(lia)). lia.
Qed.

Lemma string_body_length : forall b y, string_body b y ->
  (b = y /\ ~ In backslash b) \/ (In backslash b /\ (length y < length b)%nat).
Proof.
  induction 1 as [|a x b y Ha _ IH]; [left; split; [reflexivity|intros []]|].
  apply string_char_length in Ha.
  destruct Ha as [[-> Ha]|[Ha Hl]], IH as [[-> Hb]|[Hb Hm]]; rewrite ?app_length.
  - left. split; [reflexivity|]. intro Hin. apply in_app_or in Hin as [|]; contradiction.
  - right. split; [apply in_or_app; now right|lia].
  - right. split; [apply in_or_app; now left|lia].
  - right. split; [apply in_or_app; now left|lia].
Qed.

Lemma string_literal_meaning : forall body meaning, string_body body meaning ->
  exists s, eval_literal TString (quote :: body ++ [quote]) = Some (VText s) /\ s = body /\ (s = meaning <-> ~ In backslash body).
Proof.
  intros body meaning H. exists body. split; [apply string_literal_value|]. split; [reflexivity|].
  apply string_body_length in H as [[-> H]|[H Hl]]; split; intro X; try reflexivity; try assumption; try contradiction.
  subst. lia.
Qed.
