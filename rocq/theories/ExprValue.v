(** Go expressions whose values stay within the types of their members. *)

Require Import ZArith String List Bool Lia.
From Verif Require Import Bits BitsFacts Traits AstExpr AstTypes AstTypesSpec AstTypesThms GoSyntax ExprPrint ExprPrintSpec ExprPrintFacts GoTypes GoTypesSpec GoTypesFacts.
From Verif Require Packages MembersSpec MembersFacts.
Import ListNotations.
Open Scope Z_scope.

(** ** Types that hold the values of a range *)

Definition wide (lo hi : Z) (t : tref) : Prop :=
  exists go g l h, GoType t = Some go /\ describes go g l h /\ forall y, lo <= y < hi -> l <= y < h.
Definition wide_native (lo hi : Z) (o : option tref) : Prop := match o with Some t => wide lo hi t | None => True end.

Lemma wide_value : forall lo hi t go g D y, wide lo hi t -> GoType t = Some go -> int_kind D go = Some g -> lo <= y < hi -> gconv g y = y.
Proof.
  intros lo hi t go g D y (go' & g' & l & h & G & (K & R & _) & W) Go Kg Y. rewrite Go in G. injection G as <-. rewrite (K D) in Kg. injection Kg as <-.
  apply representable_eq. apply R. now apply W.
Qed.

(** The Go ranges of a signed type and of the unsigned type of the same size. *)
Definition ranges (t u : tref) : Prop :=
  exists go l h go' h', GoType t = Some go /\ In (go, (l, h)) go_range /\ GoType u = Some go' /\ In (go', (0, h')) go_range /\ h <= h'.
Lemma unsigned_range : forall t r n, int_type_range t r -> to_unsigned (t_name t) = Some n -> ranges t (mkT n (t_bits t) (t_dynamic t)).
Proof.
  intros t r n H U. unfold ranges. destruct H as [m r H|m H|m H| |]; cbn [t_name t_bits t_dynamic] in *; try discriminate U.
  - unfold named_range in H. repeat (destruct H as [H|H]; [injection H as <- <-; first [discriminate U|injection U as <-;
      do 5 eexists; split; [reflexivity|]; split; [cbn; repeat (first [left; reflexivity|right])|]; split; [reflexivity|]; split; [cbn; repeat (first [left; reflexivity|right])|lia]]|]). contradiction.
  - injection U as <-. unfold GoType. cbn [t_name t_bits t_dynamic String.eqb Ascii.eqb Bool.eqb orb]. unfold goBits.
    destruct (m =? 0) eqn:E0; [lia|].
    destruct (m <=? 8); [|destruct (m <=? 16); [|destruct (m <=? 32)]];
      (do 5 eexists; split; [reflexivity|]; split; [cbn; repeat (first [left; reflexivity|right])|]; split; [reflexivity|]; split; [cbn; repeat (first [left; reflexivity|right])|lia]).
  - injection U as <-. do 5 eexists; split; [reflexivity|]; split; [cbn; repeat (first [left; reflexivity|right])|]; split; [reflexivity|]; split; [cbn; repeat (first [left; reflexivity|right])|lia].
Qed.
Lemma unsigned_low : forall t r, int_type_range t r -> to_unsigned (t_name t) = None -> exists go h, GoType t = Some go /\ In (go, (0, h)) go_range.
Proof.
  intros t r H U. destruct (type_regular t r H) as ((k & go & lo & hi & _ & _ & G & I & S & _) & _). exists go, hi. split; [exact G|].
  unfold is_signed in S. rewrite U in S. unfold go_range in *. cbn in I.
  repeat (destruct I as [I|I]; [injection I as <- <- <-; first [discriminate S|cbn; repeat (first [left; reflexivity|right])]|]). contradiction.
Qed.
Lemma describes_range : forall go g l h l' h', describes go g l h -> In (go, (l', h')) go_range -> l' = l /\ h' = h.
Proof. intros go g l h l' h' (_ & _ & _ & U) I. apply U. right. exact I. Qed.

Lemma mix_wide : forall lo hi x y t, integer x -> integer y -> wide lo hi x -> wide lo hi y -> mix_int (Some x) (Some y) = Some (Some t) -> wide lo hi t.
Proof.
  intros lo hi x y t (rx & Ix) (ry & Iy) Wx Wy H. unfold mix_int in H. destruct (same_native (Some x) (Some y)); [injection H as <-; exact Wx|].
  assert (U : forall a b ra rb n, int_type_range a ra -> int_type_range b rb -> wide lo hi a -> wide lo hi b -> is_signed (t_name b) = false -> to_unsigned (t_name a) = Some n ->
    wide lo hi (mkT n (t_bits a) (t_dynamic a))).
  { intros a b ra rb n Ha Hb (ga & ka & la & ha & Ga & Da & Wa) (gb & kb & lb & hb & Gb & Db & Wb) S N.
    destruct (unsigned_range a ra n Ha N) as (go & l & h & go' & h' & G1 & I1 & G2 & I2 & L).
    destruct (unsigned_low b rb Hb) as (go'' & h'' & G3 & I3); [unfold is_signed in S; destruct (to_unsigned (t_name b)); [discriminate|reflexivity]|].
    rewrite Ga in G1. injection G1 as <-. rewrite Gb in G3. injection G3 as <-.
    destruct (describes_range _ _ _ _ _ _ Da I1) as (-> & ->). destruct (describes_range _ _ _ _ _ _ Db I3) as (<- & ->).
    destruct (describe go' 0 h') as (g' & D'); [right; exact I2|]. exists go', g', 0, h'. split; [exact G2|]. split; [exact D'|].
    intros v Hv. specialize (Wa v Hv). specialize (Wb v Hv). lia. }
  destruct (rank_of x) as [kx|]; [|discriminate]. destruct (rank_of y) as [ky|]; [|discriminate].
  destruct (ky <=? kx); destruct (is_signed (t_name x)) eqn:Sx; destruct (is_signed (t_name y)) eqn:Sy; cbn [andb Bool.eqb] in H;
    try (injection H as <-; assumption); try discriminate.
  - destruct (to_unsigned (t_name x)) as [n|] eqn:N; [|discriminate]. injection H as <-. exact (U x y rx ry n Ix Iy Wx Wy Sy N).
  - destruct (to_unsigned (t_name y)) as [n|] eqn:N; [|discriminate]. injection H as <-. exact (U y x ry rx n Iy Ix Wy Wx Sx N).
Qed.

Lemma arith_wide : forall lo hi op full a b r, eval_arith op full a b = (r, SOk) -> r_type a = TyInt -> r_type b = TyInt ->
  match r_native a with Some t => integer t | None => True end -> match r_native b with Some t => integer t | None => True end ->
  wide_native lo hi (r_native a) -> wide_native lo hi (r_native b) -> wide_native lo hi (r_native r).
Proof.
  intros lo hi op full a b r H Ta Tb Na Nb Wa Wb. unfold eval_arith in H. rewrite Ta, Tb in H. cbn [ety_eqb andb orb negb] in H.
  destruct (arithmetic_type a b) as [(ty, n)|] eqn:A; [|discriminate].
  assert (N : wide_native lo hi n).
  { unfold arithmetic_type in A. rewrite Ta, Tb in A. cbn [ety_eqb andb orb negb] in A. destruct (same_native (r_native a) (r_native b)) eqn:S; [injection A as <- <-; exact Wa|].
    destruct (r_native a) as [x|]; destruct (r_native b) as [y|]; try discriminate S.
    - destruct (mix_closed x y Na Nb) as (t & M & _). rewrite M in A. injection A as <- <-. exact (mix_wide lo hi x y t Na Nb Wa Wb M).
    - injection A as <- <-. exact Wa.
    - injection A as <- <-. exact Wb. }
  destruct (if r_full a && r_full b then (r_int a, r_int b) else (1, 1)) as (x, y). destruct (int_arith op x y) as [z|]; [|discriminate]. injection H as <-. exact N.
Qed.

(** ** Integers *)

Definition exact (D : genv) (S : gstate) (lo hi : Z) (a : aexpr) (z : Z) : Prop :=
  arithmetic D a /\ lo <= z < hi /\ wide_native lo hi (r_native (res a)) /\ (r_full (res a) = true -> r_int (res a) = z) /\
  (check D (raw a) <> None -> geval D S (raw a) = Some (GI z)).

Lemma geval_full : forall D S e z, r_full (res e) = true -> r_type (res e) = TyInt -> r_int (res e) = z -> geval D S (raw e) = Some (GI z).
Proof.
  intros D S e z F T Z. rewrite (raw_full e F). unfold raw_value. rewrite T, Z. unfold neg. destruct (z <? 0) eqn:N; cbn; repeat f_equal; lia.
Qed.

Lemma exact_const : forall D S lo hi e z, - 2 ^ 63 <= lo -> hi <= 2 ^ 63 -> lo <= z < hi -> r_full (res e) = true -> r_type (res e) = TyInt -> r_int (res e) = z ->
  r_native (res e) = None -> symbol e = None -> exact D S lo hi e z.
Proof.
  intros D S lo hi e z L H B F T Z N Sy. split; [|split; [exact B|split; [now rewrite N|split; [auto|intros _; now apply geval_full]]]].
  apply AE_const; [|unfold known; now rewrite Sy, N]. split; [exact F|]. split; [exact T|]. split; [lia|]. now rewrite N.
Qed.

Lemma exact_paren : forall D S lo hi a r z, exact D S lo hi a z -> (r_full (res a) = false -> same_type a) -> eval_paren (r_full (res a)) (res a) = (r, SOk) ->
  exact D S lo hi (AParen a r) z.
Proof.
  intros D S lo hi a r z (A & B & W & F & G) Sm E. assert (r = mkRes (r_type (res a)) (r_int (res a)) f64_zero (r_str (res a)) (r_bool (res a)) (r_native (res a)) (r_full (res a))) as R by (unfold eval_paren in E; congruence).
  pose proof (arithmetic_compiled D a A) as (_ & _ & T & N & _ & C). destruct (r_full (res a)) eqn:Fa.
  - specialize (F eq_refl). split; [|split; [exact B|split; [subst r; exact W|split; [subst r; auto|]]]].
    + apply AE_const; [|unfold known; cbn; subst r; cbn].
      * subst r. split; [reflexivity|]. split; [exact T|]. split; [exact (proj2 C)|exact N].
      * destruct (r_native (res a)) as [t|] eqn:Nt; [|exact I]. destruct (go_type_describe (res a)) as (go & g & l & h & Go & _); [now rewrite Nt|]. unfold go_type in Go. rewrite Nt in Go. congruence.
    + intros _. apply geval_full; subst r; cbn; auto.
  - split; [apply AE_paren; auto|]. split; [exact B|]. split; [subst r; exact W|]. split; [subst r; cbn; discriminate|].
    subst r. cbn [raw res r_full check geval]. exact G.
Qed.

Lemma exact_sign : forall D S lo hi (minus : bool) a r z, - 2 ^ 63 <= lo -> hi <= 2 ^ 63 -> exact D S lo hi a z -> r_full (res a) = true -> lo <= (if minus then - z else z) < hi ->
  eval_unary minus true (res a) = (r, SOk) -> exact D S lo hi (ASign minus a r) (if minus then - z else z).
Proof.
  intros D S lo hi minus a r z L H (A & B & W & F & G) Fa Bz E. pose proof (arithmetic_compiled D a A) as (_ & _ & T & N & _ & C). specialize (F Fa).
  unfold eval_unary in E. rewrite T in E. cbn [ety_eqb] in E. injection E as <-.
  assert (Z : (if minus then i64 (- r_int (res a)) else r_int (res a)) = if minus then - z else z) by (rewrite F; destruct minus; [unfold i64; rewrite to_s_small; lia|reflexivity]).
  split; [|split; [exact Bz|split; [exact W|split; [intros _; exact Z|]]]].
  - apply AE_const; [|unfold known; cbn].
    + split; [reflexivity|]. split; [reflexivity|]. cbn [res r_int r_native]. rewrite Z. split; [lia|exact N].
    + destruct (r_native (res a)) as [t|] eqn:Nt; [|exact I]. destruct (go_type_describe (res a)) as (go & g & l & h & Go & _); [now rewrite Nt|]. unfold go_type in Go. rewrite Nt in Go. congruence.
  - intros _. apply geval_full; [reflexivity|reflexivity|exact Z].
Qed.

Lemma exact_numbits : forall D S lo hi a r z, hi <= 2 ^ 63 -> exact D S lo hi a z -> r_full (res a) = false -> 0 <= z -> lo <= numbits z < hi -> eval_numbits false (res a) = (r, SOk) ->
  exact D S lo hi (ANumbits a r) (numbits z).
Proof.
  intros D S lo hi a r z H (A & B & W & F & G) Fa Z Bn E. pose proof (arithmetic_compiled D a A) as (_ & _ & T & N & _ & C).
  split; [now apply AE_numbits|]. split; [exact Bn|]. unfold eval_numbits in E. rewrite T in E. cbn in E. injection E as <-. split; [exact I|]. split; [discriminate|].
  cbn [raw res r_full check geval String.eqb Ascii.eqb Bool.eqb]. intros Ck. rewrite G.
  - cbn. replace (to_u 64 z) with z by (symmetry; apply (gconv_value (GU 64)); unfold gvalue, in_u; lia). now rewrite numbits_run by lia.
  - intros Q. apply Ck. now rewrite Q.
Qed.

Lemma cast_exact : forall D S lo hi a r z, exact D S lo hi a z -> wide_native lo hi (r_native r) -> check D (cast (converted r a) r (raw a)) <> None ->
  geval D S (cast (converted r a) r (raw a)) = Some (GI z).
Proof.
  intros D S lo hi a r z (A & B & W & F & G) Wr Ck. unfold cast in *. destruct (converted r a); [|auto]. destruct (r_native r) as [t|]; [|auto].
  destruct (GoType t) as [go|] eqn:Go; [|auto]. pose proof (gotype_name t go Go) as GN. apply orb_false_iff in GN. destruct GN as (G1 & G2).
  cbn [check geval] in *. rewrite G1, G2 in *. rewrite G.
  - cbn [obind]. pose proof Wr as (go' & g & l & h & Go' & (K & R & _) & Wh). rewrite Go in Go'. injection Go' as <-.
    specialize (K D). unfold eval_convert. unfold int_kind in K. destruct (kind_of D go) as [[g'|]|] eqn:Kd; try discriminate. injection K as ->.
    rewrite (wide_value lo hi t go g D z Wr Go); [reflexivity| |exact B]. unfold int_kind. now rewrite Kd.
  - intros Q. apply Ck. now rewrite Q.
Qed.

Lemma exact_arith : forall D S lo hi op a b r x y z, - 2 ^ 63 <= lo -> hi <= 2 ^ 63 -> exact D S lo hi a x -> exact D S lo hi b y -> MembersSpec.operation op x y = Some z -> lo <= z < hi ->
  eval_arith op (r_full (res a) && r_full (res b)) (res a) (res b) = (r, SOk) -> exact D S lo hi (AArith op a b r) z.
Proof.
  intros D S lo hi op a b r x y z L H Xa Xb O B E. pose proof Xa as (Aa & Ba & Wa & Fa & Ga). pose proof Xb as (Ab & Bb & Wb & Fb & Gb).
  pose proof (arithmetic_compiled D a Aa) as (_ & _ & Ta & Na & _ & _). pose proof (arithmetic_compiled D b Ab) as (_ & _ & Tb & Nb & _ & _).
  pose proof (arith_wide lo hi op _ _ _ _ E Ta Tb Na Nb Wa Wb) as Wr.
  destruct (r_full (res a) && r_full (res b)) eqn:F.
  - apply andb_prop in F. destruct F as (F1 & F2).
    assert (R : r_type r = TyInt /\ r_int r = z /\ r_full r = true /\ match r_native r with Some t => integer t | None => True end).
    { destruct (MembersFacts.arith_numeric op (res a) (res b)) as (r' & s & E' & Q).
      - split; [exact Ta|]. split; [exact Na|]. intros _. rewrite (Fa F1). lia.
      - split; [exact Tb|]. split; [exact Nb|]. intros _. rewrite (Fb F2). lia.
      - rewrite F1, F2 in E'. cbn [andb] in E'. rewrite E in E'. injection E' as <- <-. destruct Q as [(_ & (T & N & _) & Q)|(Q & _)]; [|discriminate].
        split; [exact T|]. split; [|split; [rewrite Q, F1, F2; reflexivity|exact N]].
        unfold eval_arith in E. rewrite Ta, Tb in E. cbn [ety_eqb andb orb negb] in E. destruct (arithmetic_type (res a) (res b)) as [(ty, n)|]; [|discriminate].
        rewrite F1, F2 in E. cbn [andb] in E. rewrite (Fa F1), (Fb F2), (MembersFacts.operation_int op x y z O) in E by lia. injection E as <-. reflexivity. }
    destruct R as (T & Z & Fr & N).
    split; [|split; [exact B|split; [exact Wr|split; [auto|intros _; now apply geval_full]]]].
    apply AE_const; [split; [exact Fr|]; split; [exact T|]; split; [cbn [res]; lia|exact N]|].
    unfold known. cbn. destruct (r_native r) as [t|] eqn:Nt; [|exact I]. destruct (go_type_describe r) as (go & g & l & h & Go & _); [now rewrite Nt|]. unfold go_type in Go. rewrite Nt in Go. congruence.
  - assert (A : arithmetic D (AArith op a b r)) by (now apply AE_arith).
    destruct (arith_result op (res a) (res b) r E Ta Tb F Na Nb) as (Tr & Fr & Nr & NN).
    split; [exact A|]. split; [exact B|]. split; [exact Wr|]. split; [cbn [res]; rewrite Fr; discriminate|]. intros Ck.
    pose proof (arithmetic_compiled D _ A) as (_ & _ & _ & _ & _ & C). cbn [res] in C. rewrite Fr in C. destruct C as (go & g & K & Ty & C1 & C2).
    specialize (C1 (C2 Ck)). unfold typ in Ty. cbn [symbol res] in Ty.
    cbn [raw res] in C1, Ck |- *. rewrite Fr in C1, Ck |- *. cbn [geval]. rewrite C1.
    assert (Ca : check D (cast (converted r a) r (raw a)) <> None). { intros Q. apply Ck. cbn [check]. now rewrite Q. }
    assert (Cb : check D (cast (converted r b) r (raw b)) <> None).
    { intros Q. apply Ck. cbn [check]. rewrite Q. destruct (check D (cast (converted r a) r (raw a))); reflexivity. }
    rewrite (cast_exact D S lo hi a r x Xa Wr Ca), (cast_exact D S lo hi b r y Xb Wr Cb). unfold eval_binary. rewrite arith_group. cbn [obind as_int].
    rewrite <- MembersFacts.operation_op, O. cbn [obind]. rewrite K. f_equal. f_equal. unfold go_type in Ty. destruct (r_native r) as [t|].
    + exact (wide_value lo hi t go g D z Wr Ty K B).
    + injection Ty as <-. cbn in K. injection K as <-. apply gconv_value. unfold gvalue, in_s. change (2 ^ (64 - 1)) with (2 ^ 63). lia.
Qed.

Lemma exact_not_checked : forall D S lo hi a z, exact D S lo hi a z -> r_type (res a) = TyInt.
Proof. intros D S lo hi a z (A & _). now apply arithmetic_compiled in A as (_ & _ & T & _). Qed.

(** ** Conditions *)

Definition holds (D : genv) (S : gstate) (a : aexpr) (b : bool) : Prop :=
  r_type (res a) = TyBool /\ (r_full (res a) = true -> r_bool (res a) = b) /\ (check D (raw a) <> None -> geval D S (raw a) = Some (GB b)).

Lemma holds_full : forall D S e b, r_full (res e) = true -> r_type (res e) = TyBool -> r_bool (res e) = b -> holds D S e b.
Proof. intros D S e b F T B. split; [exact T|]. split; [auto|]. intros _. rewrite (raw_full e F). unfold raw_value. now rewrite T, B. Qed.

Lemma holds_compare : forall D S op a b r lo hi lo' hi' x y, exact D S lo hi a x -> exact D S lo' hi' b y ->
  eval_compare op (r_full (res a) && r_full (res b)) (res a) (res b) = (r, SOk) -> holds D S (ACompare op a b r) (int_compare op x y).
Proof.
  intros D S op a b r lo hi lo' hi' x y Xa Xb E. pose proof (exact_not_checked _ _ _ _ _ _ Xa) as Ta. pose proof (exact_not_checked _ _ _ _ _ _ Xb) as Tb.
  destruct Xa as (_ & _ & _ & Fa & Ga). destruct Xb as (_ & _ & _ & Fb & Gb).
  unfold eval_compare in E. rewrite Ta, Tb in E. cbn in E. injection E as <-.
  destruct (r_full (res a) && r_full (res b)) eqn:F.
  - apply andb_prop in F. destruct F as (F1 & F2). apply holds_full; [reflexivity|reflexivity|]. cbn. now rewrite (Fa F1), (Fb F2).
  - split; [reflexivity|]. split; [discriminate|]. cbn [raw res r_full check geval]. unfold converted, cast. cbn [r_type ety_eqb orb andb]. intros Ck.
    rewrite Ga, Gb; [destruct op; reflexivity| |]; intros Q; apply Ck; rewrite Q; [|reflexivity]. destruct (check D (raw a)); reflexivity.
Qed.
Lemma holds_not : forall D S a r b, holds D S a b -> eval_not (r_full (res a)) (res a) = (r, SOk) -> holds D S (ANot a r) (negb b).
Proof.
  intros D S a r b (T & F & G) E. unfold eval_not in E. rewrite T in E. cbn in E. injection E as <-. destruct (r_full (res a)) eqn:Fa.
  - apply holds_full; [reflexivity|reflexivity|]. cbn. now rewrite (F eq_refl).
  - split; [reflexivity|]. split; [discriminate|]. cbn [raw res r_full check geval]. intros Ck. rewrite G; [reflexivity|]. intros Q. apply Ck. now rewrite Q.
Qed.
Lemma holds_paren : forall D S a r b, holds D S a b -> eval_paren (r_full (res a)) (res a) = (r, SOk) -> holds D S (AParen a r) b.
Proof.
  intros D S a r b (T & F & G) E. injection E as <-. destruct (r_full (res a)) eqn:Fa.
  - apply holds_full; cbn; auto.
  - split; [exact T|]. split; [discriminate|]. cbn [raw res r_full check geval]. exact G.
Qed.
Lemma holds_logic : forall D S both a b r x y, holds D S a x -> (x = both -> holds D S b y) -> (x <> both -> y = x) ->
  eval_logic both (r_full (res a) && r_full (res b)) (res a) (res b) = (r, SOk) -> holds D S (ALogic both a b r) y.
Proof.
  intros D S both a b r x y (Ta & Fa & Ga) Hb Hy E. unfold eval_logic in E. rewrite Ta in E. cbn [ety_eqb andb] in E.
  destruct (ety_eqb (r_type (res b)) TyBool); [|discriminate]. injection E as <-. destruct (r_full (res a) && r_full (res b)) eqn:F.
  - apply andb_prop in F. destruct F as (F1 & F2). apply holds_full; [reflexivity|reflexivity|]. cbn. rewrite (Fa F1).
    destruct (bool_dec x both) as [Q|Q].
    + destruct (Hb Q) as (_ & Fb & _). rewrite (Fb F2), Q. destruct both; reflexivity.
    + rewrite (Hy Q). destruct both, x; try reflexivity; congruence.
  - split; [reflexivity|]. split; [discriminate|]. cbn [raw res r_full check geval]. intros Ck.
    assert (Ca : check D (raw a) <> None) by (intros Q; apply Ck; now rewrite Q).
    rewrite (Ga Ca). unfold eval_binary. destruct (bool_dec x both) as [Q|Q].
    + destruct (Hb Q) as (_ & _ & Gb). rewrite Gb.
      * subst x. destruct both; reflexivity.
      * intros P. apply Ck. rewrite P. destruct (check D (raw a)); reflexivity.
    + rewrite (Hy Q). destruct both, x; try reflexivity; congruence.
Qed.
