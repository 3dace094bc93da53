(** Proofs about the Go text of expressions. *)

Require Import ZArith String List Bool Lia ZifyBool ZifyNat SpecFloat.
From Verif Require Import Bits AstExpr AstTypes GoSyntax GoSyntaxFacts ExprPrint ExprPrintSpec.
Import ListNotations.
Open Scope Z_scope.

(** ** The tree of the text, whatever binds how strongly *)

Definition neg (b : bool) (l : literal) : gtree := if b then GNeg (GLit l) else GLit l.
Definition raw_value (r : result) : gtree :=
  match r_type r with
  | TyInt => neg (r_int r <? 0) (LInt (Z.abs (r_int r)))
  | TyBool => GLit (LBool (r_bool r))
  | TyString => GLit (LText (r_str r))
  | TyFloat =>
      match r_float r with
      | S754_zero s => neg s (LDecimal 0)
      | S754_finite s m e => neg s (LDecimal (micro (Zpos m) e))
      | _ => GName "NaN"
      end
  | _ => GName "UNSUPPORTED_TYPE"
  end.
Definition cast (c : bool) (r : result) (t : gtree) : gtree :=
  if c then match r_native r with
            | Some n => match GoType n with Some goal => GCall (GName goal) t | None => t end
            | None => t
            end
  else t.

Fixpoint raw (e : aexpr) : gtree :=
  if r_full (res e) then raw_value (res e)
  else match e with
  | AConst _ | ASign _ _ _ | ATilde _ _ | ATernary _ _ _ _ => GName "UNSUPPORTED"
  | AIndexVar _ => GName "index"
  | AIdent (IMember n) _ _ => GSelect (GName "v") n
  | AIdent (IType go) _ _ => GName go
  | AIdent IOther _ _ => GName "UNSUPPORTED_TYPE"
  | AParen a _ => GParen (raw a)
  | AValueof a _ => raw a
  | ACall a _ _ => GInvoke (raw a)
  | AElement a i _ => GIndex (raw a) (raw i)
  | ADot a (DEnum item c) _ _ => if c then GCall (raw a) (GName item) else GName item
  | ADot a (DMask item) _ _ => match raw a with GName t => GName (t ++ item) | _ => GName item end
  | ADot a (DField n) _ _ => GSelect (raw a) n
  | AIsset a b _ => GBin NeE (GBin BAnd (raw a) (raw b)) (GLit (LInt 0))
  | ALengthof a _ => GCall (GParen (GName "int64")) (GCall (GName "len") (raw a))
  | ANumbits a _ => GCall (GName "ztype.NumBits") (GCall (GName "uint64") (raw a))
  | ANot a _ => GNot (raw a)
  | AArith op a b r => GBin (arith_op op) (cast (converted r a) r (raw a)) (cast (converted r b) r (raw b))
  | ACompare op a b r => GBin (relation_op op) (cast (converted r a) r (raw a)) (cast (converted r b) r (raw b))
  | ABitwise op a b r => GBin (bits_op op) (cast (shifts op && ety_eqb (r_type (res a)) TyInt && r_full (res a)) r (raw a)) (raw b)
  | ALogic both a b _ => GBin (logic_op both) (raw a) (raw b)
  end.

Lemma value_flatten : forall r, finite r -> value_text r = flatten (raw_value r).
Proof.
  intros r F. unfold finite in F. unfold value_text, raw_value. destruct (r_type r); try contradiction; try reflexivity.
  - unfold int_text, neg. destruct (r_int r <? 0) eqn:E; cbn; repeat f_equal; lia.
  - destruct (r_float r) as [s|s| |s m e]; try contradiction; destruct s; reflexivity.
Qed.

Lemma value_strip : forall r, finite r -> strip (raw_value r) = value_tree r.
Proof.
  intros r F. unfold finite in F. unfold value_tree, raw_value. destruct (r_type r); try contradiction; try reflexivity.
  - unfold neg. destruct (r_int r <? 0) eqn:E; cbn; repeat f_equal; lia.
  - destruct (r_float r) as [s|s| |s m e]; try contradiction; destruct s; reflexivity.
Qed.

Lemma needs_converted : forall r a native goal, known a -> r_native r = Some native -> GoType native = Some goal ->
  (ety_eqb (r_type r) TyInt || ety_eqb (r_type r) TyFloat) = true ->
  needs_cast goal r a = Some (converted r a).
Proof.
  intros r a native goal K N G T. unfold needs_cast, converted, operand_type, known in *. rewrite T, N, G. cbn [andb].
  destruct (symbol a) as [[go|]|]; [reflexivity|congruence|].
  destruct (ety_eqb (r_type (res a)) (r_type r)); cbn [negb]; [|reflexivity].
  destruct (r_native (res a)) as [t|]; [|reflexivity]. destruct (GoType t); [reflexivity|congruence].
Qed.

Lemma equal_types_flatten : forall op r a b ta tb, known a -> known b -> match r_native r with Some t => GoType t <> None | None => True end ->
  equal_types_text op r a b (flatten ta) (flatten tb) = Some (flatten (GBin op (cast (converted r a) r ta) (cast (converted r b) r tb))).
Proof.
  intros op r a b ta tb Ka Kb Kn. unfold equal_types_text. destruct (ety_eqb (r_type r) TyInt || ety_eqb (r_type r) TyFloat) eqn:T.
  - destruct (r_native r) as [native|] eqn:N.
    + destruct (GoType native) as [goal|] eqn:G; [|congruence]. cbn [obind].
      rewrite (needs_converted r a native goal Ka N G T), (needs_converted r b native goal Kb N G T). cbn [obind].
      unfold cast. rewrite N, G. destruct (converted r a), (converted r b); reflexivity.
    + unfold cast, converted. rewrite N, T. reflexivity.
  - unfold cast, converted. rewrite T. reflexivity.
Qed.

Lemma print_flatten : forall e, printable e -> print e = Some (flatten (raw e)).
Proof.
  induction e as [r|r|i go r|a IHa r|a IHa go r|a IHa i IHi r|a IHa d go r|a IHa b IHb r|a IHa r|a IHa r|a IHa r|m a IHa r|a IHa r|a IHa r|op a IHa b IHb r|op a IHa b IHb r|op a IHa b IHb r|both a IHa b IHb r|c IHc a IHa b IHb r];
  cbn [print printable raw res]; intros P; destruct (r_full r) eqn:F; try (f_equal; now apply value_flatten); try contradiction.
  - destruct i; [reflexivity|reflexivity|congruence].
  - rewrite (IHa P). reflexivity.
  - destruct P as (P & _). rewrite (IHa P). reflexivity.
  - destruct P as (P & _ & Q). rewrite (IHa P), (IHi Q). reflexivity.
  - destruct d as [item c|item|n].
    + destruct a as [ | |[ | | ] go' r'| | | | | | | | | | | | | | | | ]; try contradiction. cbn [print raw res]. rewrite (proj1 P). cbn. destruct c; reflexivity.
    + destruct a as [ | |[ | | ] go' r'| | | | | | | | | | | | | | | | ]; try contradiction. cbn [print raw res]. rewrite (proj1 P). reflexivity.
    + destruct P as (P & _). rewrite (IHa P). reflexivity.
  - destruct P as (P & Q). rewrite (IHa P), (IHb Q). cbn [obind flatten]. f_equal. rewrite <- !app_assoc. reflexivity.
  - rewrite (IHa P). reflexivity.
  - exact (IHa P).
  - rewrite (IHa P). reflexivity.
  - rewrite (IHa P). reflexivity.
  - destruct P as (P & Q & Ka & Kb & Kn). rewrite (IHa P), (IHb Q). cbn [obind]. now apply equal_types_flatten.
  - destruct P as (P & Q & Ka & Kb & Kn). rewrite (IHa P), (IHb Q). cbn [obind]. now apply equal_types_flatten.
  - destruct P as (P & Q & K). rewrite (IHa P), (IHb Q). cbn [obind]. unfold bitwise_text, cast. change (is_shift op) with (shifts op).
    destruct (shifts op && ety_eqb (r_type (res a)) TyInt && r_full (res a)) eqn:C; [|reflexivity].
    assert (Fa : r_full (res a) = true) by (destruct (r_full (res a)); [reflexivity|rewrite andb_false_r in C; discriminate]).
    assert (Sh : shifts op = true) by (destruct (shifts op); [reflexivity|discriminate C]).
    specialize (K Sh Fa). destruct (r_native r) as [native|]; [|contradiction]. destruct (GoType native); [|congruence]. reflexivity.
  - destruct P as (P & Q). rewrite (IHa P), (IHb Q). reflexivity.
Qed.

(** Go types are not functions. *)
Lemma goBits_type : forall b, In (goBits b) ["" ; "8"; "16"; "32"; "64"]%string.
Proof. intros b. unfold goBits. repeat match goal with |- context [if ?c then _ else _] => destruct c end; cbn; tauto. Qed.
Lemma gotype_name : forall t go, GoType t = Some go -> ((go =? "len") || (go =? "ztype.NumBits"))%string = false.
Proof.
  intros t go H. unfold GoType in H. pose proof (goBits_type (t_bits t)) as B.
  assert (A : forall l, assoc (t_name t) l = Some go -> In go (map snd l)).
  { induction l as [|[k v] l IH]; cbn; [discriminate|]. destruct (k =? t_name t)%string; [injection 1; auto|auto]. }
  repeat match type of H with (if ?c then _ else _) = _ => destruct c end;
  try (injection H as <-; destruct (t_dynamic t); [reflexivity|]; cbn in B; repeat (destruct B as [<-|B]; [reflexivity|]); contradiction).
  - injection H as <-. reflexivity.
  - injection H as <-. reflexivity.
  - apply A in H. cbn in H. repeat (destruct H as [<-|H]; [reflexivity|]). contradiction.
Qed.

Lemma cast_strip : forall c r t, strip (cast c r t) = strip t.
Proof.
  intros c r t. unfold cast. destruct c; [|reflexivity]. destruct (r_native r) as [n|]; [|reflexivity]. destruct (GoType n) eqn:G; [|reflexivity].
  cbn [strip]. now rewrite (gotype_name _ _ G).
Qed.

Lemma raw_strip : forall e, printable e -> strip (raw e) = source e.
Proof.
  induction e as [r|r|i go r|a IHa r|a IHa go r|a IHa i IHi r|a IHa d go r|a IHa b IHb r|a IHa r|a IHa r|a IHa r|m a IHa r|a IHa r|a IHa r|op a IHa b IHb r|op a IHa b IHb r|op a IHa b IHb r|both a IHa b IHb r|c IHc a IHa b IHb r];
  cbn [source printable raw res]; intros P; destruct (r_full r) eqn:F; try (now apply value_strip); try contradiction; try reflexivity.
  - destruct i; [reflexivity|reflexivity|congruence].
  - exact (IHa P).
  - cbn [strip]. now rewrite (IHa (proj1 P)).
  - cbn [strip]. destruct P as (P & _ & Q). now rewrite (IHa P), (IHi Q).
  - destruct d as [item c|item|n].
    + destruct a as [ | |[ |t| ] go' r'| | | | | | | | | | | | | | | | ]; try contradiction. cbn [raw res]. rewrite (proj1 P). destruct c; [|reflexivity]. cbn [strip].
      rewrite (proj2 P). reflexivity.
    + destruct a as [ | |[ |t| ] go' r'| | | | | | | | | | | | | | | | ]; try contradiction. cbn [raw res source]. rewrite (proj1 P). reflexivity.
    + cbn [strip]. now rewrite (IHa (proj1 P)).
  - cbn [strip]. destruct P as (P & Q). now rewrite (IHa P), (IHb Q).
  - cbn. now rewrite (IHa P).
  - exact (IHa P).
  - cbn. now rewrite (IHa P).
  - cbn [strip]. now rewrite (IHa P).
  - cbn [strip]. destruct P as (P & Q & _). now rewrite !cast_strip, (IHa P), (IHb Q).
  - cbn [strip]. destruct P as (P & Q & _). now rewrite !cast_strip, (IHa P), (IHb Q).
  - cbn [strip]. destruct P as (P & Q & _). now rewrite !cast_strip, (IHa P), (IHb Q).
  - cbn [strip]. destruct P as (P & Q). now rewrite (IHa P), (IHb Q).
Qed.


(** ** Where operands bind strongly enough *)

Lemma wf_value : forall r, wf (raw_value r).
Proof.
  intros r. unfold raw_value, neg. destruct (r_type r); try exact I.
  - destruct (r_int r <? 0); cbn; auto.
  - destruct (r_float r) as [s|s| |s m e]; try exact I; destruct s; cbn; auto.
Qed.
Lemma top_value : forall r, finite r -> top (raw_value r) = if negative r then 6%nat else 7%nat.
Proof.
  intros r F. unfold finite in F. unfold raw_value, neg, negative. destruct (r_type r); try contradiction; try reflexivity.
  - destruct (r_int r <? 0); reflexivity.
  - destruct (r_float r) as [s|s| |s m e]; try contradiction; destruct s; reflexivity.
Qed.
Lemma wf_cast : forall c r t, wf (cast c r t) <-> wf t.
Proof.
  intros c r t. unfold cast. destruct c; [|tauto]. destruct (r_native r) as [n|]; [|tauto]. destruct (GoType n); [|tauto].
  cbn. intuition.
Qed.
Lemma top_cast : forall c r t, (c = true -> exists n go, r_native r = Some n /\ GoType n = Some go) ->
  top (cast c r t) = if c then 7%nat else top t.
Proof. intros c r t H. unfold cast. destruct c; [|reflexivity]. destruct (H eq_refl) as (n & go & -> & ->). reflexivity. Qed.
Lemma converted_known : forall r e, match r_native r with Some t => GoType t <> None | None => True end ->
  converted r e = true -> exists n go, r_native r = Some n /\ GoType n = Some go.
Proof.
  intros r e H C. unfold converted in C. destruct (r_native r) as [n|]; [|rewrite andb_false_r in C; discriminate].
  destruct (GoType n) as [go|] eqn:G; [eauto|congruence].
Qed.
Lemma place_strength : forall e, place e -> strength e = 7%nat.
Proof. intros e (F & P). destruct e as [ | | | | | |a [ | | ] go r| | | | | | | | | | | | ]; cbn [res] in F; cbn [strength res]; rewrite F; try contradiction; reflexivity. Qed.
Lemma binary_wf : forall o ta tb sa sb ca cb r (Pa Pb : Prop), (wf ta <-> Pa) -> (wf tb <-> Pb) -> top ta = sa -> top tb = sb ->
  (ca = true -> exists n go, r_native r = Some n /\ GoType n = Some go) -> (cb = true -> exists n go, r_native r = Some n /\ GoType n = Some go) ->
  (wf (GBin o (cast ca r ta) (cast cb r tb)) <->
   Pa /\ Pb /\ (ca = true \/ (prec o <= sa)%nat) /\ (cb = true \/ (prec o < sb)%nat)).
Proof.
  intros o ta tb sa sb ca cb r Pa Pb Wa Wb Ta Tb Ca Cb. cbn [wf]. rewrite !wf_cast, Wa, Wb, (top_cast _ _ _ Ca), (top_cast _ _ _ Cb), Ta, Tb.
  pose proof (prec_range o). destruct ca, cb; intuition (try lia; try discriminate).
Qed.

Lemma raw_wf : forall e, printable e -> (wf (raw e) <-> agree e) /\ top (raw e) = strength e.
Proof.
  assert (NC : forall r : result, false = true -> exists n go, r_native r = Some n /\ GoType n = Some go) by discriminate.
  induction e as [r|r|i go r|a IHa r|a IHa go r|a IHa i IHi r|a IHa d go r|a IHa b IHb r|a IHa r|a IHa r|a IHa r|m a IHa r|a IHa r|a IHa r|op a IHa b IHb r|op a IHa b IHb r|op a IHa b IHb r|both a IHa b IHb r|c IHc a IHa b IHb r];
  cbn [agree strength printable raw res]; intros P; destruct (r_full r) eqn:F; try (split; [split; [constructor|intros _; apply wf_value]|now apply top_value]); try contradiction.
  - cbn. tauto.
  - destruct i; cbn; intuition.
  - destruct (IHa P) as (Wa & Ta). cbn. tauto.
  - destruct P as (P & L). destruct (IHa P) as (Wa & Ta). cbn. rewrite Ta, (place_strength a L). intuition.
  - destruct P as (P & L & Q). destruct (IHa P) as (Wa & Ta), (IHi Q) as (Wi & Ti). cbn. rewrite Ta, (place_strength a L). intuition.
  - destruct d as [item c|item|n].
    + destruct a as [ | |[ |t| ] go' r'| | | | | | | | | | | | | | | | ]; try contradiction. cbn [raw res agree]. rewrite (proj1 P). destruct c; cbn; tauto.
    + destruct a as [ | |[ |t| ] go' r'| | | | | | | | | | | | | | | | ]; try contradiction. cbn [raw res agree]. rewrite (proj1 P). cbn; tauto.
    + destruct P as (P & L). destruct (IHa P) as (Wa & Ta). cbn. rewrite Ta, (place_strength a L). intuition.
  - destruct P as (P & Q). destruct (IHa P) as (Wa & Ta), (IHb Q) as (Wb & Tb). split; [|reflexivity].
    pose proof (binary_wf BAnd (raw a) (raw b) _ _ false false r _ _ Wa Wb Ta Tb (NC r) (NC r)) as B. cbn [cast] in B.
    cbn [wf top]. cbn [wf] in B. rewrite B. cbn. intuition lia.
  - destruct (IHa P) as (Wa & Ta). cbn. tauto.
  - exact (IHa P).
  - destruct (IHa P) as (Wa & Ta). cbn. tauto.
  - destruct (IHa P) as (Wa & Ta). cbn [wf top]. rewrite Ta. tauto.
  - destruct P as (P & Q & Ka & Kb & Kn). destruct (IHa P) as (Wa & Ta), (IHb Q) as (Wb & Tb). split; [|reflexivity].
    exact (binary_wf _ _ _ _ _ _ _ r _ _ Wa Wb Ta Tb (converted_known r a Kn) (converted_known r b Kn)).
  - destruct P as (P & Q & Ka & Kb & Kn). destruct (IHa P) as (Wa & Ta), (IHb Q) as (Wb & Tb). split; [|reflexivity].
    exact (binary_wf _ _ _ _ _ _ _ r _ _ Wa Wb Ta Tb (converted_known r a Kn) (converted_known r b Kn)).
  - destruct P as (P & Q & K). destruct (IHa P) as (Wa & Ta), (IHb Q) as (Wb & Tb). split; [|reflexivity].
    apply (binary_wf (bits_op op) (raw a) (raw b) _ _ _ false r _ _ Wa Wb Ta Tb); [|apply NC].
    intros C. assert (Fa : r_full (res a) = true) by (destruct (r_full (res a)); [reflexivity|rewrite andb_false_r in C; discriminate]).
    assert (Sh : shifts op = true) by (destruct (shifts op); [reflexivity|discriminate C]).
    specialize (K Sh Fa). destruct (r_native r) as [n|]; [|contradiction]. destruct (GoType n) as [g|] eqn:G; [eauto|congruence].
  - destruct P as (P & Q). destruct (IHa P) as (Wa & Ta), (IHb Q) as (Wb & Tb). split; [|reflexivity].
    exact (binary_wf _ _ _ _ _ false false r _ _ Wa Wb Ta Tb (NC r) (NC r)).
Qed.

(** ** The text tells which tree is meant *)

(** What is called with an argument is a name, and signs are those of literals. *)
Fixpoint plain (t : gtree) : Prop :=
  match t with
  | GName _ | GLit _ => True
  | GParen a | GNot a => plain a
  | GNeg a => match a with GLit (LInt _) | GLit (LDecimal _) => True | _ => False end
  | GCall f a => match f with GName _ | GParen (GName _) => plain a | _ => False end
  | GIndex f a => plain f /\ top f = 7%nat /\ plain a
  | GInvoke f | GSelect f _ => plain f /\ top f = 7%nat
  | GBin _ a b => plain a /\ plain b
  end.
Lemma plain_wfp : forall t, plain t -> wfp t.
Proof.
  induction t as [x|l|a IHa|f IHf a IHa|f IHf|a IHa i IHi|a IHa x|a IHa|a IHa|o a IHa b IHb]; cbn; intros H; intuition.
  - destruct f as [ | |[ | | | | | | | | | ]| | | | | | | ]; try contradiction; exact I.
  - destruct f as [ | |[ | | | | | | | | | ]| | | | | | | ]; try contradiction; reflexivity.
  - apply IHa. destruct f as [ | |[ | | | | | | | | | ]| | | | | | | ]; try contradiction; exact H.
  - destruct a as [ |[ | | | ]| | | | | | | | ]; try contradiction; exact I.
Qed.
Lemma plain_value : forall r, plain (raw_value r).
Proof.
  intros r. unfold raw_value, neg. destruct (r_type r); try exact I.
  - destruct (r_int r <? 0); exact I.
  - destruct (r_float r) as [s|s| |s m e]; try exact I; destruct s; exact I.
Qed.
Lemma plain_cast : forall c r t, plain t -> plain (cast c r t).
Proof. intros c r t H. unfold cast. destruct c; [|exact H]. destruct (r_native r) as [n|]; [|exact H]. destruct (GoType n); exact H. Qed.
Lemma raw_plain : forall e, printable e -> plain (raw e).
Proof.
  induction e as [r|r|i go r|a IHa r|a IHa go r|a IHa i IHi r|a IHa d go r|a IHa b IHb r|a IHa r|a IHa r|a IHa r|m a IHa r|a IHa r|a IHa r|op a IHa b IHb r|op a IHa b IHb r|op a IHa b IHb r|both a IHa b IHb r|c IHc a IHa b IHb r];
  cbn [printable raw res]; intros P; destruct (r_full r) eqn:F; try apply plain_value; try contradiction; try exact I; try (exact (IHa P)).
  - destruct i; cbn; auto.
  - destruct P as (P & L). split; [exact (IHa P)|]. rewrite (proj2 (raw_wf a P)). now apply place_strength.
  - destruct P as (P & L & Q). repeat split; [exact (IHa P)| |exact (IHi Q)]. rewrite (proj2 (raw_wf a P)). now apply place_strength.
  - destruct d as [item c|item|n].
    + destruct a as [ | |[ |t| ] go' r'| | | | | | | | | | | | | | | | ]; try contradiction. cbn [raw res]. rewrite (proj1 P). destruct c; exact I.
    + destruct a as [ | |[ |t| ] go' r'| | | | | | | | | | | | | | | | ]; try contradiction. cbn [raw res]. rewrite (proj1 P). exact I.
    + destruct P as (P & L). split; [exact (IHa P)|]. rewrite (proj2 (raw_wf a P)). now apply place_strength.
  - destruct P as (P & Q). cbn. auto.
  - destruct P as (P & Q & _). cbn. split; apply plain_cast; auto.
  - destruct P as (P & Q & _). cbn. split; apply plain_cast; auto.
  - destruct P as (P & Q & _). cbn. split; [apply plain_cast|]; auto.
  - destruct P as (P & Q). cbn. auto.
Qed.

Fixpoint nbin (t : gtree) : nat :=
  match t with
  | GName _ | GLit _ => 0
  | GParen a | GNot a | GNeg a | GInvoke a | GSelect a _ => nbin a
  | GCall f a | GIndex f a => nbin f + nbin a
  | GBin _ a b => S (nbin a + nbin b)
  end.
Lemma nbin_binaries : forall t, binaries false (flatten t) = nbin t.
Proof.
  induction t as [x|l|a IHa|f IHf a IHa|f IHf|a IHa i IHi|a IHa x|a IHa|a IHa|o a IHa b IHb]; cbn [flatten nbin]; try reflexivity;
  repeat (rewrite ?binaries_app, ?after_flatten; cbn [app binaries counts ends after]); lia.
Qed.
Lemma strip_call : forall f a, strip (GCall f a) = strip a \/ exists n, f = GName n /\ strip (GCall f a) = GCall (GName n) (strip a).
Proof.
  intros f a. destruct f; try (left; reflexivity). cbn [strip]. destruct ((n =? "len") || (n =? "ztype.NumBits"))%string; [right; eauto|auto].
Qed.
Lemma strip_neg : forall a, strip (GNeg a) = GNeg (strip a) \/ exists l l', a = GLit l /\ strip (GNeg a) = GLit l'.
Proof. intros a. destruct a as [ |[ | | | ]| | | | | | | | ]; try (left; reflexivity); right; cbn; eauto. Qed.
Lemma nbin_strip : forall t, (nbin (strip t) <= nbin t)%nat.
Proof.
  induction t as [x|l|a IHa|f IHf a IHa|f IHf|a IHa i IHi|a IHa x|a IHa|a IHa|o a IHa b IHb]; try (cbn; lia).
  - destruct (strip_call f a) as [->|(n & -> & ->)]; cbn; lia.
  - destruct (strip_neg a) as [->|(l & l' & -> & ->)]; cbn; lia.
Qed.
Lemma nbin_plain : forall t, plain t -> nbin (strip t) = nbin t.
Proof.
  induction t as [x|l|a IHa|f IHf a IHa|f IHf|a IHa i IHi|a IHa x|a IHa|a IHa|o a IHa b IHb]; cbn [plain]; intros P; try (cbn; intuition lia).
  - assert (E : nbin f = 0%nat) by (destruct f as [ | |[ | | | | | | | | | ]| | | | | | | ]; try contradiction; reflexivity).
    assert (Pa : plain a) by (destruct f as [ | |[ | | | | | | | | | ]| | | | | | | ]; try contradiction; exact P).
    destruct (strip_call f a) as [->|(n & -> & ->)]; cbn; rewrite (IHa Pa); lia.
  - destruct a as [ |[ | | | ]| | | | | | | | ]; try contradiction; reflexivity.
Qed.

Lemma op_split : forall o a b a0 b0, flatten a ++ [TOp o] ++ flatten b = flatten a0 ++ [TOp o] ++ flatten b0 ->
  (nbin a0 <= nbin a)%nat -> (nbin b0 <= nbin b)%nat -> flatten a = flatten a0 /\ flatten b = flatten b0.
Proof.
  intros o a b a0 b0 H La Lb. destruct (split2 _ _ _ _ H) as [(l & E & F)|(l & E & F)].
  - destruct l as [|k l]; [rewrite app_nil_r in E; cbn in F; injection F as F; auto|]. exfalso. cbn in F. injection F as <- F.
    pose proof (nbin_binaries b0) as N. rewrite F in N. assert (X : after true (TOp o :: l) = false \/ after true (TOp o :: l) = true) by (destruct (after true (TOp o :: l)); auto).
    destruct X as [X|X].
    + pose proof (after_flatten a false) as Y. rewrite E, after_app, after_flatten, X in Y. discriminate.
    + assert (after false l = true) by (cbn in X; exact X).
      rewrite binaries_app, H0 in N. cbn in N. rewrite <- nbin_binaries in N, Lb. pose proof (nbin_binaries b).
      assert (B : (binaries false (flatten b) <= binaries false (flatten b))%nat) by lia. lia.
  - destruct l as [|k l]; [rewrite app_nil_r in E; cbn in F; injection F as F; auto|]. exfalso. cbn in F. injection F as <- F.
    pose proof (nbin_binaries a0) as N. rewrite E, binaries_app, after_flatten in N. cbn in N. pose proof (nbin_binaries a). lia.
Qed.

Lemma strip_bin : forall t o x y, wf t -> strip t = GBin o x y -> (top t = 7%nat) \/ exists a b, t = GBin o a b /\ strip a = x /\ strip b = y.
Proof.
  intros t o x y W H. destruct t as [n|l|a|f a|f|a i|a n|a|a|o' a b]; try (left; reflexivity).
  - discriminate.
  - destruct (strip_neg a) as [E|(l & l' & _ & E)]; rewrite E in H; discriminate.
  - right. cbn in H. injection H as -> <- <-. eauto.
Qed.

Lemma same_strip : forall t0 t, plain t0 -> wf t -> flatten t = flatten t0 -> strip t = strip t0 -> wf t0.
Proof.
  induction t0 as [n|l|a0 IHa|f0 IHf a0 IHa|f0 IHf|a0 IHa i0 IHi|a0 IHa n|a0 IHa|a0 IHa|o a0 IHa b0 IHb]; intros t P W F S.
  - exact I.
  - exact I.
  - assert (T : top t = 7%nat).
    { destruct t as [ | | | | | | |a|a|o a b]; try reflexivity; try discriminate. exfalso.
      exact (op_primary (GParen a0) _ _ _ (plain_wfp _ P) eq_refl (eq_sym F) (depth_flatten a)). }
    pose proof (primary_shape t (GParen a0) T eq_refl F) as Sh. destruct t; try contradiction. exact (IHa t P W Sh S).
  - assert (T : top t = 7%nat).
    { destruct t as [ | | | | | | |a|a|o a b]; try reflexivity; exfalso.
      - exact (head_primary (GCall f0 a0) _ _ (plain_wfp _ P) eq_refl (eq_sym F)).
      - exact (head_primary (GCall f0 a0) _ _ (plain_wfp _ P) eq_refl (eq_sym F)).
      - exact (op_primary (GCall f0 a0) _ _ _ (plain_wfp _ P) eq_refl (eq_sym F) (depth_flatten a)). }
    pose proof (primary_shape t (GCall f0 a0) T eq_refl F) as Sh. destruct t as [ | | |f a| | | | | | ]; try contradiction. destruct Sh as (Sf & Sa).
    assert (Wf0 : wf f0 /\ top f0 = 7%nat) by (cbn in P; destruct f0 as [ | |[ | | | | | | | | | ]| | | | | | | ]; try contradiction; cbn; auto).
    assert (Pa : plain a0) by (cbn in P; destruct f0 as [ | |[ | | | | | | | | | ]| | | | | | | ]; try contradiction; exact P).
    destruct W as (Wf & _ & Wa). assert (f = f0) by (apply flatten_inj; tauto). subst f0.
    repeat split; try tauto. apply (IHa a Pa Wa Sa).
    destruct f; try exact S. cbn [strip] in S. destruct ((n =? "len") || (n =? "ztype.NumBits"))%string; [injection S; auto|exact S].
  - assert (T : top t = 7%nat).
    { destruct t as [ | | | | | | |a|a|o a b]; try reflexivity; exfalso.
      - exact (head_primary (GInvoke f0) _ _ (plain_wfp _ P) eq_refl (eq_sym F)).
      - exact (head_primary (GInvoke f0) _ _ (plain_wfp _ P) eq_refl (eq_sym F)).
      - exact (op_primary (GInvoke f0) _ _ _ (plain_wfp _ P) eq_refl (eq_sym F) (depth_flatten a)). }
    pose proof (primary_shape t (GInvoke f0) T eq_refl F) as Sh. destruct t; try contradiction. destruct P as (Pf & Pt), W as (Wf & _).
    cbn in S. injection S as S. split; [|exact Pt]. exact (IHf t Pf Wf Sh S).
  - assert (T : top t = 7%nat).
    { destruct t as [ | | | | | | |a|a|o a b]; try reflexivity; exfalso.
      - exact (head_primary (GIndex a0 i0) _ _ (plain_wfp _ P) eq_refl (eq_sym F)).
      - exact (head_primary (GIndex a0 i0) _ _ (plain_wfp _ P) eq_refl (eq_sym F)).
      - exact (op_primary (GIndex a0 i0) _ _ _ (plain_wfp _ P) eq_refl (eq_sym F) (depth_flatten a)). }
    pose proof (primary_shape t (GIndex a0 i0) T eq_refl F) as Sh. destruct t; try contradiction. destruct P as (Pa & Pt & Pi), W as (Wa & _ & Wi).
    cbn in S. injection S as S1 S2. destruct Sh as (Sh1 & Sh2). repeat split; [exact (IHa _ Pa Wa Sh1 S1)|exact Pt|exact (IHi _ Pi Wi Sh2 S2)].
  - assert (T : top t = 7%nat).
    { destruct t as [ | | | | | | |a|a|o a b]; try reflexivity; exfalso.
      - exact (head_primary (GSelect a0 n) _ _ (plain_wfp _ P) eq_refl (eq_sym F)).
      - exact (head_primary (GSelect a0 n) _ _ (plain_wfp _ P) eq_refl (eq_sym F)).
      - exact (op_primary (GSelect a0 n) _ _ _ (plain_wfp _ P) eq_refl (eq_sym F) (depth_flatten a)). }
    pose proof (primary_shape t (GSelect a0 n) T eq_refl F) as Sh. destruct t; try contradiction. destruct P as (Pf & Pt), W as (Wf & _).
    cbn in S. injection S as S1 S2. split; [|exact Pt]. exact (IHa _ Pf Wf (proj1 Sh) S1).
  - assert (T : exists a, t = GNot a).
    { destruct t as [ | |a|f a|f|a i|a n|a|a|o a b]; try discriminate; try (eexists; reflexivity); exfalso.
      exact (head_primary _ _ _ (wf_wfp _ W) eq_refl F). }
    destruct T as (a & ->). cbn in F, S. injection F as F. injection S as S. destruct W as (Wa & Ta).
    pose proof (IHa a P Wa F S) as Wa0. assert (a = a0) by (apply flatten_inj; assumption). subst a0. split; assumption.
  - cbn in P. destruct a0 as [ |[ | | | ]| | | | | | | | ]; try contradiction; cbn; auto.
  - destruct (strip_bin t o (strip a0) (strip b0) W S) as [T|(a & b & -> & Sa & Sb)].
    + exfalso. exact (op_primary _ _ _ _ (wf_wfp _ W) T F (depth_flatten a0)).
    + destruct P as (Pa & Pb), W as (Wa & Wb & Ta & Tb).
      destruct (op_split o a b a0 b0 F) as (Fa & Fb).
      { rewrite <- (nbin_plain a0 Pa), <- Sa. apply nbin_strip. }
      { rewrite <- (nbin_plain b0 Pb), <- Sb. apply nbin_strip. }
      pose proof (IHa a Pa Wa Fa Sa) as Wa0. pose proof (IHb b Pb Wb Fb Sb) as Wb0.
      assert (a = a0) by (apply flatten_inj; assumption). assert (b = b0) by (apply flatten_inj; assumption). subst a0 b0.
      repeat split; assumption.
Qed.

Theorem print_read : forall e, printable e ->
  (agree e <-> exists ts t, print e = Some ts /\ go_expression ts t /\ strip t = source e).
Proof.
  intros e P. destruct (raw_wf e P) as (W & T). rewrite <- W. split.
  - intros H. exists (flatten (raw e)), (raw e). split; [exact (print_flatten e P)|]. split; [|exact (raw_strip e P)].
    apply wf_parses; [exact H|]. pose proof (top_range (raw e)). lia.
  - intros (ts & t & E & G & S). rewrite (print_flatten e P) in E. injection E as <-.
    apply parses_wf in G as (F & Wt & _). apply (same_strip _ t (raw_plain e P) Wt (eq_sym F)). rewrite S. symmetry. exact (raw_strip e P).
Qed.
Theorem print_total : forall e, printable e -> exists ts, print e = Some ts.
Proof. intros e P. eexists. exact (print_flatten e P). Qed.

Theorem pairs : forall p s o, written p s o -> (~ understood p s o <-> misread p s o = true).
Proof. intros p s o H. destruct p, s, o; cbn in *; intuition (try discriminate; try lia). Qed.

(** ** Crashes *)

Lemma obind_none {A B} : forall (a : option A) (f : A -> option B), obind a f = None <-> a = None \/ exists x, a = Some x /\ f x = None.
Proof. intros [x|] f; cbn; split; intros H; [eauto|destruct H as [H|(y & E & H)]; congruence|auto|reflexivity]. Qed.

Lemma ety_eqb_eq : forall a b, ety_eqb a b = true <-> a = b.
Proof. intros a b. destruct a, b; cbn; split; congruence. Qed.
Lemma ety_eqb_neq : forall a b, ety_eqb a b = false <-> a <> b.
Proof. intros a b. rewrite <- (ety_eqb_eq a b). destruct (ety_eqb a b); split; congruence. Qed.

Lemma needs_cast_none : forall goal r e, needs_cast goal r e = None <-> no_type r e.
Proof.
  intros goal r e. unfold needs_cast, no_type, typeless. destruct (symbol e) as [[go|]|]; [split; congruence|tauto|].
  destruct (ety_eqb (r_type (res e)) (r_type r)) eqn:E; cbn [negb].
  - apply ety_eqb_eq in E. destruct (r_native (res e)) as [t|]; [|split; [congruence|tauto]]. destruct (GoType t); split; intros H; try congruence; try tauto. now destruct H.
  - apply ety_eqb_neq in E. split; [congruence|tauto].
Qed.

Lemma equal_types_none : forall op r a b ta tb, equal_types_text op r a b ta tb = None <->
  (r_type r = TyInt \/ r_type r = TyFloat) /\ (typeless (r_native r) \/ (r_native r <> None /\ (no_type r a \/ no_type r b))).
Proof.
  intros op r a b ta tb. unfold equal_types_text.
  assert (T : (ety_eqb (r_type r) TyInt || ety_eqb (r_type r) TyFloat) = true <-> r_type r = TyInt \/ r_type r = TyFloat) by (rewrite orb_true_iff, !ety_eqb_eq; tauto).
  destruct (ety_eqb (r_type r) TyInt || ety_eqb (r_type r) TyFloat).
  - assert (T' : r_type r = TyInt \/ r_type r = TyFloat) by tauto. destruct (r_native r) as [n|]; cbn [typeless]; [|split; [congruence|intuition congruence]].
    destruct (GoType n) as [goal|]; cbn [obind]; [|intuition].
    rewrite <- (needs_cast_none goal r a), <- (needs_cast_none goal r b).
    destruct (needs_cast goal r a), (needs_cast goal r b); cbn [obind]; intuition congruence.
  - split; [congruence|]. intros (H & _). apply T in H. discriminate.
Qed.
Lemma bitwise_none : forall op r a ta tb, bitwise_text op r a ta tb = None <->
  match op with LShift | RShift => r_type (res a) = TyInt /\ r_full (res a) = true /\ (r_native r = None \/ typeless (r_native r)) | _ => False end.
Proof.
  intros op r a ta tb. unfold bitwise_text. change (is_shift op) with (shifts op).
  destruct op; cbn [shifts andb]; try (split; [congruence|tauto]);
  destruct (ety_eqb (r_type (res a)) TyInt) eqn:E; cbn [andb];
  try (apply ety_eqb_neq in E; split; [congruence|tauto]); apply ety_eqb_eq in E;
  (destruct (r_full (res a)); [|split; [congruence|intuition congruence]]);
  (destruct (r_native r) as [n|]; cbn [typeless]; [|tauto]); (destruct (GoType n); cbn [obind]; intuition congruence).
Qed.

Lemma visited_inv : forall x e, visited x e -> x = e \/
  (r_full (res e) = false /\
   match e with
   | AParen a _ | ACall a _ _ | ADot a _ _ _ | ALengthof a _ | AValueof a _ | ANumbits a _ | ANot a _ => visited x a
   | AElement a b _ | AIsset a b _ | AArith _ a b _ | ACompare _ a b _ | ABitwise _ a b _ | ALogic _ a b _ => visited x a \/ visited x b
   | ATernary c a b _ => visited x c \/ visited x a \/ visited x b
   | _ => False
   end).
Proof. intros x e H. destruct H; cbn [res]; auto. Qed.

Definition fails (e : aexpr) : Prop := exists x, visited x e /\ crash x.

Lemma fails_inv : forall e, fails e <-> crash e \/
  (r_full (res e) = false /\
   match e with
   | AParen a _ | ACall a _ _ | ADot a _ _ _ | ALengthof a _ | AValueof a _ | ANumbits a _ | ANot a _ => fails a
   | AElement a b _ | AIsset a b _ | AArith _ a b _ | ACompare _ a b _ | ABitwise _ a b _ | ALogic _ a b _ => fails a \/ fails b
   | ATernary c a b _ => fails c \/ fails a \/ fails b
   | _ => False
   end).
Proof.
  intros e. split.
  - intros (x & V & C). apply visited_inv in V as [->|(F & V)]; [auto|]. right. split; [exact F|].
    unfold fails. destruct e; try contradiction; try (exists x; tauto); intuition eauto.
  - intros [C|(F & H)]; [exists e; split; [constructor|exact C]|]. unfold fails in *.
    destruct e; try contradiction; cbn [res] in F;
    repeat match goal with H : _ \/ _ |- _ => destruct H end; match goal with H : exists x, _ |- _ => destruct H as (x & V & C) end; exists x; (split; [|exact C]);
    constructor; auto.
Qed.

Lemma print_fails : forall e, print e = None <-> fails e.
Proof.
  induction e as [r|r|i go r|a IHa r|a IHa go r|a IHa i IHi r|a IHa d go r|a IHa b IHb r|a IHa r|a IHa r|a IHa r|m a IHa r|a IHa r|a IHa r|op a IHa b IHb r|op a IHa b IHb r|op a IHa b IHb r|both a IHa b IHb r|c IHc a IHa b IHb r];
  rewrite fails_inv; unfold crash; cbn [print res];
  (destruct (r_full r) eqn:F; [split; [congruence|intros [(H & _)|(H & _)]; discriminate]|]);
  rewrite <- ?IHa, <- ?IHb, <- ?IHi, <- ?IHc; clear IHa IHb IHi IHc || idtac.
  all: try (destruct (print a) as [ta|]); try (destruct (print b) as [tb|]); try (destruct (print i) as [ti|]); try (destruct (print c) as [tc|]); cbn [obind];
    rewrite ?equal_types_none, ?bitwise_none; try (intuition congruence).
Qed.
Theorem print_crash : forall e, print e = None <-> exists x, visited x e /\ crash x.
Proof. exact print_fails. Qed.

(** Conditions inside of expressions *)

Lemma parses_tokens : forall n ts t, parses n ts t -> forall s, ~ In (TOther s) ts.
Proof.
  induction 1; intros s I; repeat (apply in_app_or in I as [I|I] || (destruct I as [I|I]; [discriminate|])); try contradiction; firstorder.
Qed.
Definition other (ts : list tok) : Prop := exists s, In (TOther s) ts.
Lemma other_l : forall x y, other x -> other (x ++ y).
Proof. intros x y (s & H). exists s. apply in_or_app. auto. Qed.
Lemma other_r : forall x y, other y -> other (x ++ y).
Proof. intros x y (s & H). exists s. apply in_or_app. auto. Qed.
Lemma other_cons : forall k y, other y -> other (k :: y).
Proof. intros k y (s & H). exists s. right. exact H. Qed.
Lemma other_cast : forall (c : bool) goal ts, other ts -> other (if c then conversion goal ts else ts).
Proof. intros c goal ts H. destruct c; [|exact H]. unfold conversion. apply other_r, other_r, other_l. exact H. Qed.
Lemma obind_some {A B} : forall (x : option A) (f : A -> option B) y, obind x f = Some y -> exists z, x = Some z /\ f z = Some y.
Proof. intros [z|] f y H; [exists z; auto|discriminate]. Qed.

Lemma other_equal : forall op r a b ta tb ts, equal_types_text op r a b ta tb = Some ts -> other ta \/ other tb -> other ts.
Proof.
  intros op r a b ta tb ts H O. unfold equal_types_text in H.
  assert (J : forall x y, other x \/ other y -> other (x ++ [TOp op] ++ y)) by (intros x y [X|Y]; [apply other_l, X|apply other_r, other_r, Y]).
  destruct (_ || _).
  - destruct (r_native r) as [n|]; [|injection H as <-; exact (J _ _ O)].
    apply obind_some in H as (goal & _ & H). apply obind_some in H as (ca & _ & H). apply obind_some in H as (cb & _ & H). injection H as <-.
    apply J. destruct O as [O|O]; [left|right]; apply other_cast, O.
  - injection H as <-. exact (J _ _ O).
Qed.
Lemma other_bitwise : forall op r a ta tb ts, bitwise_text op r a ta tb = Some ts -> other ta \/ other tb -> other ts.
Proof.
  intros op r a ta tb ts H O. unfold bitwise_text in H. change (is_shift op) with (shifts op) in H.
  assert (J : forall x y, other x \/ other y -> other (x ++ [TOp (bits_op op)] ++ y)) by (intros x y [X|Y]; [apply other_l, X|apply other_r, other_r, Y]).
  destruct (_ && _).
  - destruct (r_native r) as [n|]; [|discriminate]. apply obind_some in H as (goal & _ & H). injection H as <-.
    apply (J (conversion goal ta) tb). destruct O as [O|O]; [left|right]; [apply (other_cast true), O|exact O].
  - injection H as <-. exact (J _ _ O).
Qed.

Ltac into H := first [exact H | apply other_cons; into H | apply other_l; into H | apply other_r; into H].
Lemma mentions : forall c0 a0 b0 r0, r_full r0 = false -> forall e ts, items_of_types e -> visited (ATernary c0 a0 b0 r0) e -> print e = Some ts -> other ts.
Proof.
  intros c0 a0 b0 r0 F0.
  assert (T : forall ts, print (ATernary c0 a0 b0 r0) = Some ts -> other ts).
  { intros ts H. cbn [print res] in H. rewrite F0 in H. apply obind_some in H as (tc & _ & H). apply obind_some in H as (ta & _ & H).
    apply obind_some in H as (tb & _ & H). injection H as <-. apply other_r. eexists. left. reflexivity. }
  induction e as [r|r|i go r|a IHa r|a IHa go r|a IHa i IHi r|a IHa d go r|a IHa b IHb r|a IHa r|a IHa r|a IHa r|m a IHa r|a IHa r|a IHa r|op a IHa b IHb r|op a IHa b IHb r|op a IHa b IHb r|both a IHa b IHb r|c IHc a IHa b IHb r];
  intros ts I V P; (apply visited_inv in V as [V|(F & V)]; [rewrite <- V in P; exact (T ts P)|]); try contradiction; cbn [res] in F; cbn [print res] in P; rewrite F in P;
  (* the hypothesis about items goes down *)
  try (assert (Ia : items_of_types a) by (intros a' d' go' r' H; apply (I a' d' go' r'); constructor; auto));
  try (assert (Ib : items_of_types b) by (intros a' d' go' r' H; apply (I a' d' go' r'); constructor; auto));
  try (assert (Ii : items_of_types i) by (intros a' d' go' r' H; apply (I a' d' go' r'); constructor; auto));
  try (assert (Ic : items_of_types c) by (intros a' d' go' r' H; apply (I a' d' go' r'); constructor; auto));
  try (apply obind_some in P as (ta & Pa & P)); try (apply obind_some in P as (tb & Pb & P)).
  - injection P as <-. into (IHa _ Ia V Pa).
  - injection P as <-. into (IHa _ Ia V Pa).
  - injection P as <-. destruct V as [V|V]; [into (IHa _ Ia V Pa)|into (IHi _ Ii V Pb)].
  - injection P as <-. pose proof (I a d go r (V_self _)) as D. destruct d as [item cast|item|n].
    + destruct D as (i & g & r' & -> & _). apply visited_inv in V as [V|(_ & V)]; [discriminate|contradiction].
    + destruct D as (i & g & r' & -> & _). apply visited_inv in V as [V|(_ & V)]; [discriminate|contradiction].
    + into (IHa _ Ia V Pa).
  - injection P as <-. destruct V as [V|V]; [into (IHa _ Ia V Pa)|into (IHb _ Ib V Pb)].
  - injection P as <-. into (IHa _ Ia V Pa).
  - exact (IHa _ Ia V P).
  - injection P as <-. into (IHa _ Ia V Pa).
  - injection P as <-. into (IHa _ Ia V Pa).
  - apply (other_equal _ _ _ _ _ _ _ P). destruct V as [V|V]; [left; exact (IHa _ Ia V Pa)|right; exact (IHb _ Ib V Pb)].
  - apply (other_equal _ _ _ _ _ _ _ P). destruct V as [V|V]; [left; exact (IHa _ Ia V Pa)|right; exact (IHb _ Ib V Pb)].
  - apply (other_bitwise _ _ _ _ _ _ P). destruct V as [V|V]; [left; exact (IHa _ Ia V Pa)|right; exact (IHb _ Ib V Pb)].
  - injection P as <-. destruct V as [V|V]; [into (IHa _ Ia V Pa)|into (IHb _ Ib V Pb)].
  - apply obind_some in P as (tc & Pc & P). injection P as <-. apply other_r. eexists. left. reflexivity.
Qed.

Theorem condition_text : forall c a b r e ts, items_of_types e -> r_full r = false -> visited (ATernary c a b r) e -> print e = Some ts ->
  forall t, ~ go_expression ts t.
Proof.
  intros c a b r e ts I F V P t G. destruct (mentions c a b r F e ts I V P) as (s & H). exact (parses_tokens _ _ _ G s H).
Qed.

(** ** Expressions of the schema language *)

Lemma operator_strength : forall e, ~ bracketless e -> match operator e with Some o => strength e = prec o | None => (6 <= strength e)%nat end.
Proof.
  intros e B. unfold operator, bracketless in *. destruct e; cbn [strength res] in *; destruct (r_full r); try (destruct (negative r)); try lia; try reflexivity; exfalso; tauto.
Qed.

Lemma written_misread : forall p s x o, written p s o -> ~ bracketless x -> operator x = Some o ->
  (match s with OnLeft => (prec p <= strength x)%nat | OnRight => (prec p < strength x)%nat end <-> misread p s o = false).
Proof.
  intros p s x o W B O. pose proof (operator_strength x B) as S. rewrite O in S. rewrite S. pose proof (pairs p s o W) as P. unfold understood in P.
  destruct (misread p s o), s; split; intros H; try reflexivity; try congruence; try (exfalso; apply (proj2 P eq_refl); exact H);
  match goal with |- (?a <= ?b)%nat => destruct (le_lt_dec a b) as [L|L]; [exact L|exfalso; discriminate (proj1 P ltac:(lia))]
                | |- (?a < ?b)%nat => destruct (lt_dec a b) as [L|L]; [exact L|exfalso; discriminate (proj1 P L)] end.
Qed.

(** No operand that Go takes apart. *)
Definition fine (e : aexpr) : Prop :=
  forall p s x o o', visited p e -> operator p = Some o -> operand p s = Some x -> operator x = Some o' -> enclosed p s = false -> misread o s o' = false.

Lemma side_agree : forall p s x o, ~ bracketless x -> operand p s = Some x ->
  (forall o', operator x = Some o' -> written o s o') ->
  ((enclosed p s = true \/ match s with OnLeft => (prec o <= strength x)%nat | OnRight => (prec o < strength x)%nat end) <->
   (forall o', operator x = Some o' -> enclosed p s = false -> misread o s o' = false)).
Proof.
  intros p s x o B X W. destruct (operator x) as [o'|] eqn:O.
  - pose proof (written_misread o s x o' (W o' eq_refl) B O) as M. destruct (enclosed p s).
    + split; [congruence|auto].
    + rewrite M. split; [intros [H|H] o'' E _; [discriminate|injection E as <-; exact H]|intros H; right; apply H; reflexivity].
  - pose proof (operator_strength x B) as S. rewrite O in S. pose proof (prec_range o). split; [congruence|]. intros _. right. destruct s; lia.
Qed.

Lemma fine_binary : forall e a b o, operator e = Some o -> operand e OnLeft = Some a -> operand e OnRight = Some b ->
  (fine e <-> (fine a /\ fine b /\ (forall o', operator a = Some o' -> enclosed e OnLeft = false -> misread o OnLeft o' = false) /\
              (forall o', operator b = Some o' -> enclosed e OnRight = false -> misread o OnRight o' = false))).
Proof.
  intros e a b o O A B.
  assert (Va : forall p, visited p a -> visited p e).
  { intros p V. unfold operator in O. destruct (r_full (res e)) eqn:F; [discriminate|]. destruct e; try discriminate; cbn in A; injection A as <-; constructor; cbn in F; auto. }
  assert (Vb : forall p, visited p b -> visited p e).
  { intros p V. unfold operator in O. destruct (r_full (res e)) eqn:F; [discriminate|]. destruct e; try discriminate; cbn in B; injection B as <-; constructor; cbn in F; auto. }
  split.
  - intros H. split; [|split; [|split]].
    + intros p s x o1 o2 V. exact (H p s x o1 o2 (Va p V)).
    + intros p s x o1 o2 V. exact (H p s x o1 o2 (Vb p V)).
    + intros o' E. exact (H e OnLeft a o o' (V_self e) O A E).
    + intros o' E. exact (H e OnRight b o o' (V_self e) O B E).
  - intros (Ha & Hb & Ma & Mb) p s x o1 o2 V O1 X O2 E. apply visited_inv in V as [->|(F & V)].
    + rewrite O in O1. injection O1 as <-. destruct s; [rewrite A in X|rewrite B in X]; injection X as <-; auto.
    + assert (D : visited p a \/ visited p b).
      { unfold operator in O. rewrite F in O. destruct e; try discriminate; cbn in A, B; injection A as <-; injection B as <-; exact V. }
      destruct D as [D|D]; [exact (Ha p s x o1 o2 D O1 X O2 E)|exact (Hb p s x o1 o2 D O1 X O2 E)].
Qed.
Lemma fine_unary : forall e a, r_full (res e) = false -> (forall p, visited p e <-> p = e \/ visited p a) -> operator e = None -> (fine e <-> fine a).
Proof.
  intros e a F V O. split; intros H p s x o1 o2 Vp O1.
  - exact (H p s x o1 o2 (proj2 (V p) (or_intror Vp)) O1).
  - apply V in Vp as [->|Vp]; [congruence|]. exact (H p s x o1 o2 Vp O1).
Qed.
Lemma fine_leaf : forall e, (forall p, visited p e -> p = e) -> operator e = None -> fine e.
Proof. intros e V O p s x o1 o2 Vp O1. rewrite (V p Vp) in O1. congruence. Qed.

Lemma agree_fine : forall e, grammatical e -> (forall x, visited x e -> ~ bracketless x) -> (agree e <-> fine e).
Proof.
  assert (Down : forall e e', (forall p, visited p e' -> visited p e) -> grammatical e -> grammatical e').
  { intros e e' V (G & N). split; [intros p s x o o' Vp; exact (G p s x o o' (V p Vp))|intros x r Vp; exact (N x r (V _ Vp))]. }
  assert (DownB : forall e e', (forall p, visited p e' -> visited p e) -> (forall x, visited x e -> ~ bracketless x) -> forall x, visited x e' -> ~ bracketless x).
  { intros e e' V B x Vx. exact (B x (V x Vx)). }
  assert (Const : forall e, r_full (res e) = true -> (agree e <-> fine e)).
  { intros e F. split; intros _.
    - apply fine_leaf; [|unfold operator; now rewrite F]. intros p V. apply visited_inv in V as [->|(F' & _)]; [reflexivity|congruence].
    - destruct e; cbn [agree res] in *; rewrite F; exact I. }
  assert (Un : forall e a, r_full (res e) = false -> (forall p, visited p e <-> p = e \/ visited p a) -> operator e = None ->
    (grammatical a -> (forall x, visited x a -> ~ bracketless x) -> (agree a <-> fine a)) ->
    grammatical e -> (forall x, visited x e -> ~ bracketless x) -> (agree a <-> fine e)).
  { intros e a F V O IH G B. rewrite (fine_unary e a F V O). apply IH; [exact (Down e a (fun p H => proj2 (V p) (or_intror H)) G)|exact (DownB e a (fun p H => proj2 (V p) (or_intror H)) B)]. }
  assert (Bin : forall e a b o, operator e = Some o -> operand e OnLeft = Some a -> operand e OnRight = Some b ->
    (grammatical a -> (forall x, visited x a -> ~ bracketless x) -> (agree a <-> fine a)) ->
    (grammatical b -> (forall x, visited x b -> ~ bracketless x) -> (agree b <-> fine b)) ->
    grammatical e -> (forall x, visited x e -> ~ bracketless x) ->
    ((agree a /\ agree b /\ (enclosed e OnLeft = true \/ (prec o <= strength a)%nat) /\ (enclosed e OnRight = true \/ (prec o < strength b)%nat)) <-> fine e)).
  { intros e a b o O A B IHa IHb G Br. rewrite (fine_binary e a b o O A B).
    assert (Va : forall p, visited p a -> visited p e).
    { intros p V. unfold operator in O. destruct (r_full (res e)) eqn:F; [discriminate|]. destruct e; try discriminate; cbn in A; injection A as <-; constructor; cbn in F; auto. }
    assert (Vb : forall p, visited p b -> visited p e).
    { intros p V. unfold operator in O. destruct (r_full (res e)) eqn:F; [discriminate|]. destruct e; try discriminate; cbn in B; injection B as <-; constructor; cbn in F; auto. }
    rewrite (IHa (Down e a Va G) (DownB e a Va Br)), (IHb (Down e b Vb G) (DownB e b Vb Br)).
    pose proof (side_agree e OnLeft a o (Br a (Va a (V_self a))) A (fun o' H => proj1 G e OnLeft a o o' (V_self e) O A H)) as Sa.
    pose proof (side_agree e OnRight b o (Br b (Vb b (V_self b))) B (fun o' H => proj1 G e OnRight b o o' (V_self e) O B H)) as Sb.
    cbn iota in Sa, Sb. rewrite Sa, Sb. reflexivity. }
  induction e as [r|r|i go r|a IHa r|a IHa go r|a IHa i IHi r|a IHa d go r|a IHa b IHb r|a IHa r|a IHa r|a IHa r|m a IHa r|a IHa r|a IHa r|op a IHa b IHb r|op a IHa b IHb r|op a IHa b IHb r|both a IHa b IHb r|c IHc a IHa b IHb r];
  intros G B; (destruct (r_full r) eqn:F; [apply Const; exact F|]); cbn [agree res]; rewrite F.
  all: try (apply (Un _ a); [exact F| |unfold operator; cbn [res]; rewrite F; reflexivity|assumption|assumption|assumption];
            intros p; split; [intros V; apply visited_inv in V as [->|(_ & V)]; auto|intros [->|V]; [constructor|constructor; auto]]).
  all: try (split; [intros _; apply fine_leaf; [intros p V; apply visited_inv in V as [->|(_ & V)]; [reflexivity|contradiction]|unfold operator; cbn [res]; rewrite F; reflexivity]|intros _; exact I]).
  - assert (Va : forall p, visited p a -> visited p (AElement a i r)) by (intros p V; constructor; auto).
    assert (Vi : forall p, visited p i -> visited p (AElement a i r)) by (intros p V; constructor; auto).
    rewrite (IHa (Down _ a Va G) (DownB _ a Va B)), (IHi (Down _ i Vi G) (DownB _ i Vi B)). split.
    + intros (Ha & Hi) p s x o1 o2 V O1. apply visited_inv in V as [->|(_ & [V|V])]; [unfold operator in O1; cbn [res] in O1; rewrite F in O1; discriminate|exact (Ha p s x o1 o2 V O1)|exact (Hi p s x o1 o2 V O1)].
    + intros H. split; intros p s x o1 o2 V; [exact (H p s x o1 o2 (Va p V))|exact (H p s x o1 o2 (Vi p V))].
  - exfalso. apply (B (AIsset a b r) (V_self _)). split; [exact F|exact I].
  - assert (Va : forall p, visited p a -> visited p (ANot a r)) by (intros p V; constructor; auto).
    pose proof (proj2 G a r (V_self _) F) as N. pose proof (operator_strength a (B a (Va a (V_self a)))) as S. rewrite N in S.
    assert (E : agree a <-> fine (ANot a r)).
    { apply (Un _ a); [exact F| |unfold operator; cbn [res]; rewrite F; reflexivity|assumption|assumption|assumption].
      intros p; split; [intros V; apply visited_inv in V as [->|(_ & V)]; auto|intros [->|V]; [constructor|constructor; auto]]. }
    rewrite <- E. tauto.
  - apply (Bin (AArith op a b r) a b (arith_op op)); try assumption; try reflexivity. unfold operator. cbn [res]. rewrite F. reflexivity.
  - apply (Bin (ACompare op a b r) a b (relation_op op)); try assumption; try reflexivity. unfold operator. cbn [res]. rewrite F. reflexivity.
  - apply (Bin (ABitwise op a b r) a b (bits_op op)); try assumption; try reflexivity. unfold operator. cbn [res]. rewrite F. reflexivity.
  - apply (Bin (ALogic both a b r) a b (logic_op both)); try assumption; try reflexivity. unfold operator. cbn [res]. rewrite F. reflexivity.
  - assert (Va : forall p, visited p a -> visited p (ATernary c a b r)) by (intros p V; constructor; auto).
    assert (Vb : forall p, visited p b -> visited p (ATernary c a b r)) by (intros p V; constructor; auto).
    assert (Vc : forall p, visited p c -> visited p (ATernary c a b r)) by (intros p V; constructor; auto).
    rewrite (IHa (Down _ a Va G) (DownB _ a Va B)), (IHb (Down _ b Vb G) (DownB _ b Vb B)), (IHc (Down _ c Vc G) (DownB _ c Vc B)). split.
    + intros (Hc & Ha & Hb) p s x o1 o2 V O1.
      apply visited_inv in V as [->|(_ & [V|[V|V]])]; [unfold operator in O1; cbn [res] in O1; rewrite F in O1; discriminate|exact (Hc p s x o1 o2 V O1)|exact (Ha p s x o1 o2 V O1)|exact (Hb p s x o1 o2 V O1)].
    + intros H. split; [|split]; intros p s x o1 o2 V; [exact (H p s x o1 o2 (Vc p V))|exact (H p s x o1 o2 (Va p V))|exact (H p s x o1 o2 (Vb p V))].
Qed.

Theorem print_grammatical : forall e, printable e -> grammatical e -> (forall x, visited x e -> ~ bracketless x) ->
  ((exists ts t, print e = Some ts /\ go_expression ts t /\ strip t = source e) <->
   forall p s x o o', visited p e -> operator p = Some o -> operand p s = Some x -> operator x = Some o' -> enclosed p s = false -> misread o s o' = false).
Proof. intros e P G B. rewrite <- (print_read e P). exact (agree_fine e G B). Qed.

(** ** Float constants *)

Lemma micro_near : forall m e, 0 <= m -> e < 0 -> 2 * Z.abs (micro m e * 2 ^ (- e) - m * 1000000) <= 2 ^ (- e).
Proof.
  intros m e Hm He. unfold micro. replace (0 <=? e) with false by lia. cbv zeta.
  assert (0 < 2 ^ (- e)) by (apply Z.pow_pos_nonneg; lia). set (d := 2 ^ (- e)) in *.
  pose proof (Z.div_mod (m * 1000000) d ltac:(lia)) as D. pose proof (Z.mod_pos_bound (m * 1000000) d ltac:(lia)) as B.
  set (q := m * 1000000 / d) in *. set (x := (m * 1000000) mod d) in *.
  destruct (_ || _) eqn:C.
  - replace (q * d - m * 1000000) with (- x) by lia. assert (2 * x <= d) by lia. lia.
  - replace ((q + 1) * d - m * 1000000) with (d - x) by lia. assert (d <= 2 * x) by lia. lia.
Qed.

Require Import QArith Qabs Qpower.
Lemma Qpower_neg : forall e, (e < 0)%Z -> (2 # 1) ^ e == 1 # Z.to_pos (2 ^ (- e)).
Proof.
  intros e He. replace e with (- (- e))%Z at 1 by lia. rewrite Qpower_opp.
  assert (P : (0 < 2 ^ (- e))%Z) by (apply Z.pow_pos_nonneg; lia).
  rewrite <- (inject_Z_opp 0) || idtac.
  assert (E : (2 # 1) ^ (- e) == inject_Z (2 ^ (- e))).
  { change (2 # 1) with (inject_Z 2). symmetry. apply Zpower_Qpower. lia. }
  rewrite E. destruct (2 ^ (- e))%Z eqn:Z2; try lia. reflexivity.
Qed.
Lemma Qpower_pos2 : forall e, (0 <= e)%Z -> (2 # 1) ^ e == inject_Z (2 ^ e).
Proof. intros e He. change (2 # 1) with (inject_Z 2). symmetry. apply Zpower_Qpower. exact He. Qed.

Lemma micro_value : forall m e, Qabs ((micro (Zpos m) e # 1000000) - inject_Z (Zpos m) * (2 # 1) ^ e) <= 1 # 2000000.
Proof.
  intros m e. destruct (Z_lt_ge_dec e 0) as [He|He].
  - rewrite (Qpower_neg e He). pose proof (micro_near (Zpos m) e ltac:(lia) He) as N.
    assert (P : (0 < 2 ^ (- e))%Z) by (apply Z.pow_pos_nonneg; lia).
    destruct (2 ^ (- e))%Z as [|d|d] eqn:D; try lia. cbn [Z.to_pos].
    unfold Qabs, Qle, Qminus, Qplus, Qmult, Qopp, inject_Z. cbn [Qnum Qden]. rewrite ?Pos.mul_1_l, ?Z.mul_1_r.
    rewrite Pos2Z.inj_mul. nia.
  - rewrite (Qpower_pos2 e ltac:(lia)). unfold micro. replace (0 <=? e)%Z with true by lia.
    unfold Qabs, Qle, Qminus, Qplus, Qmult, Qopp, inject_Z. cbn [Qnum Qden]. lia.
Qed.
Lemma float_near : forall r t, r_full r = true -> r_type r = TyFloat -> (exists s, r_float r = S754_zero s) \/ (exists s m e, r_float r = S754_finite s m e) ->
  forall ts, print (AConst r) = Some ts -> go_expression ts t -> exists z, strip t = GLit (LDecimal z) /\ Qabs ((z # 1000000) - float_value (r_float r)) <= 1 # 2000000.
Proof.
  intros r t F T V ts P G.
  assert (Pr : printable (AConst r)) by (cbn; rewrite F; unfold finite; rewrite T; destruct V as [(s & ->)|(s & m & e & ->)]; exact I).
  assert (E : t = raw (AConst r)).
  { apply (parse_unique ts); [exact G|]. rewrite (print_flatten _ Pr) in P. injection P as <-. apply wf_parses.
    - apply raw_wf; [exact Pr|]. cbn. rewrite F. exact I.
    - pose proof (top_range (raw (AConst r))). lia. }
  subst t. rewrite (raw_strip _ Pr). cbn [source res]. rewrite F. unfold value_tree. rewrite T.
  destruct V as [(s & ->)|(s & m & e & ->)].
  - exists 0%Z. split; [reflexivity|]. cbn. unfold Qle. cbn. lia.
  - eexists. split; [reflexivity|]. cbn [float_value]. destruct s; [|apply micro_value].
    pose proof (micro_value m e) as N. setoid_replace ((- micro (Zpos m) e # 1000000) - inject_Z (Zneg m) * (2 # 1) ^ e) with (- ((micro (Zpos m) e # 1000000) - inject_Z (Zpos m) * (2 # 1) ^ e)).
    + rewrite Qabs_opp. exact N.
    + change (- micro (Zpos m) e # 1000000) with (- (micro (Zpos m) e # 1000000)). change (inject_Z (Zneg m)) with (- inject_Z (Zpos m)). ring.
Qed.
Lemma float_exact : forall m e, (0 <= e)%Z -> (micro (Zpos m) e # 1000000) == inject_Z (Zpos m) * (2 # 1) ^ e.
Proof.
  intros m e He. rewrite (Qpower_pos2 e He). unfold micro. replace (0 <=? e)%Z with true by lia. unfold Qeq, inject_Z, Qmult. cbn [Qnum Qden]. lia.
Qed.
