(** Properties C66-C68: the Go text of expressions. *)

Require Import ZArith String List Bool Lia SpecFloat QArith Qabs.
From Verif Require Import Bits AstExpr AstTypes GoSyntax GoSyntaxFacts ExprPrint ExprPrintSpec ExprPrintFacts.
Import ListNotations.
Open Scope Z_scope.

(** Fields A, B and C of type uint32 and the results of operators on them. *)
Definition ex_int (full : bool) (z : Z) : result := mkRes TyInt z f64_zero "" false (Some (builtin_type "uint32")) full.
Definition ex_bool : result := mkRes TyBool 0 f64_zero "" false None false.
Definition ex_float (f : f64) : result := mkRes TyFloat 0 f "" false None true.
Definition ex_field (n : string) : aexpr := AIdent (IMember n) (Some "uint32"%string) (ex_int false 0).
Definition ex_sum (a b : aexpr) : aexpr := AArith Plus a b (ex_int false 0).
Definition ex_shift (a b : aexpr) : aexpr := ABitwise LShift a b (ex_int false 0).
Definition ex_paren (a : aexpr) : aexpr := AParen a (res a).

(** ** C66 *)

(** Go reads a text in at most one way. *)
Theorem C66_unique : forall ts t t', go_expression ts t -> go_expression ts t' -> t = t'.
Proof. exact parse_unique. Qed.
Print Assumptions C66_unique.

(** The text of an expression is a Go expression that means the same, up to
    parentheses and conversions, if and only if everywhere in it the operands bind
    in Go as strongly as needed. *)
Theorem C66_read : forall e, printable e ->
  (agree e <-> exists ts t, print e = Some ts /\ go_expression ts t /\ strip t = source e).
Proof. exact print_read. Qed.
Print Assumptions C66_read.

(** For an expression that the grammar of zserio makes of a text, without isset and
    valueof: if and only if none of the pairs of operators in the table [misread]
    occurs in it. *)
Theorem C66_schema : forall e, printable e -> grammatical e -> (forall x, visited x e -> ~ bracketless x) ->
  ((exists ts t, print e = Some ts /\ go_expression ts t /\ strip t = source e) <->
   forall p s x o o', visited p e -> operator p = Some o -> operand p s = Some x -> operator x = Some o' ->
     enclosed p s = false -> misread o s o' = false).
Proof. exact print_grammatical. Qed.
Print Assumptions C66_schema.

(** The table has exactly the pairs that the two languages group differently. *)
Theorem C66_pairs : forall p s o, written p s o -> (~ understood p s o <-> misread p s o = true).
Proof. exact pairs. Qed.
Print Assumptions C66_pairs.

(** (A + B) << C and A + B + C are printed as they are meant; A + B << C is not: Go
    takes it for A + (B << C); nor is !isset(A, B): Go takes it for
    (!A & B) != 0. *)
Definition ex_wrong : aexpr := ex_shift (ex_sum (ex_field "A") (ex_field "B")) (ex_field "C").
Example C66_applies :
  let good := ex_shift (ex_paren (ex_sum (ex_field "A") (ex_field "B"))) (ex_field "C") in
  (printable good /\ agree good /\ grammatical good /\ forall x, visited x good -> ~ bracketless x) /\
  print good = Some [TLeft; TName "v"; TDot; TName "A"; TOp Add; TName "v"; TDot; TName "B"; TRight; TOp Shl; TName "v"; TDot; TName "C"]%string.
Proof.
  assert (V : forall x, visited x (ex_shift (ex_paren (ex_sum (ex_field "A") (ex_field "B"))) (ex_field "C")) ->
    In x [ex_field "A"; ex_field "B"; ex_field "C"; ex_sum (ex_field "A") (ex_field "B"); ex_paren (ex_sum (ex_field "A") (ex_field "B"));
          ex_shift (ex_paren (ex_sum (ex_field "A") (ex_field "B"))) (ex_field "C")]).
  { intros x H.
    repeat match goal with
    | H : visited _ _ |- _ => apply visited_inv in H; cbn [ex_shift ex_paren ex_sum ex_field] in H; destruct H as [->|(_ & H)]; [cbn; tauto|]
    | H : _ \/ _ |- _ => destruct H
    | H : False |- _ => contradiction
    end. }
  split; [split; [|split; [|split; [split|]]]|].
  - cbn. unfold known. cbn. repeat split; discriminate.
  - cbn. repeat split; try (right; lia).
  - intros p s x o o' H O X O'. apply V in H.
    repeat (destruct H as [<-|H]; [try discriminate; destruct s; cbn in O, X; injection O as <-; injection X as <-; cbn in O'; discriminate|]). contradiction.
  - intros x r H. apply V in H. cbn in H. repeat (destruct H as [H|H]; [discriminate|]). contradiction.
  - intros x H. apply V in H. repeat (destruct H as [<-|H]; [intros (_ & []); fail|]). contradiction.
  - reflexivity.
Qed.

Theorem C66_refuted :
  printable ex_wrong /\
  exists t, print ex_wrong = Some (flatten t) /\ go_expression (flatten t) t /\
  strip t = source (ex_sum (ex_field "A") (ex_shift (ex_field "B") (ex_field "C"))) /\
  ~ exists ts t', print ex_wrong = Some ts /\ go_expression ts t' /\ strip t' = source ex_wrong.
Proof.
  assert (P : printable ex_wrong) by (cbn; unfold known; cbn; repeat split; discriminate).
  split; [exact P|].
  exists (GBin Add (GSelect (GName "v") "A") (GBin Shl (GSelect (GName "v") "B") (GSelect (GName "v") "C"))).
  split; [reflexivity|]. split; [|split; [reflexivity|]].
  - apply wf_parses; cbn; repeat split; lia.
  - intros H. apply (C66_read ex_wrong P) in H. cbn in H. destruct H as (_ & _ & [H|H] & _); [discriminate|cbn in H; lia].
Qed.
Print Assumptions C66_refuted.

Definition ex_not_isset : aexpr := ANot (AIsset (ex_field "A") (ex_field "B") ex_bool) ex_bool.
Theorem C66_refuted_isset :
  printable ex_not_isset /\
  exists t, print ex_not_isset = Some (flatten t) /\ go_expression (flatten t) t /\
  strip t = GBin NeE (GBin BAnd (GNot (source (ex_field "A"))) (source (ex_field "B"))) (GLit (LInt 0)) /\
  ~ exists ts t', print ex_not_isset = Some ts /\ go_expression ts t' /\ strip t' = source ex_not_isset.
Proof.
  assert (P : printable ex_not_isset) by (cbn; repeat split; discriminate).
  split; [exact P|].
  exists (GBin NeE (GBin BAnd (GNot (GSelect (GName "v") "A")) (GSelect (GName "v") "B")) (GLit (LInt 0))).
  split; [reflexivity|]. split; [|split; [reflexivity|]].
  - apply wf_parses; cbn; repeat split; lia.
  - intros H. apply (C66_read ex_not_isset P) in H. cbn in H. destruct H as (_ & H). lia.
Qed.
Print Assumptions C66_refuted_isset.

(** ** C67 *)

(** Printing crashes if and only if the expression contains a sign in front of
    something that is not constant, or an operator one of whose types has no Go
    type. *)
Theorem C67_crash : forall e, print e = None <-> exists x, visited x e /\ crash x.
Proof. exact print_crash. Qed.
Print Assumptions C67_crash.

(** The text of an expression with a condition inside is no Go expression. *)
Theorem C67_condition : forall c a b r e ts, items_of_types e -> r_full r = false -> visited (ATernary c a b r) e ->
  print e = Some ts -> forall t, ~ go_expression ts t.
Proof. exact condition_text. Qed.
Print Assumptions C67_condition.

(** The text of an operator ~ that is not constant is the name UNSUPPORTED. *)
Theorem C67_tilde : forall a r, r_full r = false -> print (ATilde a r) = Some [TName "UNSUPPORTED"].
Proof. intros a r F. cbn [print res]. rewrite F. reflexivity. Qed.
Print Assumptions C67_tilde.

(** -A crashes the generator, also in C + -A; in 1 + (A ? B : C) the text has
    statements. *)
Example C67_applies :
  let minus := ASign true (ex_field "A") (ex_int false 0) in
  let cond := ATernary (ex_field "A") (ex_field "B") (ex_field "C") (ex_int false 0) in
  crash minus /\ print (ex_sum (ex_field "C") minus) = None /\
  items_of_types (ex_sum (ex_field "C") (ex_paren cond)) /\ visited cond (ex_sum (ex_field "C") (ex_paren cond)) /\
  print (ex_sum (ex_field "C") (ex_paren cond)) <> None /\
  print (ex_sum (ex_field "C") (ex_field "A")) = Some [TName "v"; TDot; TName "C"; TOp Add; TName "v"; TDot; TName "A"]%string.
Proof.
  cbv zeta. split; [split; [reflexivity|exact I]|]. split; [reflexivity|]. split; [|split; [|split; [discriminate|reflexivity]]].
  - intros a d go r H.
    repeat match goal with
    | H : visited _ _ |- _ => apply visited_inv in H; cbn [ex_shift ex_paren ex_sum ex_field] in H; destruct H as [H|(_ & H)]; [discriminate|]
    | H : _ \/ _ |- _ => destruct H
    | H : False |- _ => contradiction
    end.
  - unfold ex_sum. apply V_arith; [reflexivity|]. right. apply V_paren; [reflexivity|]. apply V_self.
Qed.

(** ** C68 *)

(** The literal for a float constant differs from it by at most half of the sixth
    decimal. *)
Theorem C68_near : forall r t, r_full r = true -> r_type r = TyFloat ->
  (exists s, r_float r = S754_zero s) \/ (exists s m e, r_float r = S754_finite s m e) ->
  forall ts, print (AConst r) = Some ts -> go_expression ts t ->
  exists z, strip t = GLit (LDecimal z) /\ (Qabs ((z # 1000000) - float_value (r_float r)) <= 1 # 2000000)%Q.
Proof. exact float_near. Qed.
Print Assumptions C68_near.

(** It is not exact: 1/2^22, about 2.4e-7, becomes 0.000000, and 1/2^20 and
    1/2^20 + 1/2^40 have the same text. *)
Theorem C68_refuted :
  (exists f, (float_value f > 0)%Q /\ print (AConst (ex_float f)) = print (AConst (ex_float (S754_zero false)))) /\
  (exists f g, ~ (float_value f == float_value g)%Q /\ print (AConst (ex_float f)) = print (AConst (ex_float g))).
Proof.
  split.
  - exists (S754_finite false 1 (-22)). split; reflexivity.
  - exists (S754_finite false 1 (-20)), (S754_finite false 1048577 (-40)). split; [cbn; discriminate|reflexivity].
Qed.
Print Assumptions C68_refuted.

(** 0.5 is printed as 0.500000 and -0.75 as -0.750000. *)
Example C68_applies :
  print (AConst (ex_float (S754_finite false 1 (-1)))) = Some [TLit (LDecimal 500000)] /\
  print (AConst (ex_float (S754_finite true 3 (-2)))) = Some [TOp Sub; TLit (LDecimal 750000)] /\
  (float_value (S754_finite true 3 (-2)) == - (3 # 4))%Q.
Proof. repeat split. Qed.
