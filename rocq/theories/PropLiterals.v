(** Properties C69-C71: the literals of the schema language. *)

Require Import ZArith String Ascii List Bool Lia.
From Verif Require Import Bits AstExpr Files Literals LiteralsSpec LiteralsFacts.
Import ListNotations.
Open Scope Z_scope.

(** ** C69 *)

(** A text is the literal of one number. *)
Theorem C69_unique : forall k t z z', int_literal k t z -> int_literal k t z' -> z = z'.
Proof. exact int_literal_unique. Qed.
Print Assumptions C69_unique.

(** An integer literal evaluates to its number if that is below 2^63 and it is not
    binary with the suffix B; the others are errors. *)
Theorem C69_value : forall k t z, int_literal k t z ->
  0 <= z /\
  (eval_literal k t = Some (VInt z) <-> z < 2^63 /\ ~ (k = TBinary /\ exists s, t = s ++ ["B"%char])) /\
  (eval_literal k t = None <-> 2^63 <= z \/ (k = TBinary /\ exists s, t = s ++ ["B"%char])).
Proof. exact int_literal_value. Qed.
Print Assumptions C69_value.

(** Not every literal has its value: 101B, and the largest number of type uint64. *)
Theorem C69_refuted :
  (exists t, int_literal TBinary t 5 /\ eval_literal TBinary t = None) /\
  (exists t, int_literal THex t (2^64 - 1) /\ eval_literal THex t = None).
Proof.
  split.
  - exists (str "101B"). split; [|reflexivity].
    apply (IBinary (str "101") 5 "B"%char); [discriminate| |right; now left].
    exact (number_numeral 2 (str "101") ltac:(repeat constructor; (now exists 1%nat; split; [left|]) || (now exists 0%nat; split; [left|]))).
  - exists (str "0xFFFFFFFFFFFFFFFF"). split; [|reflexivity].
    apply (IHex "x"%char (str "FFFFFFFFFFFFFFFF") (2^64 - 1)); [now left|discriminate|].
    exact (number_numeral 16 (str "FFFFFFFFFFFFFFFF") ltac:(repeat constructor; now (exists 15%nat; split; [right|]))).
Qed.
Print Assumptions C69_refuted.

(** The alignment of a field: a decimal literal up to 255 and no other. *)
Theorem C69_align : forall k t z, int_literal k t z ->
  visit_alignment k t = if (match k with TDecimal => true | _ => false end) && (z <=? 255) then Some z else None.
Proof. exact alignment_value. Qed.
Print Assumptions C69_align.

(** In an expression the literal is the number that the model of expressions starts
    from. *)
Theorem C69_expression : forall k t z deref P look s, int_literal k t z -> ~ (k = TBinary /\ exists s, t = s ++ ["B"%char]) ->
  match eval_literal k t, eval_expr deref P look (ENum z) s with
  | Some (VInt v), (s', (r, SOk)) => r_type r = TyInt /\ r_int r = v /\ r_full r = true /\ s' = s
  | None, (s', (_, SErr)) => s' = s
  | _, _ => False
  end.
Proof.
  intros k t z deref P look s H Hb. destruct (int_literal_value k t z H) as (H0 & H1 & H2). unfold upper_binary in *.
  cbn [eval_expr]. destruct (Z.leb_spec z MaxInt64) as [Hz|Hz]; unfold MaxInt64 in Hz.
  - destruct H1 as [_ ->]; [|split; [lia|assumption]]. repeat split.
  - destruct H2 as [_ ->]; [|left; lia]. reflexivity.
Qed.
Print Assumptions C69_expression.

(** The largest literal that has a value, in octal. *)
Example C69_applies :
  int_literal TOctal (str "0777777777777777777777") (2^63 - 1) /\
  eval_literal TOctal (str "0777777777777777777777") = Some (VInt (2^63 - 1)).
Proof.
  split; [|reflexivity]. apply (IOctal (str "777777777777777777777") (2^63 - 1)); [discriminate|].
  exact (number_numeral 8 (str "777777777777777777777") ltac:(repeat constructor; now (exists 7%nat; split; [left|]))).
Qed.

(** ** C70 *)

(** A string literal evaluates to the text between its quotes as it is written,
    which is what the literal stands for if and only if it has no backslash. *)
Theorem C70_string : forall body meaning, string_body body meaning ->
  exists s, eval_literal TString (quote :: body ++ [quote]) = Some (VText s) /\ s = body /\ (s = meaning <-> ~ In backslash body).
Proof. exact string_literal_meaning. Qed.
Print Assumptions C70_string.

(** A line feed is one byte and its literal evaluates to two. *)
Theorem C70_refuted : exists body meaning, string_body body meaning /\
  eval_literal TString (quote :: body ++ [quote]) <> Some (VText meaning).
Proof.
  exists [backslash; "n"%char], [ascii_of_nat 10]. split; [|discriminate].
  apply (BChar [backslash; "n"%char] [ascii_of_nat 10] [] []); [|constructor]. apply SEscape. cbn. tauto.
Qed.
Print Assumptions C70_refuted.

(** Text with an accent and a quotation mark. *)
Example C70_applies :
  string_body (str "a" ++ (backslash :: str "u00e9") ++ [backslash; quote]) (str "a" ++ utf8 233 ++ [quote]).
Proof.
  apply (BChar (str "a") (str "a")); [apply SPlain; discriminate|].
  apply (BChar (backslash :: str "u00e9") (utf8 233)).
  - apply (SUnicode (str "00e9") 233); [reflexivity|].
    exact (number_numeral 16 (str "00e9")
      ltac:(repeat constructor; [now exists 0%nat; split; [left|]|now exists 0%nat; split; [left|]|now exists 14%nat; split; [left|]|now exists 9%nat; split; [left|]])).
  - apply (BChar [backslash; quote] [quote] [] []); [|constructor]. apply (SEscape quote 34). cbn. tauto.
Qed.

(** ** C71 *)

(** A literal of type double is read as the decimal number that is written, unless
    it is out of the range of float64. *)
Theorem C71_double : forall t m e, double_literal t m e ->
  (less_than m e ((2^54 - 1) * 2^970) -> eval_literal TDouble t = Some (VFloat false m e)) /\
  (~ less_than m e ((2^54 - 1) * 2^970) -> eval_literal TDouble t = None).
Proof. exact double_literal_value. Qed.
Print Assumptions C71_double.

(** No literal of type float evaluates. *)
Theorem C71_refuted_float : forall t m e, float_literal t m e -> eval_literal TFloat t = None.
Proof. exact float_literal_fails. Qed.
Print Assumptions C71_refuted_float.

Example C71_applies : double_literal (str "1.5e-3") 15 (-4) /\ float_literal (str "1.5e-3f") 15 (-4) /\
  eval_literal TDouble (str "1.5e-3") = Some (VFloat false 15 (-4)).
Proof.
  assert (H : double_literal (str "1.5e-3") 15 (-4)).
  { apply (DPoint (str "1") (str "5") (str "e-3") 15 (-3)); [discriminate| |left].
    - exact (number_numeral 10 (str "15") ltac:(repeat constructor; [now exists 1%nat; split; [left|]|now exists 5%nat; split; [left|]])).
    - apply (XMinus "e"%char (str "3") 3); [now left|discriminate|].
      exact (number_numeral 10 (str "3") ltac:(repeat constructor; now exists 3%nat; split; [left|])). }
  split; [assumption|]. split.
  - apply (FSuffix (str "1.5e-3") 15 (-4) "f"%char); [assumption|now left].
  - apply (C71_double _ _ _ H). right. split; [lia|]. vm_compute. reflexivity.
Qed.
