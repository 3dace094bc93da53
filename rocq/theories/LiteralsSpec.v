(** What the literals of the schema language are and mean, after the rules of
    internal/parser/ZserioLexer.g4:118-151 and the Zserio language reference.
    Independent of the code that evaluates them. *)

Require Import ZArith String Ascii List Bool.
From Verif Require Import Files Literals.
Import ListNotations.
Open Scope Z_scope.

(** The byte stands for the digit [d], up to 15, in upper or lower case. *)
Definition digit (c : ascii) (d : nat) : Prop :=
  nth_error (str "0123456789abcdef") d = Some c \/ nth_error (str "0123456789ABCDEF") d = Some c.

(** The digits are a numeral of the base with the value. *)
Inductive numeral (base : Z) : text -> Z -> Prop :=
| NEmpty : numeral base [] 0
| NDigit : forall t z c d, numeral base t z -> digit c d -> Z.of_nat d < base -> numeral base (t ++ [c]) (z * base + Z.of_nat d).

(** The integer literals. *)
Inductive int_literal : token -> text -> Z -> Prop :=
| IBinary : forall t z c, t <> [] -> numeral 2 t z -> In c (str "bB") -> int_literal TBinary (t ++ [c]) z
| IOctal : forall t z, t <> [] -> numeral 8 t z -> int_literal TOctal ("0"%char :: t) z
| IHex : forall x t z, In x (str "xX") -> t <> [] -> numeral 16 t z -> int_literal THex ("0"%char :: x :: t) z
| IZero : int_literal TDecimal (str "0") 0
| IDecimal : forall c t z, c <> "0"%char -> numeral 10 (c :: t) z -> int_literal TDecimal (c :: t) z.

(** An exponent: e or E, a sign or none, digits. *)
Inductive exponent : text -> Z -> Prop :=
| XNone : forall c t z, In c (str "eE") -> t <> [] -> numeral 10 t z -> exponent (c :: t) z
| XPlus : forall c t z, In c (str "eE") -> t <> [] -> numeral 10 t z -> exponent (c :: "+"%char :: t) z
| XMinus : forall c t z, In c (str "eE") -> t <> [] -> numeral 10 t z -> exponent (c :: "-"%char :: t) (- z).
(** An exponent or nothing. *)
Definition exponent_or_none (t : text) (z : Z) : Prop := exponent t z \/ (t = [] /\ z = 0).

(** The text is a literal of type double for the number m * 10^e: DOUBLE_LITERAL.
    [i] are the digits before and [f] those after the point. *)
Inductive double_literal : text -> Z -> Z -> Prop :=
| DExp : forall i x m e, i <> [] -> numeral 10 i m -> exponent x e -> double_literal (i ++ x) m e
| DPoint : forall i f x m e, i ++ f <> [] -> numeral 10 (i ++ f) m -> exponent_or_none x e ->
    double_literal (i ++ "."%char :: f ++ x) m (e - Z.of_nat (length f)).
(** FLOAT_LITERAL: the same with the suffix f or F. *)
Inductive float_literal : text -> Z -> Z -> Prop :=
| FSuffix : forall t m e c, double_literal t m e -> In c (str "fF") -> float_literal (t ++ [c]) m e.

(** m * 10^e is smaller than the integer. *)
Definition less_than (m e limit : Z) : Prop :=
  (0 <= e /\ m * 10^e < limit) \/ (e < 0 /\ m < limit * 10^(-e)).

(** The UTF-8 bytes of a code point below 65536. *)
Definition utf8 (n : Z) : text :=
  let b z := ascii_of_N (Z.to_N z) in
  if n <? 128 then [b n]
  else if n <? 2048 then [b (192 + n / 64); b (128 + n mod 64)]
  else [b (224 + n / 4096); b (128 + (n / 64) mod 64); b (128 + n mod 64)].

Definition backslash : ascii := "\"%char.
Definition quote : ascii := ascii_of_nat 34.
(** The escapes of one letter and what they stand for. *)
Definition escapes : list (ascii * nat) :=
  [(quote, 34); (backslash, 92); ("r"%char, 13); ("n"%char, 10); ("f"%char, 12); ("t"%char, 9)]%nat.

(** One STRING_CHARACTER and the bytes it stands for. *)
Inductive string_char : text -> text -> Prop :=
| SPlain : forall c, c <> quote -> c <> backslash -> string_char [c] [c]
| SEscape : forall c n, In (c, n) escapes -> string_char [backslash; c] [ascii_of_nat n]
| SUnicode : forall h z, length h = 4%nat -> numeral 16 h z -> string_char (backslash :: "u"%char :: h) (utf8 z)
| SHex : forall h z, length h = 2%nat -> numeral 16 h z -> string_char (backslash :: "x"%char :: h) (utf8 z)
| SOctal : forall o z, (1 <= length o <= 3)%nat -> numeral 8 o z -> z < 256 -> string_char (backslash :: "0"%char :: o) (utf8 z).
(** The text between the quotes of a STRING_LITERAL and what it stands for. *)
Inductive string_body : text -> text -> Prop :=
| BEmpty : string_body [] []
| BChar : forall a x b y, string_char a x -> string_body b y -> string_body (a ++ b) (x ++ y).
