(** Literals of the schema language: what the text of a literal evaluates to
    (internal/ast/expression.go, internal/visitor/visitor.go).  A Go string is a
    list of bytes ([Files.text]). *)

Require Import ZArith String Ascii List Bool.
From Verif Require Import Bits Files.
Import ListNotations.
Open Scope Z_scope.

(** ** strconv.ParseUint and strconv.ParseInt (the Go standard library) *)

Definition byte (c : ascii) : Z := Z.of_N (N_of_ascii c).

(** The digit that a byte stands for, as ParseUint reads it: 0-9, then the letters
    in either case ([lower(c)] is [c | 0x20]); None for another byte. *)
Definition digit_of (c : ascii) : option Z :=
  let n := byte c in
  if (48 <=? n) && (n <=? 57) then Some (n - 48)
  else let l := Z.lor n 32 in
       if (97 <=? l) && (l <=? 122) then Some (l - 97 + 10) else None.

(** The loop of ParseUint.  [n] is the uint64 so far; [cutoff] is the smallest
    number whose product with the base overflows.  [under] says whether the base
    was given as 0, where '_' is skipped.  None is an error, of syntax or range. *)
Fixpoint uint_loop (under : bool) (base maxval : Z) (s : text) (n : Z) : option Z :=
  match s with
  | [] => Some n
  | c :: s' =>
      if under && (c =? "_")%char then uint_loop under base maxval s' n
      else match digit_of c with
           | None => None
           | Some d =>
               if base <=? d then None
               else if (2^64 - 1) / base + 1 <=? n then None
               else let m := u64 (n * base) in
                    let n1 := u64 (m + d) in
                    if (n1 <? m) || (maxval <? n1) then None
                    else uint_loop under base maxval s' n1
           end
  end.

(** ParseUint(s, base, bitSize) for base 0, 2, 10.  With base 0 a text that starts
    with 0 is read by its second byte: 0b, 0o and 0x when a third follows, octal
    otherwise.  underscoreOK, which looks at the places of '_' when base is 0, is
    not modelled: no literal contains '_'. *)
Definition parse_uint (s : text) (base bits : Z) : option Z :=
  match s with
  | [] => None
  | c :: rest =>
      let max := 2^bits - 1 in
      if base =? 0 then
        if (c =? "0")%char then
          match rest with
          | p :: (_ :: _) =>
              let l := Z.lor (byte p) 32 in
              if l =? 98 then uint_loop true 2 max (List.tl rest) 0
              else if l =? 111 then uint_loop true 8 max (List.tl rest) 0
              else if l =? 120 then uint_loop true 16 max (List.tl rest) 0
              else uint_loop true 8 max rest 0
          | _ => uint_loop true 8 max rest 0
          end
        else uint_loop true 10 max s 0
      else uint_loop false base max s 0
  end.

(** ParseInt(s, base, 64) *)
Definition parse_int (s : text) (base : Z) : option Z :=
  match s with
  | [] => None
  | c :: rest =>
      let neg := (c =? "-")%char in
      let s' := if neg || (c =? "+")%char then rest else s in
      match parse_uint s' base 64 with
      | None => None
      | Some un =>
          if neg then (if 2^63 <? un then None else Some (i64 (- un)))
          else (if 2^63 <=? un then None else Some un)
      end
  end.

(** ** strconv.ParseFloat (the Go standard library) *)

(** Digits at the start of a text: their number as an integer, how many, and the
    rest. *)
Fixpoint take_digits (s : text) (n k : Z) : Z * Z * text :=
  match s with
  | c :: s' => if (48 <=? byte c) && (byte c <=? 57) then take_digits s' (n * 10 + (byte c - 48)) (k + 1)
               else (n, k, s)
  | [] => (n, k, [])
  end.

(** readFloat, for decimal numbers: digits with at most one point, at least one of
    them, and an exponent.  The result is the exact decimal: mantissa and power of
    ten, and the text that was not read.  Signs, the special values (inf, nan),
    the hexadecimal form and '_' are not modelled: no literal has them.  Go reads no
    further digits of an exponent above 10000; the numbers then are out of range
    or round to 0 unless the mantissa has thousands of digits. *)
Definition read_float (s : text) : option (Z * Z * text) :=
  let '(n, k, s1) := take_digits s 0 0 in
  let '(m, k', frac, s2) :=
    match s1 with
    | c :: t => if (c =? ".")%char then let '(m, k', t') := take_digits t n 0 in (m, k + k', k', t') else (n, k, 0, s1)
    | [] => (n, k, 0, s1)
    end in
  if k' =? 0 then None
  else match s2 with
       | c :: t =>
           if (c =? "e")%char || (c =? "E")%char then
             match t with
             | [] => None
             | sg :: t1 =>
                 let neg := (sg =? "-")%char in
                 let t2 := if neg || (sg =? "+")%char then t1 else t in
                 let '(e, ke, rest) := take_digits t2 0 0 in
                 if ke =? 0 then None else Some (m, (if neg then - e else e) - frac, rest)
             end
           else Some (m, - frac, s2)
       | [] => Some (m, - frac, s2)
       end.

(** The least number that ParseFloat(_, 64) rounds up to infinity: the largest
    float64 and half a unit of its last place. *)
Definition float64_limit : Z := (2^54 - 1) * 2^970.
(** m * 10^e < float64_limit *)
Definition below_limit (m e : Z) : bool :=
  if 0 <=? e then m * 10^e <? float64_limit else m <? float64_limit * 10^(- e).
(** The same for float32. *)
Definition float32_limit : Z := (2^25 - 1) * 2^103.
Definition below_limit32 (m e : Z) : bool :=
  if 0 <=? e then m * 10^e <? float32_limit else m <? float32_limit * 10^(- e).

(** ParseFloat(s, 64) and ParseFloat(s, 32): the decimal that is rounded, or an
    error: of syntax when text remains, of range otherwise.  The rounding is not
    modelled. *)
Definition parse_float (s : text) (single : bool) : option (Z * Z) :=
  match read_float s with
  | Some (m, e, []) =>
      if (if single then below_limit32 m e else below_limit m e) then Some (m, e) else None
  | _ => None
  end.

(** ** Expression.Evaluate of a literal *)

(** The kinds of tokens that VisitLiteralExpression (internal/visitor/visitor.go:596-602)
    puts into Expression.Type; Expression.Text is the text of the token. *)
Inductive token := TBinary | TOctal | TDecimal | THex | TBool | TString | TFloat | TDouble.

(** The value and its type; a float as the decimal before rounding. *)
Inductive lvalue :=
| VInt (z : Z)
| VBool (b : bool)
| VText (s : text)
| VFloat (single : bool) (m e : Z).

(** Expression.evaluateStringLiteral, internal/ast/expression.go:740-749 *)
Definition eval_string_literal (t : text) : option lvalue :=
  if len t <? 2 then None
  else Some (VText (firstn (length t - 2) (skipn 1 t))).

(** strings.HasSuffix(s, "b") *)
Definition ends_in_b (t : text) : bool := match rev t with c :: _ => (c =? "b")%char | [] => false end.

(** Expression.evaluateBinaryLiteral, internal/ast/expression.go:751-762 *)
Definition eval_binary_literal (t : text) : option lvalue :=
  if ends_in_b t then
    match parse_int (firstn (length t - 1) t) 2 with
    | Some z => Some (VInt z)
    | None => None
    end
  else None.

(** The cases for literals in Expression.Evaluate, internal/ast/expression.go:868-901;
    None is an error. *)
Definition eval_literal (k : token) (t : text) : option lvalue :=
  match k with
  | TString => eval_string_literal t
  | TBinary => eval_binary_literal t
  | TOctal => option_map VInt (parse_int t 0)
  | TDecimal => option_map VInt (parse_int t 10)
  | THex => option_map VInt (parse_int t 0)
  | TBool => Some (VBool (if list_eq_dec ascii_dec (trim (lower t)) (str "true") then true else false))
  | TFloat => option_map (fun '(m, e) => VFloat true m e) (parse_float t true)
  | TDouble => option_map (fun '(m, e) => VFloat false m e) (parse_float t false)
  end.

(** Visitor.VisitFieldAlignment, internal/visitor/visitor.go:209-226, for an
    expression that is a literal; None is ErrAlignmentMustBeInteger. *)
Definition visit_alignment (k : token) (t : text) : option Z :=
  match k with
  | TDecimal => match parse_uint t 10 8 with
                | Some v => if 255 <? v then None else Some (to_u 8 v)
                | None => None
                end
  | _ => None
  end.
