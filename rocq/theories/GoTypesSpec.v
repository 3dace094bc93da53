(** What expressions of a schema mean, and which of them Go accepts. *)

Require Import ZArith String List Bool.
From Verif Require Import Bits Traits AstExpr AstTypes AstTypesSpec GoSyntax ExprPrint ExprPrintSpec GoTypes.
Import ListNotations.
Open Scope Z_scope.

(** ** Meaning *)

(** Integer types have a positive number of bits, named constants are of integer types,
    and the values in a program have the types they are declared with. *)
Definition of_kind (k : option kind) (v : gval) : Prop :=
  match k, v with
  | Some (KInt g), GI z => gvalue g z
  | Some KBool, GB _ => True
  | _, _ => False
  end.
Definition state_ok (D : genv) (S : gstate) : Prop :=
  (forall p t v, g_paths D p = Some t -> s_paths S p = Some v -> kind_of D t <> None -> of_kind (kind_of D t) v) /\
  (forall p t i v, g_elems D p = Some t -> s_elems S p i = Some v -> kind_of D t <> None -> of_kind (kind_of D t) v) /\
  (forall p, 0 <= s_length S p < 2 ^ 63) /\ 0 <= s_index S < 2 ^ 63 /\
  (forall t w, g_types D t = Some (KInt (GU w)) \/ g_types D t = Some (KInt (GS w)) -> 0 < w) /\
  (forall n t z, g_consts D n = Some (t, z) -> exists g, int_kind D t = Some g /\ gvalue g z).

(** numbits: the least number of bits in which [v] different values can be told
    apart, and 1 for one value. *)
Definition numbits (v : Z) : Z := if v <=? 1 then v else Z.log2_up v.

(** The value of an expression of the schema in terms of [source]: operators on
    integers without bounds.  None: a division by 0, a negative shift count, or a
    value that is not there. *)
Fixpoint ideal (D : genv) (S : gstate) (t : gtree) : option gval :=
  match t with
  | GLit (LInt z) => Some (GI z)
  | GLit (LBool b) => Some (GB b)
  | GLit _ => None
  | GName n => if (n =? "index")%string then Some (GI (s_index S)) else option_map (fun x => GI (snd x)) (g_consts D n)
  | GParen a => ideal D S a
  | GNeg a => obind (ideal D S a) (fun v => option_map (fun z => GI (- z)) (as_int v))
  | GNot a => obind (ideal D S a) (fun v => option_map (fun b => GB (negb b)) (as_bool v))
  | GSelect _ _ | GInvoke _ => s_paths S t
  | GIndex a i => obind (ideal D S i) (fun v => obind (as_int v) (s_elems S a))
  | GCall (GName f) a =>
      if (f =? "len")%string then Some (GI (s_length S a))
      else if (f =? "ztype.NumBits")%string then obind (ideal D S a) (fun v => option_map (fun z => GI (numbits z)) (as_int v))
      else None
  | GCall _ _ => None
  | GBin o a b =>
      match group_of o with
      | Arithmetic | Shift =>
          obind (ideal D S a) (fun va => obind (ideal D S b) (fun vb => obind (as_int va) (fun x => obind (as_int vb) (fun y =>
            option_map GI (int_op o x y)))))
      | Comparison =>
          obind (ideal D S a) (fun va => obind (ideal D S b) (fun vb =>
            match va, vb with
            | GI x, GI y => Some (GB (compare_op o x y))
            | GB x, GB y => Some (GB (match o with EqE => Bool.eqb x y | _ => negb (Bool.eqb x y) end))
            | _, _ => None
            end))
      | Logical =>
          obind (ideal D S a) (fun va => obind (as_bool va) (fun x =>
            match o, x with
            | LAnd, false => Some (GB false)
            | LOr, true => Some (GB true)
            | _, _ => obind (ideal D S b) (fun vb => option_map GB (as_bool vb))
            end))
      end
  end.

(** While the Go expression is evaluated, no operator has a result outside of its
    type and no conversion changes a value. *)
Definition result_fits (D : genv) (c : option class) (z : Z) : Prop :=
  match c with
  | Some (CTyped t _) => match int_kind D t with Some g => gvalue g z | None => True end
  | _ => True
  end.
Fixpoint no_overflow (D : genv) (S : gstate) (t : gtree) : Prop :=
  match t with
  | GName _ | GLit _ | GSelect _ _ | GInvoke _ => True
  | GParen a | GNot a => no_overflow D S a
  | GIndex _ i => no_overflow D S i
  | GNeg a => no_overflow D S a /\ forall z, geval D S a = Some (GI z) -> result_fits D (check D t) (- z)
  | GCall f a =>
      f = GName "len" \/
      (no_overflow D S a /\ (f = GName "ztype.NumBits" \/ forall z, geval D S a = Some (GI z) -> result_fits D (check D t) z))
  | GBin o a b =>
      no_overflow D S a /\
      match group_of o with
      | Arithmetic | Shift =>
          no_overflow D S b /\
          forall x y z, geval D S a = Some (GI x) -> geval D S b = Some (GI y) -> int_op o x y = Some z -> result_fits D (check D t) z
      | Comparison => no_overflow D S b
      | Logical => geval D S a = Some (GB (match o with LAnd => true | _ => false end)) -> no_overflow D S b
      end
  end.

(** ** Arithmetic that Go accepts *)

(** The Go type of arithmetic: that of its zserio type, and int without one (@index,
    numbits, and arithmetic on them). *)
Definition go_type (r : result) : option string := match r_native r with Some t => GoType t | None => Some "int"%string end.

(** Integer types without a dynamic length, and with. *)
Definition integer (t : tref) : Prop := exists r, int_type_range t r.

(** Expressions of constants, fields, parameters, functions, lengthof, numbits, @index,
    parentheses and arithmetic, with the results of Evaluate.  A field has the zserio
    type [t], possibly by way of subtypes, and the Go type [go]; so does a function,
    whose zserio type is that of its result.  In parentheses, a field has no subtype. *)
Definition full_int (r : result) : Prop :=
  r_full r = true /\ r_type r = TyInt /\ - 2 ^ 63 <= r_int r < 2 ^ 63 /\ match r_native r with Some t => integer t | None => True end.
Definition open_int (r : result) : Prop :=
  r_full r = false /\ r_type r = TyInt /\ match r_native r with Some t => integer t | None => True end.
Definition same_type (e : aexpr) : Prop :=
  match symbol e with Some go => go = go_type (res e) | None => True end.

Inductive arithmetic (D : genv) : aexpr -> Prop :=
| AE_const : forall e, full_int (res e) -> known e -> arithmetic D e
| AE_field : forall n go t r g, open_int r -> r_native r = Some t ->
    g_paths D (GSelect (GName "v") n) = Some go -> int_kind D go = Some g -> arithmetic D (AIdent (IMember n) (Some go) r)
| AE_call : forall n x r0 go t r g, open_int r -> r_native r = Some t -> r_full r0 = false ->
    g_paths D (GInvoke (GSelect (GName "v") n)) = Some go -> int_kind D go = Some g ->
    arithmetic D (ACall (AIdent (IMember n) x r0) (Some go) r)
| AE_index : forall r, open_int r -> r_native r = None -> arithmetic D (AIndexVar r)
| AE_lengthof : forall n x r0 r ty, r_full r0 = false -> g_elems D (GSelect (GName "v") n) = Some ty ->
    open_int r -> r_native r = Some (builtin_type "int64") -> arithmetic D (ALengthof (AIdent (IMember n) x r0) r)
| AE_numbits : forall a r, arithmetic D a -> r_full (res a) = false -> eval_numbits false (res a) = (r, SOk) -> arithmetic D (ANumbits a r)
| AE_paren : forall a r, arithmetic D a -> r_full (res a) = false -> same_type a -> eval_paren false (res a) = (r, SOk) -> arithmetic D (AParen a r)
| AE_arith : forall op a b r, arithmetic D a -> arithmetic D b -> r_full (res a) && r_full (res b) = false ->
    eval_arith op false (res a) (res b) = (r, SOk) -> arithmetic D (AArith op a b r).

(** Every constant can be represented in the Go type of the operator it is an operand
    of, and no divisor is the constant 0. *)
Definition divisor (op : aop) : bool := match op with Divide | Modulo => true | _ => false end.
Fixpoint constants_fit (e : aexpr) : Prop :=
  if r_full (res e) then True
  else match e with
  | ANumbits a _ | AParen a _ => constants_fit a
  | AArith op a b r =>
      constants_fit a /\ constants_fit b /\
      forall g lo hi, go_type r = Some g -> In (g, (lo, hi)) (("int", (- 2 ^ 63, 2 ^ 63)) :: go_range)%string ->
        (r_full (res a) = true -> lo <= r_int (res a) < hi) /\
        (r_full (res b) = true -> lo <= r_int (res b) < hi /\ (divisor op = true -> r_int (res b) <> 0))
  | _ => True
  end.

(** The Go type of an expression that is not constant: that of what it names, or of
    its zserio type. *)
Definition go_of (e : aexpr) : option string := match symbol e with Some go => go | None => go_type (res e) end.

(** Sums, differences and products over one Go type: their operands have that type,
    or are constants, and are exact. *)
Inductive modular (D : genv) (S : gstate) (go : string) : gtree -> Prop :=
| Mo_exact : forall t k, check D t = Some (CTyped go k) -> no_overflow D S t -> modular D S go t
| Mo_constant : forall t z, check D t = Some (CInt z) -> no_overflow D S t -> modular D S go t
| Mo_paren : forall a, modular D S go a -> modular D S go (GParen a)
| Mo_op : forall o a b, In o [Add; Sub; Mul] -> modular D S go a -> modular D S go b -> modular D S go (GBin o a b).

(** ** Operators without conversions *)

(** A comparison, or one of &, | and ^, as evaluated with operands that are not all
    constants. *)
Inductive unconverted : aexpr -> aexpr -> aexpr -> Prop :=
| U_compare : forall op a b r, eval_compare op false (res a) (res b) = (r, SOk) -> unconverted a b (ACompare op a b r)
| U_bitwise : forall op a b r, AstExpr.is_shift op = false -> eval_bitwise op false (res a) (res b) = (r, SOk) -> unconverted a b (ABitwise op a b r).
