(** What names in structs, choices and unions should mean. *)

Require Import ZArith String List Bool.
From Verif Require Import AstExpr GoSyntax ExprPrint ExprPrintSpec GoTypes GoTypesSpec Packages PackagesSpec Members.
Import ListNotations.
Open Scope Z_scope.

(** The schema can be searched: packages have different names, imports make no cycle
    and the depth of the searches is sufficient. *)
Definition searchable (E : menv) (p : package) : Prop :=
  distinct (me_world E) /\ In p (me_world E) /\ acyclic (me_world E) p /\ (length (me_world E) <= me_depth E)%nat.

(** ** Types *)

(** What is behind the type references of a schema. *)
Inductive meaning := Builtin (t : tyref) | Declared (s : sym).

(** In the package [p], [t] means [m], by way of [k] subtypes.  A reference is
    resolved from the package in which it is written. *)
Inductive means (w : world) : package -> tyref -> nat -> meaning -> Prop :=
| means_builtin : forall p t, tr_builtin t = true -> means w p t 0 (Builtin t)
| means_declared : forall p t q s, tr_builtin t = false -> reach w p q -> p_name q = tr_package t -> declares q (tr_name t) s ->
    match s with SyStruct _ | SyChoice _ | SyUnion _ | SyEnum _ | SyBitmask _ => True | _ => False end ->
    means w p t 0 (Declared s)
| means_subtype : forall p t q t' k m, tr_builtin t = false -> reach w p q -> p_name q = tr_package t ->
    declares q (tr_name t) (SySubtype t') -> means w q t' k m -> means w p t (S k) m.

(** The type of expressions that have the meaning [m]; and their zserio type, if it
    is a builtin one. *)
Definition meaning_type (m : meaning) : ety :=
  match m with
  | Builtin t =>
      if (tr_name t =? "bool")%string then TyBool
      else if (tr_name t =? "string")%string then TyString
      else if existsb (fun n => tr_name t =? n)%string ["float16"; "float32"; "float64"]%string then TyFloat
      else TyInt
  | Declared (SyEnum _) => TyEnum
  | Declared (SyBitmask _) => TyBitmask
  | Declared _ => TyCompound
  end.
Definition meaning_native (m : meaning) : option tref :=
  match m with Builtin t => Some (mkT (tr_name t) (tr_bits t) false) | Declared _ => None end.

(** The number of subtypes that are followed before "symbol lookup failed". *)
Definition subtype_limit (m : meaning) : nat := match m with Builtin _ => 100 | Declared _ => 99 end.

(** ** Names *)

(** [n] is a member of the compound type [c] of the package [p]. *)
Definition member_of (E : menv) (p : package) (c n : string) (s : sym) : Prop :=
  exists l, me_members E (p_name p) c = Some l /\ get n l = Some s.
Definition member_type (s : sym) (t : tyref) : Prop := s = SyParameter t \/ exists array, s = SyField t array.

(** No type, constant or subtype [n] is declared in [p] or in a package imported by
    [p]. *)
Definition not_global (E : menv) (p : package) (n : string) : Prop :=
  undeclared p n /\ forall q, edge (me_world E) p q -> undeclared q n.

(** The names that an expression looks up. *)
Fixpoint names (e : mexpr) : list string :=
  match e with
  | MNum _ | MBool _ | MStr _ | MFloat _ _ | MIndex => []
  | MName n => [n]
  | MDot a id n => names a ++ (if id then [n] else [])
  | MCall a | MLengthof a | MParen a | MUnary _ a | MNot a | MTilde a | MValueof a | MNumbits a => names a
  | MElem a b | MArith _ a b | MLogic _ a b | MCompare _ a b | MBitwise _ a b | MIsset a b => names a ++ names b
  | MTernary a b c => names a ++ names b ++ names c
  end.

(** [n] is seen from [p] as the type [s] of the package [q]: declared in [p] itself,
    or in the first import of [p] that declares [n]. *)
Definition sees (w : world) (p : package) (n : string) (q : package) (s : sym) : Prop :=
  (q = p /\ declares p n s) \/
  (undeclared p n /\ exists l1 l2, imported w p = l1 ++ q :: l2 /\ (forall x, In x l1 -> undeclared x n) /\ declares q n s).

(** Only structs, choices and unions have members, and they are declared. *)
Definition members_declared (E : menv) : Prop :=
  forall q c l, In q (me_world E) -> me_members E (p_name q) c = Some l -> ~ undeclared q c.

(** In the compound type [c] of [p], the expression [e] is a path to the member [s]
    of a compound type of [q]: a member of [c], or a member of a struct or choice that
    a path leads to, if the type of the latter is seen from [p] under its name. *)
Inductive path_to (E : menv) (p : package) (c : string) : mexpr -> sym -> package -> Prop :=
| path_own : forall n s, member_of E p c n s -> not_global E p n -> path_to E p c (MName n) s p
| path_dot : forall a s q t q' s' n m, path_to E p c a s q -> member_type s t ->
    tr_builtin t = false -> reach (me_world E) q q' -> p_name q' = tr_package t -> sees (me_world E) p (tr_name t) q' s' ->
    (exists i, s' = SyStruct i \/ s' = SyChoice i) -> member_of E q' (tr_name t) n m -> path_to E p c (MDot a false n) m q'.

(** ** Choices *)

(** The value of a label, for a selector of the type [t] in the package [p]: a name
    is an item of the enum, or a value of the bitmask, that [t] is; anything else is
    an expression. *)
Definition label_value (E : menv) (cur : current) (p : package) (t : tyref) (label : mexpr) (z : Z) : Prop :=
  match label with
  | MName n =>
      exists k i r, (means (me_world E) p t k (Declared (SyEnum i)) /\ get n (me_enum E i) = Some r \/
                     means (me_world E) p t k (Declared (SyBitmask i)) /\ get n (me_mask E i) = Some (Some r)) /\ z = r_int r
  | _ => exists a s, evaluate_member E cur p label = MOk a s /\ z = r_int (res a)
  end.

(** [n] is nothing: no type or constant that [p] sees, no member of a compound type
    of [p] or of a package it imports, and no item of an enum. *)
Definition no_item (E : menv) (p : package) (n : string) : Prop := forall q s, reach (me_world E) p q -> ~ has_item q n s.
Definition no_member_named (E : menv) (p : package) (n : string) : Prop :=
  forall q c l, q = p \/ edge (me_world E) p q -> me_members E (p_name q) c = Some l -> get n l = None.
Definition nothing (E : menv) (p : package) (n : string) : Prop := not_global E p n /\ no_item E p n /\ no_member_named E p n.

(** The OtherScope of a package has the items of its enums. *)
Definition items_only (E : menv) : Prop := forall q n s, In q (me_world E) -> has_item q n s -> exists i, s = SyEnumItem i.

(** [n] is nothing but an item of an enum. *)
Definition item_only (E : menv) (p : package) (n : string) : Prop :=
  not_global E p n /\ no_member_named E p n /\ exists q s, reach (me_world E) p q /\ has_item q n s.

(** The name of the type [t], alone, means [t] in [p]; the name of a builtin type is
    a keyword. *)
Definition plain_name (E : menv) (p : package) (t : tyref) : Prop :=
  if tr_builtin t then nothing E p (tr_name t)
  else exists q s, sees (me_world E) p (tr_name t) q s /\ p_name q = tr_package t.

(** ** Integers *)

(** Integer expressions over the members of the compound type [c] of [p], in a Go
    program [D] in which each member has the Go type of its declaration.  In
    parentheses, a member has no subtype (see C74). *)
Inductive integer_expression (E : menv) (p : package) (c : string) (D : genv) : mexpr -> Prop :=
| IE_num : forall z, 0 <= z < 2 ^ 63 -> integer_expression E p c D (MNum z)
| IE_const : forall n q t, sees (me_world E) p n q (SyConst t) -> r_type (me_const E (p_name q) n) = TyInt ->
    - 2 ^ 63 <= r_int (me_const E (p_name q) n) < 2 ^ 63 ->
    match r_native (me_const E (p_name q) n) with Some b => integer b | None => True end -> integer_expression E p c D (MName n)
| IE_member : forall n s t k b go g, member_of E p c n s -> not_global E p n -> member_type s t ->
    means (me_world E) p t k (Builtin b) -> (k <= 100)%nat -> integer (mkT (tr_name b) (tr_bits b) false) ->
    PackageGoType (p_name p) t = Some go -> g_paths D (GSelect (GName "v") (title n)) = Some go -> int_kind D go = Some g ->
    integer_expression E p c D (MName n)
| IE_index : integer_expression E p c D MIndex
| IE_lengthof : forall n t k m ty, member_of E p c n (SyField t true) -> not_global E p n ->
    means (me_world E) p t k m -> (k <= subtype_limit m)%nat -> g_elems D (GSelect (GName "v") (title n)) = Some ty ->
    integer_expression E p c D (MLengthof (MName n))
| IE_numbits : forall a, integer_expression E p c D a -> integer_expression E p c D (MNumbits a)
| IE_paren : forall a, integer_expression E p c D a ->
    (forall n s t, a = MName n -> member_of E p c n s -> member_type s t -> tr_builtin t = true) -> integer_expression E p c D (MParen a)
| IE_arith : forall op a b, integer_expression E p c D a -> integer_expression E p c D b -> integer_expression E p c D (MArith op a b).

Fixpoint divides (e : mexpr) : Prop :=
  match e with
  | MArith op a b => divisor op = true \/ divides a \/ divides b
  | MParen a | MNumbits a => divides a
  | _ => False
  end.

(** The last name of a name, of a member access and of a call of either. *)
Fixpoint last_name (e : mexpr) : option string :=
  match e with
  | MName n | MDot _ _ n => Some n
  | MCall a => last_name a
  | _ => None
  end.

(** The value of an integer expression in the compound type [c] of [p], with the
    values of members from [S]. *)
Definition operation (op : aop) (x y : Z) : option Z :=
  match op with
  | Plus => Some (x + y)
  | Minus => Some (x - y)
  | Multiply => Some (x * y)
  | Divide => if y =? 0 then None else Some (Z.quot x y)
  | Modulo => if y =? 0 then None else Some (Z.rem x y)
  end.
Inductive value (E : menv) (p : package) (c : string) (S : gstate) : mexpr -> Z -> Prop :=
| V_num : forall z, value E p c S (MNum z) z
| V_const : forall n q t, sees (me_world E) p n q (SyConst t) -> value E p c S (MName n) (r_int (me_const E (p_name q) n))
| V_member : forall n s z, member_of E p c n s -> not_global E p n -> s_paths S (GSelect (GName "v") (title n)) = Some (GI z) -> value E p c S (MName n) z
| V_index : value E p c S MIndex (s_index S)
| V_lengthof : forall n s, member_of E p c n s -> not_global E p n -> value E p c S (MLengthof (MName n)) (s_length S (GSelect (GName "v") (title n)))
| V_numbits : forall a x, value E p c S a x -> value E p c S (MNumbits a) (numbits x)
| V_paren : forall a x, value E p c S a x -> value E p c S (MParen a) x
| V_arith : forall op a b x y z, value E p c S a x -> value E p c S b y -> operation op x y = Some z -> value E p c S (MArith op a b) z.

(** Expressions of constants are within int64; numbits is not applied to one: its
    value is another one then (see C50). *)
Inductive constant_expression (E : menv) (p : package) : mexpr -> Prop :=
| CE_num : forall z, constant_expression E p (MNum z)
| CE_const : forall n q t, sees (me_world E) p n q (SyConst t) -> constant_expression E p (MName n)
| CE_numbits : forall a, constant_expression E p a -> constant_expression E p (MNumbits a)
| CE_paren : forall a, constant_expression E p a -> constant_expression E p (MParen a)
| CE_arith : forall op a b, constant_expression E p a -> constant_expression E p b -> constant_expression E p (MArith op a b).
Fixpoint exact_constants (E : menv) (p : package) (c : string) (S : gstate) (e : mexpr) : Prop :=
  match e with
  | MArith _ a b =>
      exact_constants E p c S a /\ exact_constants E p c S b /\
      (constant_expression E p e -> forall z, value E p c S e z -> - 2 ^ 63 <= z < 2 ^ 63)
  | MParen a => exact_constants E p c S a
  | MNumbits a => exact_constants E p c S a /\ ~ constant_expression E p a
  | _ => True
  end.
