(** The values of the expressions of a schema file.  The spec reads the file as it is
    written and computes with integers without bounds. *)

Require Import ZArith String Ascii List Bool.
From Verif Require Import Bits Traits Schema.
From Verif Require Literals LiteralsSpec CodecChoiceSpec GoTypesSpec.
From Verif Require Import Visitor Compile CompileSpec.
Import ListNotations.
Open Scope string_scope.
Open Scope list_scope.

(** ** Members *)

(** The value of a parameter and of a field. *)
Definition read_param (i : nat) (E : env) : option value := nth_error (e_params E) i.
Definition read_field (i : nat) (E : env) : option value := match nth_error (e_slots E) i with Some o => o | None => None end.

(** In the type [scope], [x] is a parameter, or a field that is not optional: its type,
    whether it is an array, and its value. *)
Inductive member (ds : list cdirective) (scope : string) : string -> ctype -> bool -> (env -> option value) -> Prop :=
| ME_struct : forall s i t x, In (CStruct s) ds -> cs_name s = scope -> nth_error (cs_params s) i = Some (t, x) -> member ds scope x t false (read_param i)
| ME_choice : forall c i t x, In (CChoice c) ds -> cc_name c = scope -> nth_error (cc_params c) i = Some (t, x) -> member ds scope x t false (read_param i)
| ME_field : forall s i f, In (CStruct s) ds -> cs_name s = scope -> nth_error (cs_fields s) i = Some f -> cf_optional f = false ->
    member ds scope (ft_name (cf_type f)) (ci_type (ft_inst (cf_type f))) (match ft_range (cf_type f) with Some _ => true | None => false end) (read_field i).

(** The integer types and their Go types, directly or by way of subtypes. *)
Definition int_names : list (string * gotype) := [
  ("uint8", GU 8); ("uint16", GU 16); ("uint32", GU 32); ("uint64", GU 64); ("int8", GS 8); ("int16", GS 16); ("int32", GS 32); ("int64", GS 64);
  ("varint", GS 64); ("varint16", GS 16); ("varint32", GS 32); ("varint64", GS 64);
  ("varuint", GU 64); ("varuint16", GU 16); ("varuint32", GU 32); ("varuint64", GU 64); ("varsize", GU 64)]%Z.
Inductive int_type : ctype -> gotype -> Prop :=
| IT_keyword : forall n g, In (n, g) int_names -> int_type (CKeyword n) g
| IT_width : forall signed w g, (1 <= w <= 64)%nat -> CodecChoiceSpec.smallest (Z.of_nat w) g ->
    int_type (CBitField signed (Some w)) (CodecChoiceSpec.gint signed g).
Definition has_int (ds : list cdirective) (t : ctype) (g : gotype) : Prop := exists k t', (k <= 100)%nat /\ stands_for ds k t t' /\ int_type t' g.
Definition has_bool (ds : list cdirective) (t : ctype) : Prop := exists k, (k <= 100)%nat /\ stands_for ds k t (CKeyword "bool").

(** A member is not hidden by a declaration of the same name. *)
Definition visible (ds : list cdirective) (x : string) : Prop := ~ In x (flat_map declares ds).

(** ** Integers *)

Definition int_op (o : bop) (x y : Z) : option Z :=
  match o with
  | BPlus => Some (x + y)%Z
  | BMinus => Some (x - y)%Z
  | BMul => Some (x * y)%Z
  | BDiv => if (y =? 0)%Z then None else Some (Z.quot x y)
  | BMod => if (y =? 0)%Z then None else Some (Z.rem x y)
  | _ => None
  end.
(** The value depends on a member or on @index. *)
Fixpoint depends (ds : list cdirective) (e : cexpr) : Prop :=
  match e with
  | CId x => visible ds x
  | CIndex | CLengthof _ => True
  | CParen a | CNumbits a | CUnary _ a => depends ds a
  | CBinary _ a b => depends ds a \/ depends ds b
  | _ => False
  end.
(** A member whose type is a subtype. *)
Definition subtyped (ds : list cdirective) (scope : string) (e : cexpr) : Prop :=
  exists x names args array read, e = CId x /\ member ds scope x (CNamed names args) array read.

(** An integer literal, or one with a minus sign. *)
Inductive signed_literal : cexpr -> Z -> Prop :=
| SL_plain : forall k t z, LiteralsSpec.int_literal k (list_ascii_of_string t) z -> signed_literal (CLiteral k t) z
| SL_minus : forall k t z, LiteralsSpec.int_literal k (list_ascii_of_string t) z -> signed_literal (CUnary UMinus (CLiteral k t)) (- z).
(** [e] is [z], and so that Go's integers hold: this value, and that of every part of
    [e], is at least [lo] and below [hi], and so are not more than the values that the
    Go types of the members in [e] have.  [index] is @index, where there is one.
    numbits is applied to what depends on the data, a sign to what does not, and parentheses enclose no member of
    a subtype (see C50, C74). *)
Inductive int_value (ds : list cdirective) (scope : string) (E : env) (index : option nat) (lo hi : Z) : cexpr -> Z -> Prop :=
| IV_literal : forall e z, signed_literal e z -> (lo <= z < hi)%Z -> int_value ds scope E index lo hi e z
| IV_const : forall ct x v z, In (CConst ct x v) ds -> signed_literal v z -> (lo <= z < hi)%Z ->
    int_value ds scope E index lo hi (CId x) z
| IV_member : forall x t g read z, member ds scope x t false read -> visible ds x -> has_int ds t g -> (forall y, (lo <= y < hi)%Z -> gvalue g y) ->
    read E = Some (VInt z) -> (lo <= z < hi)%Z -> int_value ds scope E index lo hi (CId x) z
| IV_index : forall i, index = Some i -> (lo <= Z.of_nat i < hi)%Z -> int_value ds scope E index lo hi CIndex (Z.of_nat i)
| IV_lengthof : forall x t read l, member ds scope x t true read -> visible ds x -> read E = Some (VArr l) -> (lo <= Z.of_nat (length l) < hi)%Z ->
    int_value ds scope E index lo hi (CLengthof (CId x)) (Z.of_nat (length l))
| IV_numbits : forall a z, int_value ds scope E index lo hi a z -> (0 <= z)%Z -> depends ds a -> (lo <= GoTypesSpec.numbits z < hi)%Z ->
    int_value ds scope E index lo hi (CNumbits a) (GoTypesSpec.numbits z)
| IV_paren : forall a z, int_value ds scope E index lo hi a z -> ~ subtyped ds scope a -> int_value ds scope E index lo hi (CParen a) z
| IV_plus : forall a z, int_value ds scope E index lo hi a z -> ~ depends ds a -> int_value ds scope E index lo hi (CUnary UPlus a) z
| IV_minus : forall a z, int_value ds scope E index lo hi a z -> ~ depends ds a -> (lo <= - z < hi)%Z -> int_value ds scope E index lo hi (CUnary UMinus a) (- z)
| IV_op : forall o a b x y z, int_value ds scope E index lo hi a x -> int_value ds scope E index lo hi b y -> int_op o x y = Some z -> (lo <= z < hi)%Z ->
    int_value ds scope E index lo hi (CBinary o a b) z.
Definition is_int (ds : list cdirective) (scope : string) (E : env) (index : option nat) (e : cexpr) (z : Z) : Prop :=
  exists lo hi, (- 2 ^ 63 <= lo)%Z /\ (hi <= 2 ^ 63)%Z /\ int_value ds scope E index lo hi e z.

(** ** Enums *)

(** The items of an enum and their numbers: an item without a value has the number after
    that of the item before, the first one 0. *)
Inductive items_from (next : Z) : list (option mark * string * option cexpr) -> list (string * Z) -> Prop :=
| IF_none : items_from next [] []
| IF_value : forall m x v z items l, signed_literal v z -> items_from (z + 1) items l -> items_from next ((m, x, Some v) :: items) ((x, z) :: l)
| IF_next : forall m x items l, (next < 2 ^ 63)%Z -> items_from (next + 1) items l -> items_from next ((m, x, None) :: items) ((x, next) :: l).
(** [x] is an item of the enum [e], with the number [z]. *)
Definition item_of (e : cenum) (x : string) (z : Z) : Prop := exists l, items_from 0 (ce_items e) l /\ NoDup (map fst l) /\ In (x, z) l.
(** The type [t] is the enum [e], directly or by way of subtypes. *)
Definition has_enum (ds : list cdirective) (t : ctype) (e : cenum) : Prop :=
  exists k, (k <= 99)%nat /\ stands_for ds k t (CNamed [ce_name e] []) /\ In (CEnum e) ds.

(** ** Conditions *)

Definition comparison (o : bop) (x y : Z) : option bool :=
  match o with
  | BLt => Some (x <? y)%Z | BLe => Some (x <=? y)%Z | BGt => Some (y <? x)%Z | BGe => Some (y <=? x)%Z
  | BEq => Some (x =? y)%Z | BNe => Some (negb (x =? y)%Z)
  | _ => None
  end.
(** The right side of && and || counts only if the left side does not decide.  A member
    whose type is an enum is compared with an item of it, written with the enum or with a
    subtype of it. *)
Inductive is_bool (ds : list cdirective) (scope : string) (E : env) (index : option nat) : cexpr -> bool -> Prop :=
| BV_literal : forall (b : bool), is_bool ds scope E index (CLiteral Literals.TBool (if b then "true" else "false")) b
| BV_member : forall x t read b, member ds scope x t false read -> visible ds x -> has_bool ds t -> read E = Some (VBool b) ->
    is_bool ds scope E index (CId x) b
| BV_compare : forall o a b x y c, is_int ds scope E index a x -> is_int ds scope E index b y -> comparison o x y = Some c ->
    is_bool ds scope E index (CBinary o a b) c
| BV_item : forall o x t read e m n g z y c, member ds scope x t false read -> visible ds x -> has_enum ds t e -> has_enum ds (CNamed [m] []) e -> item_of e n y ->
    has_int ds (ci_type (ce_type e)) g -> gvalue g z -> read E = Some (VInt z) -> comparison o z y = Some c ->
    is_bool ds scope E index (CBinary o (CId x) (CDot (CId m) n)) c
| BV_not : forall a x, is_bool ds scope E index a x -> is_bool ds scope E index (CUnary UBang a) (negb x)
| BV_paren : forall a x, is_bool ds scope E index a x -> is_bool ds scope E index (CParen a) x
| BV_and : forall a b x, is_bool ds scope E index a true -> is_bool ds scope E index b x -> is_bool ds scope E index (CBinary BLogAnd a b) x
| BV_and_not : forall a b, is_bool ds scope E index a false -> is_bool ds scope E index (CBinary BLogAnd a b) false
| BV_or : forall a b x, is_bool ds scope E index a false -> is_bool ds scope E index b x -> is_bool ds scope E index (CBinary BLogOr a b) x
| BV_or_not : forall a b, is_bool ds scope E index a true -> is_bool ds scope E index (CBinary BLogOr a b) true.

(** ** Labels *)

(** A label of a choice: an integer literal, or, where the selector is a parameter whose
    type is an enum, the name of an item. *)
Inductive label_value (ds : list cdirective) (c : cchoice) : cexpr -> Z -> Prop :=
| LV_literal : forall k t z, LiteralsSpec.int_literal k (list_ascii_of_string t) z -> label_value ds c (CLiteral k t) z
| LV_item : forall y t e x z, cc_on c = CId y -> visible ds y -> In (t, y) (cc_params c) -> has_enum ds t e -> item_of e x z ->
    label_value ds c (CId x) z.

(** ** Files *)

(** The types that are used in the declaration of [scope]. *)
Inductive used (ds : list cdirective) (scope : string) : cfieldtype -> Prop :=
| U_struct : forall s f, In (CStruct s) ds -> cs_name s = scope -> In f (cs_fields s) -> used ds scope (cf_type f)
| U_union : forall u f, In (CUnion u) ds -> cu_name u = scope -> In f (cu_fields u) -> used ds scope (ccf_type f)
| U_case : forall c l f, In (CChoice c) ds -> cc_name c = scope -> In (l, Some f) (cc_cases c) -> used ds scope (ccf_type f)
| U_default : forall c f, In (CChoice c) ds -> cc_name c = scope -> cc_default c = Some (Some f) -> used ds scope (ccf_type f).
(** The expressions of a file: lengths, conditions, arguments (with the parameters they
    are for; [array]: of an array), and labels. *)
Definition length_in (ds : list cdirective) (scope : string) (e : cexpr) : Prop :=
  exists t, used ds scope t /\ (ci_params (ft_inst t) = CLength e \/ ft_range t = Some (Some e)).
Definition condition_in (ds : list cdirective) (scope : string) (e : cexpr) : Prop :=
  exists s f, In (CStruct s) ds /\ cs_name s = scope /\ In f (cs_fields s) /\ cf_if f = Some e.
Definition argument_in (ds : list cdirective) (scope : string) (array : bool) (p : cparam) (e : cexpr) : Prop :=
  exists t k n params es, used ds scope t /\ array = (match ft_range t with Some _ => true | None => false end) /\
    ci_params (ft_inst t) = CArgs (map CArg es) /\ (k <= 100)%nat /\ stands_for ds k (ci_type (ft_inst t)) (CNamed [n] []) /\
    has_params ds n params /\ length params = length es /\ In (p, e) (combine params es).
Definition label_in (ds : list cdirective) (c : cchoice) (e : cexpr) : Prop :=
  exists l f, In (CChoice c) ds /\ In (l, f) (cc_cases c) /\ In e l.

(** An argument of an enum type: a member of the same enum. *)
Definition enum_argument (ds : list cdirective) (scope : string) (E : env) (p : ctype) (a : cexpr) (z : Z) : Prop :=
  exists x t read e g, a = CId x /\ member ds scope x t false read /\ visible ds x /\ has_enum ds t e /\ has_enum ds p e /\
    has_int ds (ci_type (ce_type e)) g /\ gvalue g z /\ read E = Some (VInt z).

(** [I] gives the expressions of the file their values, or none.  An argument has the
    type of its parameter. *)
Definition index_of (array : bool) (i : nat) : option nat := if array then Some i else None.
Definition exact_reading (ds : list cdirective) (I : reading) : Prop :=
  (forall scope e E z, length_in ds scope e -> m_int I scope e E = Some z -> is_int ds scope E None e z) /\
  (forall scope e E b, condition_in ds scope e -> m_cond I scope e E = Some b -> is_bool ds scope E None e b) /\
  (forall scope array p e E i v, argument_in ds scope array p e -> m_arg I scope p e E i = Some v ->
     (exists z g, v = VInt z /\ has_int ds (fst p) g /\ gvalue g z /\ is_int ds scope E (index_of array i) e z) \/
     (exists b, v = VBool b /\ has_bool ds (fst p) /\ is_bool ds scope E (index_of array i) e b) \/
     (exists z, v = VInt z /\ enum_argument ds scope E (fst p) e z)) /\
  (forall c e, label_in ds c e -> label_value ds c e (m_label I (cc_name c) e)).

(** ** Functions *)

Definition function_in (ds : list cdirective) (scope : string) (fn : cfunction) : Prop :=
  (exists s, In (CStruct s) ds /\ cs_name s = scope /\ In fn (cs_functions s)) \/
  (exists u, In (CUnion u) ds /\ cu_name u = scope /\ In fn (cu_functions u)).
(** The name of the method: with a capital letter. *)
Definition letters : list (ascii * ascii) :=
  combine (list_ascii_of_string "abcdefghijklmnopqrstuvwxyz") (list_ascii_of_string "ABCDEFGHIJKLMNOPQRSTUVWXYZ").
Inductive exported : string -> string -> Prop :=
| EX_small : forall c d r, In (c, d) letters -> exported (String c r) (String d r)
| EX_other : forall c r, ~ In c (map fst letters) -> exported (String c r) (String c r).
(** Arrays have fewer than 2^63 elements. *)
Definition ordinary (E : env) : Prop :=
  (forall l, In (VArr l) (e_params E) -> (Z.of_nat (length l) < 2 ^ 63)%Z) /\ (forall l, In (Some (VArr l)) (e_slots E) -> (Z.of_nat (length l) < 2 ^ 63)%Z).
(** The value of the type [g] that has the bits of [z]. *)
Definition low_bits (g : gotype) (z y : Z) : Prop := gvalue g y /\ exists k, (y = z + k * 2 ^ gwidth g)%Z.
