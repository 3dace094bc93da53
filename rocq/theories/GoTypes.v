(** Types and values of Go expressions: the part of the language specification
    (https://go.dev/ref/spec: Constants, Expressions, Operators, Conversions,
    Representability) that the integer and bool expressions of generated code use.
    Floats and strings are not modelled. *)

Require Import ZArith String List Bool.
From Verif Require Import Bits Traits GoSyntax.
Import ListNotations.
Open Scope Z_scope.

(** ** Types *)

(** The underlying type of a type. *)
Inductive kind := KInt (g : gotype) | KBool.

(** What the names in an expression are declared as: the defined types; the typed
    constants (items of enums and bitmasks); the types of fields, parameters and
    methods, which are written v.A, v.A.B, v.F(), ...; the element types of fields
    that are slices. *)
Record genv := mkG {
  g_types : string -> option kind;
  g_consts : string -> option (string * Z);
  g_paths : gtree -> option string;
  g_elems : gtree -> option string
}.

Definition predeclared : list (string * kind) := [
  ("uint8", KInt (GU 8)); ("uint16", KInt (GU 16)); ("uint32", KInt (GU 32)); ("uint64", KInt (GU 64)); ("uint", KInt (GU 64));
  ("int8", KInt (GS 8)); ("int16", KInt (GS 16)); ("int32", KInt (GS 32)); ("int64", KInt (GS 64)); ("int", KInt (GS 64));
  ("bool", KBool)]%string.
Fixpoint find_name {A} (n : string) (l : list (string * A)) : option A :=
  match l with [] => None | (k, v) :: l' => if (k =? n)%string then Some v else find_name n l' end.
Definition kind_of (D : genv) (t : string) : option kind :=
  match find_name t predeclared with Some k => Some k | None => g_types D t end.
Definition int_kind (D : genv) (t : string) : option gotype := match kind_of D t with Some (KInt g) => Some g | _ => None end.
Definition is_bool (D : genv) (t : string) : bool := match kind_of D t with Some KBool => true | _ => false end.

(** A constant is representable by a type if it is in its range. *)
Definition representable (g : gotype) (z : Z) : bool := gconv g z =? z.

(** What an expression is: an untyped integer constant; an untyped bool (a constant
    or the result of a comparison); a value of a type, with its value if it is a
    constant. *)
Inductive class := CInt (z : Z) | CTest | CTyped (t : string) (c : option Z).

Fixpoint path (t : gtree) : bool :=
  match t with
  | GName n => (n =? "v")%string
  | GSelect a _ | GInvoke a => path a
  | _ => false
  end.

(** ** Operators *)

Inductive group := Arithmetic | Shift | Comparison | Logical.
Definition group_of (o : gop) : group :=
  match o with
  | Mul | Div | Rem | Add | Sub | BAnd | BOr | BXor => Arithmetic
  | Shl | Shr => Shift
  | EqE | NeE | LtE | LeE | GtE | GeE => Comparison
  | LAnd | LOr => Logical
  end.
(** Operators on integers without bounds; None is a division by 0 or a negative
    shift count. *)
Definition int_op (o : gop) (x y : Z) : option Z :=
  match o with
  | Add => Some (x + y)
  | Sub => Some (x - y)
  | Mul => Some (x * y)
  | Div => if y =? 0 then None else Some (Z.quot x y)
  | Rem => if y =? 0 then None else Some (Z.rem x y)
  | BAnd => Some (Z.land x y)
  | BOr => Some (Z.lor x y)
  | BXor => Some (Z.lxor x y)
  | Shl => if y <? 0 then None else Some (Z.shiftl x y)
  | Shr => if y <? 0 then None else Some (Z.shiftr x y)
  | _ => None
  end.
Definition compare_op (o : gop) (x y : Z) : bool :=
  match o with
  | EqE => x =? y | NeE => negb (x =? y) | LtE => x <? y | LeE => x <=? y | GtE => y <? x | GeE => y <=? x
  | _ => false
  end.

(** ** Checking *)

(** The common type of two operands: equal types, or a type that can represent the
    other operand, an untyped constant. *)
Definition common (D : genv) (a b : class) : option class :=
  match a, b with
  | CInt _, CInt _ => Some (CInt 0)
  | CTyped t _, CInt z | CInt z, CTyped t _ =>
      match int_kind D t with
      | Some g => if representable g z then Some (CTyped t None) else None
      | None => None
      end
  | CTyped t _, CTyped t' _ => if (t =? t')%string then Some (CTyped t None) else None
  | CTest, CTest => Some CTest
  | CTyped t _, CTest | CTest, CTyped t _ => if is_bool D t then Some (CTyped t None) else None
  | _, _ => None
  end.
Definition constant (c : class) : option Z := match c with CInt z => Some z | CTyped _ c => c | CTest => None end.
(** A constant 0 is no divisor. *)
Definition divides (o : gop) (b : class) : bool :=
  match o, constant b with (Div | Rem), Some z => negb (z =? 0) | _, _ => true end.
(** The result of an operator on operands of type [t]: constant if they are, and
    then it must be representable. *)
Definition typed_result (g : gotype) (t : string) (o : gop) (a b : class) : option class :=
  match constant a, constant b with
  | Some x, Some y =>
      match int_op o x y with
      | Some z => if representable g z then Some (CTyped t (Some z)) else None
      | None => None
      end
  | _, _ => Some (CTyped t None)
  end.
(** A shift count is an integer, and not negative if it is constant. *)
Definition shift_count (D : genv) (b : class) : bool :=
  match b with
  | CInt z => 0 <=? z
  | CTyped t c => match int_kind D t with Some _ => match c with Some z => 0 <=? z | None => true end | None => false end
  | CTest => false
  end.

Definition check_binary (D : genv) (o : gop) (a b : class) : option class :=
  match group_of o with
  | Arithmetic =>
      if divides o b then
        match common D a b with
        | Some (CInt _) =>
            match constant a, constant b with
            | Some x, Some y => option_map CInt (int_op o x y)
            | _, _ => None
            end
        | Some (CTyped t _) => match int_kind D t with Some g => typed_result g t o a b | None => None end
        | _ => None
        end
      else None
  | Shift =>
      if shift_count D b then
        match a with
        | CTyped t _ => match int_kind D t with Some g => typed_result g t o a b | None => None end
        | CInt x =>
            (* a shift of an untyped constant by a count that is not constant takes its
               type from the context; the generator never writes it *)
            match constant b with Some y => option_map CInt (int_op o x y) | None => None end
        | CTest => None
        end
      else None
  | Comparison =>
      match common D a b with
      | Some (CInt _) => Some CTest
      | Some (CTyped t _) =>
          match kind_of D t, o with
          | Some (KInt _), _ | Some KBool, (EqE | NeE) => Some CTest
          | _, _ => None
          end
      | Some CTest => match o with EqE | NeE => Some CTest | _ => None end
      | None => None
      end
  | Logical =>
      match common D a b with
      | Some CTest => Some CTest
      | Some (CTyped t _) => if is_bool D t then Some (CTyped t None) else None
      | _ => None
      end
  end.

(** T(x).  A constant must be representable. *)
Definition convert (D : genv) (t : string) (a : class) : option class :=
  match kind_of D t, a with
  | Some (KInt g), CInt z | Some (KInt g), CTyped _ (Some z) => if representable g z then Some (CTyped t (Some z)) else None
  | Some (KInt _), CTyped t' None => match int_kind D t' with Some _ => Some (CTyped t None) | None => None end
  | Some KBool, CTest => Some (CTyped t None)
  | Some KBool, CTyped t' _ => if is_bool D t' then Some (CTyped t None) else None
  | _, _ => None
  end.
(** ztype.NumBits takes a uint64 and returns an int. *)
Definition check_numbits (a : class) : option class :=
  match a with
  | CInt z => if representable (GU 64) z then Some (CTyped "int" None) else None
  | CTyped t _ => if (t =? "uint64")%string then Some (CTyped "int" None) else None
  | CTest => None
  end.

Definition obind {A B} (a : option A) (f : A -> option B) : option B := match a with Some x => f x | None => None end.

Fixpoint check (D : genv) (t : gtree) : option class :=
  match t with
  | GLit (LInt z) => Some (CInt z)
  | GLit (LBool _) => Some CTest
  | GLit _ => None
  | GName n =>
      (* the variable of the loop over the elements of an array *)
      if (n =? "index")%string then Some (CTyped "int" None)
      else match g_consts D n with Some (t, z) => Some (CTyped t (Some z)) | None => None end
  | GParen a => check D a
  | GNeg a =>
      match check D a with
      | Some (CInt z) => Some (CInt (- z))
      | Some (CTyped t c) =>
          match int_kind D t, c with
          | Some g, Some z => if representable g (- z) then Some (CTyped t (Some (- z))) else None
          | Some _, None => Some (CTyped t None)
          | None, _ => None
          end
      | _ => None
      end
  | GNot a =>
      match check D a with
      | Some CTest => Some CTest
      | Some (CTyped t _) => if is_bool D t then Some (CTyped t None) else None
      | _ => None
      end
  | GSelect _ _ | GInvoke _ => if path t then option_map (fun t => CTyped t None) (g_paths D t) else None
  | GIndex a i =>
      if path a then
        match check D i with
        | Some (CInt z) => if 0 <=? z then option_map (fun t => CTyped t None) (g_elems D a) else None
        | Some (CTyped t c) => if shift_count D (CTyped t c) then option_map (fun t => CTyped t None) (g_elems D a) else None
        | _ => None
        end
      else None
  | GCall (GName f) a =>
      if (f =? "len")%string then
        if path a then option_map (fun _ => CTyped "int" None) (g_elems D a) else None
      else if (f =? "ztype.NumBits")%string then obind (check D a) check_numbits
      else obind (check D a) (convert D f)
  | GCall (GParen (GName f)) a => obind (check D a) (convert D f)
  | GCall _ _ => None
  | GBin o a b => obind (check D a) (fun x => obind (check D b) (check_binary D o x))
  end.

(** ** Evaluation *)

Inductive gval := GI (z : Z) | GB (b : bool).

(** The values of paths (a method may panic: None), of elements (None: no such
    element), of lengths, and of the variable index. *)
Record gstate := mkGS {
  s_paths : gtree -> option gval;
  s_elems : gtree -> Z -> option gval;
  s_length : gtree -> Z;
  s_index : Z
}.

(** The run-time function ztype.NumBits (ztype/varuint_encode.go:116-125), see
    [Scalars.NumBits]. *)
From Verif Require Scalars.

Definition as_int (v : gval) : option Z := match v with GI z => Some z | GB _ => None end.
Definition as_bool (v : gval) : option bool := match v with GB b => Some b | GI _ => None end.

(** An operator whose result has the class [c]: integers wrap around. *)
Definition eval_binary (D : genv) (c : option class) (o : gop) (a b : option gval) : option gval :=
  match group_of o with
  | Arithmetic | Shift =>
      obind a (fun va => obind b (fun vb => obind (as_int va) (fun x => obind (as_int vb) (fun y =>
        obind (int_op o x y) (fun z =>
          match c with
          | Some (CTyped t _) => match int_kind D t with Some g => Some (GI (gconv g z)) | None => None end
          | Some (CInt _) => Some (GI z)
          | _ => None
          end)))))
  | Comparison =>
      obind a (fun va => obind b (fun vb =>
        match va, vb with
        | GI x, GI y => Some (GB (compare_op o x y))
        | GB x, GB y => Some (GB (match o with EqE => Bool.eqb x y | _ => negb (Bool.eqb x y) end))
        | _, _ => None
        end))
  | Logical =>
      (* the right operand is evaluated only if needed *)
      obind a (fun va => obind (as_bool va) (fun x =>
        match o, x with
        | LAnd, false => Some (GB false)
        | LOr, true => Some (GB true)
        | _, _ => obind b (fun vb => option_map GB (as_bool vb))
        end))
  end.

Definition eval_convert (D : genv) (t : string) (v : gval) : option gval :=
  match kind_of D t, v with
  | Some (KInt g), GI z => Some (GI (gconv g z))
  | Some KBool, GB b => Some (GB b)
  | _, _ => None
  end.

Fixpoint geval (D : genv) (S : gstate) (t : gtree) : option gval :=
  match t with
  | GLit (LInt z) => Some (GI z)
  | GLit (LBool b) => Some (GB b)
  | GLit _ => None
  | GName n => if (n =? "index")%string then Some (GI (s_index S)) else option_map (fun x => GI (snd x)) (g_consts D n)
  | GParen a => geval D S a
  | GNeg a =>
      obind (geval D S a) (fun v => obind (as_int v) (fun z =>
        match check D t with
        | Some (CTyped t _) => match int_kind D t with Some g => Some (GI (gconv g (- z))) | None => None end
        | _ => Some (GI (- z))
        end))
  | GNot a => obind (geval D S a) (fun v => option_map (fun b => GB (negb b)) (as_bool v))
  | GSelect _ _ | GInvoke _ => s_paths S t
  | GIndex a i => obind (geval D S i) (fun v => obind (as_int v) (s_elems S a))
  | GCall (GName f) a =>
      if (f =? "len")%string then Some (GI (s_length S a))
      else if (f =? "ztype.NumBits")%string then obind (geval D S a) (fun v => option_map (fun z => GI (Scalars.NumBits z)) (as_int v))
      else obind (geval D S a) (eval_convert D f)
  | GCall (GParen (GName f)) a => obind (geval D S a) (eval_convert D f)
  | GCall _ _ => None
  | GBin o a b => eval_binary D (check D t) o (geval D S a) (geval D S b)
  end.
