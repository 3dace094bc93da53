(** Properties C28-C33, C41 and C51-C54: constants, enum items, bitmask values and
    types in the schema. *)

Require Import ZArith String List Bool Lia ZifyBool ZifyNat SpecFloat.
From Verif Require Import Bits AstExpr AstExprSpec AstThms AstTypes AstTypesSpec AstTypesThms.
Import ListNotations.
Open Scope Z_scope.

(** A schema for the examples: the constants A = 7 / 2, B = A + (A << 2),
    C = A > 2 ? B : numbits(B); the enum with items r, g = 5, b, y; the bitmask
    with values r, w, x = 16, y. *)
Definition ex_defs : list iexpr := [
  IArith Divide (INum 7) (INum 2);
  IArith Plus (IConst "A") (IParen (IBitwise LShift (IConst "A") (INum 2)));
  ITernary (BCompare Gt (IConst "A") (INum 2)) (IConst "B") (INumbits (IConst "B"))].
Definition ex_program : program :=
  mkP (map int_expr ex_defs)
      [[("r", None); ("g", Some (ENum 5)); ("b", None); ("y", None)]]%string
      [[("r", None); ("w", None); ("x", Some (ENum 16)); ("y", None)]]%string.
Definition ex_scope : scope := fun n =>
  if (n =? "A")%string then Some (SConst 0) else if (n =? "B")%string then Some (SConst 1)
  else if (n =? "C")%string then Some (SConst 2) else if (n =? "Color")%string then Some (SEnum 0)
  else if (n =? "Mask")%string then Some (SMask 0) else None.

(** ** C28 *)

(** An enum item without a value is 0 if it is the first, otherwise one more than
    the item before it (in 64 bits, so that 2^63 - 1 is followed by -2^63). *)
Theorem C28_implicit : forall P s look e items k name,
  reached P s -> nth_error (p_enums P) e = Some items -> nth_error items k = Some (name, None) ->
  snd (evaluate_enum P look e s) = SOk ->
  let s' := fst (evaluate_enum P look e s) in
  match k with
  | O => value_of s' (REnum e 0) = Some 0
  | S j => exists v, value_of s' (REnum e j) = Some v /\ value_of s' (REnum e (S j)) = Some (wrap (v + 1))
  end.
Proof. exact enum_implicit. Qed.
Print Assumptions C28_implicit.

(** So a run of items without values counts up. *)
Theorem C28_run : forall P s look e items j v n,
  reached P s -> nth_error (p_enums P) e = Some items ->
  (forall i, (j < i <= j + n)%nat -> exists name, nth_error items i = Some (name, None)) ->
  snd (evaluate_enum P look e s) = SOk ->
  value_of (fst (evaluate_enum P look e s)) (REnum e j) = Some v -> - 2 ^ 63 <= v -> v + Z.of_nat n < 2 ^ 63 ->
  value_of (fst (evaluate_enum P look e s)) (REnum e (j + n)) = Some (v + Z.of_nat n).
Proof. exact enum_counts. Qed.
Print Assumptions C28_run.

(** An item with a value has it. *)
Theorem C28_explicit : forall P s look e items k name d, reached P s ->
  nth_error (p_enums P) e = Some items -> nth_error items k = Some (name, Some (int_expr d)) -> int_names d = [] -> literals_fit d ->
  snd (evaluate_enum P look e s) = SOk ->
  exists v, int_value (fun _ => None) d = Some v /\ value_of (fst (evaluate_enum P look e s)) (REnum e k) = Some v.
Proof. exact enum_explicit. Qed.
Print Assumptions C28_explicit.

Example C28_applies :
  let x := evaluate_enum ex_program ex_scope 0 (initial ex_program) in
  snd x = SOk /\ map (fun k => value_of (fst x) (REnum 0 k)) [0; 1; 2; 3]%nat = [Some 0; Some 5; Some 6; Some 7].
Proof. vm_compute. split; reflexivity. Qed.
(** After the largest 64-bit value the numbering continues with the smallest. *)
Example C28_wraps :
  let P := mkP [] [[("a", Some (ENum 9223372036854775807)); ("b", None)]]%string [] in
  let x := evaluate_enum P ex_scope 0 (initial P) in
  snd x = SOk /\ value_of (fst x) (REnum 0 1) = Some (- 2 ^ 63).
Proof. vm_compute. split; reflexivity. Qed.

(** ** C29 *)

(** A bitmask value that is not given: 1 if it is the first, otherwise the power of
    two above the value before it; 1 again after a value that is not positive, and
    -2^63 after a value of 2^62 or more. *)
Theorem C29_implicit : forall P s look m items k name,
  reached P s -> nth_error (p_masks P) m = Some items -> nth_error items k = Some (name, None) ->
  snd (evaluate_mask P look m s) = SOk ->
  let s' := fst (evaluate_mask P look m s) in
  match k with
  | O => value_of s' (RMask m 0) = Some 1
  | S j => exists v, value_of s' (RMask m j) = Some v /\
      (- 2 ^ 63 <= v < 2 ^ 63 -> value_of s' (RMask m (S j)) = Some (if v <=? 0 then 1 else wrap (2 ^ digits v)))
  end.
Proof. exact mask_implicit. Qed.
Print Assumptions C29_implicit.

(** If the value before is the largest so far, all are at least 0 and it is below
    2^62, the new value shares no bit with any earlier one. *)
Theorem C29_disjoint : forall P s look m items j name v,
  reached P s -> nth_error (p_masks P) m = Some items -> nth_error items (S j) = Some (name, None) ->
  snd (evaluate_mask P look m s) = SOk ->
  let s' := fst (evaluate_mask P look m s) in
  value_of s' (RMask m j) = Some v -> 0 <= v < 2 ^ 62 ->
  (forall i w, (i < j)%nat -> value_of s' (RMask m i) = Some w -> 0 <= w <= v) ->
  exists new, value_of s' (RMask m (S j)) = Some new /\ v < new /\
  forall i w, (i <= j)%nat -> value_of s' (RMask m i) = Some w -> Z.land new w = 0.
Proof. exact mask_disjoint. Qed.
Print Assumptions C29_disjoint.

Theorem C29_explicit : forall P s look m items k name d, reached P s ->
  nth_error (p_masks P) m = Some items -> nth_error items k = Some (name, Some (int_expr d)) -> int_names d = [] -> literals_fit d ->
  snd (evaluate_mask P look m s) = SOk ->
  exists v, int_value (fun _ => None) d = Some v /\ value_of (fst (evaluate_mask P look m s)) (RMask m k) = Some v.
Proof. exact mask_explicit. Qed.
Print Assumptions C29_explicit.

Example C29_applies :
  let x := evaluate_mask ex_program ex_scope 0 (initial ex_program) in
  snd x = SOk /\ map (fun k => value_of (fst x) (RMask 0 k)) [0; 1; 2; 3]%nat = [Some 1; Some 2; Some 16; Some 32].
Proof. vm_compute. split; reflexivity. Qed.

(** Without the condition on the value before, bits are shared: with a = 8, b = 1
    and three more values, the last one is 8 again. *)
Example C29_shared_refuted : exists P s m i j v,
  reached P s /\ i <> j /\ snd (evaluate_mask P ex_scope m s) = SOk /\
  value_of (fst (evaluate_mask P ex_scope m s)) (RMask m i) = Some v /\
  value_of (fst (evaluate_mask P ex_scope m s)) (RMask m j) = Some v.
Proof.
  set (P := mkP [] [] [[("a", Some (ENum 8)); ("b", Some (ENum 1)); ("c", None); ("d", None); ("e", None)]]%string).
  exists P, (initial P), 0%nat, 0%nat, 4%nat, 8. split; [apply reached_initial|]. split; [discriminate|]. vm_compute. repeat split.
Qed.

(** ** C30 *)

(** The value of a constant integer expression, which may use other constants as
    long as they do not depend on themselves, is computed in 64-bit two's complement
    arithmetic.  A division by zero or a negative shift count anywhere crashes the
    generator. *)
Theorem C30_value : forall P defs look rho rank e,
  constants P defs look rho -> acyclic defs look rank -> literals_fit e ->
  (forall n, In n (int_names e) -> exists c, look n = Some (SConst c)) ->
  let x := snd (evaluate_expr P look (int_expr e) (initial P)) in
  match int_value rho e with
  | Some v => snd x = SOk /\ r_type (fst x) = TyInt /\ r_int (fst x) = v
  | None => snd x = SPanic
  end.
Proof. exact expression_value. Qed.
Print Assumptions C30_value.

(** [ex_defs]: 3, 15 and 15. *)
Definition ex_rho : string -> option Z := fun n =>
  if (n =? "A")%string then Some 3 else if (n =? "B")%string then Some 15 else if (n =? "C")%string then Some 15 else None.
Lemma ex_constants : constants ex_program ex_defs ex_scope ex_rho.
Proof.
  split.
  - reflexivity.
  - repeat constructor; cbn; lia.
  - intros d n Hd Hn. cbn in Hd. repeat (destruct Hd as [<-|Hd]; [cbn in Hn; repeat (destruct Hn as [<-|Hn]; [eexists; reflexivity|]); contradiction|]). contradiction.
  - intros n c H. unfold ex_scope in H. unfold ex_rho.
    destruct (n =? "A")%string; [injection H as <-; eexists; split; reflexivity|].
    destruct (n =? "B")%string; [injection H as <-; eexists; split; reflexivity|].
    destruct (n =? "C")%string; [injection H as <-; eexists; split; reflexivity|].
    destruct (n =? "Color")%string; [discriminate|]. destruct (n =? "Mask")%string; discriminate.
Qed.
Lemma ex_acyclic : acyclic ex_defs ex_scope (fun c => c).
Proof.
  intros c d n c' Hd Hn Hl.
  destruct c as [|[|[|c]]]; cbn in Hd; [| | |destruct c; discriminate]; injection Hd as <-; cbn in Hn;
    repeat (destruct Hn as [<-|Hn]; [cbn in Hl; injection Hl as <-; lia|]); contradiction.
Qed.
Example C30_applies :
  let e := IArith Minus (IConst "C") (ITernary (BNot (BCompare Lt (INum 1) (INum 2))) (INum 1) (IUnary true (IConst "A"))) in
  constants ex_program ex_defs ex_scope ex_rho /\ acyclic ex_defs ex_scope (fun c => c) /\ int_value ex_rho e = Some 18 /\
  r_int (fst (snd (evaluate_expr ex_program ex_scope (int_expr e) (initial ex_program)))) = 18.
Proof. split; [exact ex_constants|]. split; [exact ex_acyclic|]. vm_compute. split; reflexivity. Qed.
(** The branch that is not taken crashes the generator too. *)
Example C30_crashes :
  let e := ITernary (BBool true) (INum 1) (IArith Divide (INum 1) (INum 0)) in
  int_value ex_rho e = None /\ snd (snd (evaluate_expr ex_program ex_scope (int_expr e) (initial ex_program))) = SPanic.
Proof. vm_compute. split; reflexivity. Qed.
(** The largest uint64 value cannot be written down. *)
Example C30_uint64_refuted : exists z, 0 <= z < 2 ^ 64 /\ snd (snd (evaluate_expr ex_program ex_scope (ENum z) (initial ex_program))) = SErr.
Proof. exists (2 ^ 64 - 1). split; [lia|]. vm_compute. reflexivity. Qed.

(** ** C31 *)

(** Parentheses, a sign or a condition around a float expression keep the type and
    set the value to 0. *)
Theorem C31_lost : forall P look s a,
  let before := evaluate_expr P look a s in
  snd (snd before) = SOk -> r_type (fst (snd before)) = TyFloat ->
  forall e, In e [EParen a; EUnary true a; EUnary false a; ETernary (EBool true) a (ENum 0); ETernary (EBool false) (ENum 0) a] ->
  let after := evaluate_expr P look e s in
  snd (snd after) = SOk /\ r_type (fst (snd after)) = TyFloat /\ r_float (fst (snd after)) = f64_zero.
Proof. exact float_lost. Qed.
Print Assumptions C31_lost.

(** Binary operators on literals give the IEEE 754 result. *)
Theorem C31_arith : forall P look s op x y fx fy z, float_arith op fx fy = Some z ->
  let r := evaluate_expr P look (EArith op (EFloat x fx) (EFloat y fy)) s in
  snd (snd r) = SOk /\ r_type (fst (snd r)) = TyFloat /\ r_float (fst (snd r)) = z.
Proof. exact float_binary. Qed.
Print Assumptions C31_arith.

(** So does an integer literal with a float literal: it is converted first. *)
Theorem C31_mixed : forall P look s op single fx k z, 0 <= k < 2 ^ 63 ->
  (float_arith op (f64_of_int k) fx = Some z ->
   let r := evaluate_expr P look (EArith op (ENum k) (EFloat single fx)) s in
   snd (snd r) = SOk /\ r_type (fst (snd r)) = TyFloat /\ r_float (fst (snd r)) = z) /\
  (float_arith op fx (f64_of_int k) = Some z ->
   let r := evaluate_expr P look (EArith op (EFloat single fx) (ENum k)) s in
   snd (snd r) = SOk /\ r_type (fst (snd r)) = TyFloat /\ r_float (fst (snd r)) = z).
Proof. exact float_mixed. Qed.
Print Assumptions C31_mixed.

(** 2.0 + 1.0 and 2 + 1.0 are 3.0; (2.0) + 1.0 and -2.0 + 1.0 are 1.0; -2.0 is 0.0. *)
Example C31_applies :
  let f z := EFloat false (f64_of_int z) in
  let value e := r_float (fst (snd (evaluate_expr ex_program ex_scope e (initial ex_program)))) in
  value (EArith Plus (f 2) (f 1)) = f64_of_int 3 /\
  value (EArith Plus (ENum 2) (f 1)) = f64_of_int 3 /\
  value (EArith Plus (EParen (f 2)) (f 1)) = f64_of_int 1 /\
  value (EArith Plus (EUnary true (f 2)) (f 1)) = f64_of_int 1 /\
  value (EUnary true (f 2)) = f64_of_int 0.
Proof. vm_compute. repeat split. Qed.

(** ** C32 *)

(** Arithmetic on two integer types: the result type is signed if and only if both
    are, and its Go type holds every value of both, except for negative values if
    one of them is unsigned. *)
Theorem C32_mixed : forall x y rx ry, int_type_range x rx -> int_type_range y ry ->
  exists t g lo hi, mix_int (Some x) (Some y) = Some (Some t) /\ GoType t = Some g /\ In (g, (lo, hi)) go_range /\
  (lo < 0 <-> fst rx < 0 /\ fst ry < 0) /\
  (forall v, in_range rx v \/ in_range ry v -> 0 <= v \/ (fst rx < 0 /\ fst ry < 0) -> lo <= v < hi).
Proof. exact mixed_type. Qed.
Print Assumptions C32_mixed.

Example C32_applies :
  int_type_range (mkT "int" 13 false) (- 2 ^ 12, 2 ^ 12) /\ int_type_range (builtin_type "varuint32") (0, 2 ^ 29) /\
  mix_int (Some (mkT "int" 13 false)) (Some (builtin_type "varuint32")) = Some (Some (builtin_type "varuint32")) /\
  mix_int (Some (mkT "int" 40 false)) (Some (builtin_type "varuint32")) = Some (Some (mkT "bit" 40 false)).
Proof. split; [apply (range_int 13); lia|]. split; [apply range_named; cbn; tauto|]. split; reflexivity. Qed.
(** A negative value does not fit if the other operand is unsigned; and the type can
    depend on the order. *)
Example C32_negative_refuted : exists x y t g lo hi v, mix_int (Some x) (Some y) = Some (Some t) /\ GoType t = Some g /\
  In (g, (lo, hi)) go_range /\ int_type_range x (- 2 ^ 31, 2 ^ 31) /\ in_range (- 2 ^ 31, 2 ^ 31) v /\ ~ (lo <= v < hi).
Proof.
  exists (builtin_type "int32"), (builtin_type "uint8"), (builtin_type "uint32"), "uint32"%string, 0, (2 ^ 32), (-1).
  split; [reflexivity|]. split; [reflexivity|]. split; [cbn; tauto|]. split; [apply range_named; cbn; tauto|]. unfold in_range. cbn. lia.
Qed.
Example C32_order_refuted : exists x y, mix_int (Some x) (Some y) <> mix_int (Some y) (Some x).
Proof. exists (builtin_type "int64"), (builtin_type "varint"). vm_compute. discriminate. Qed.

(** ** C33 *)

(** Evaluation always ends: the recursion is never deeper than the number of
    constants, enum items and bitmask values, whatever they refer to. *)
Theorem C33_terminates : forall P s look, reached P s ->
  (forall c, snd (evaluate P look (RConst c) s) <> SNoFuel) /\
  (forall e, snd (evaluate_enum P look e s) <> SNoFuel) /\
  (forall m, snd (evaluate_mask P look m s) <> SNoFuel) /\
  (forall e, snd (snd (evaluate_expr P look e s)) <> SNoFuel).
Proof. exact never_no_fuel. Qed.
Print Assumptions C33_terminates.

(** Constants that depend on each other are rejected, in every order of evaluation,
    if one of them applies an operator to another. *)
Theorem C33_rejected : forall P X uses order c look,
  (forall look c, In (look, c) order -> cyclic P look X uses) -> In (look, c) order -> X c = true -> uses c = true ->
  snd (EvaluateConsts P order (initial P)) <> SOk.
Proof. exact cycle_rejected. Qed.
Print Assumptions C33_rejected.

(** They are accepted, without a type and a value, if they only refer to each other. *)
Theorem C33_accepted : forall P X order,
  (forall look c, In (look, c) order -> cyclic P look X (fun _ => false) /\ X c = true) ->
  snd (EvaluateConsts P order (initial P)) = SOk /\
  (forall look c, In (look, c) order ->
    exists r, fst (EvaluateConsts P order (initial P)) (RConst c) = Slot Complete r /\ r_type r = TyNone).
Proof. exact cycle_silent. Qed.
Print Assumptions C33_accepted.

(** A = (B), B = A, and C = -(A + 1), which uses both. *)
Definition loop_program (c : list expr) : program := mkP ([EParen (EName "B"); EName "A"] ++ c) [] [].
Example C33_applies :
  let P := loop_program [EUnary true (EParen (EArith Plus (EName "A") (ENum 1)))] in
  cyclic P ex_scope (fun c => (c <? 3)%nat) (fun c => (c =? 2)%nat) /\
  snd (EvaluateConsts P [(ex_scope, 2%nat); (ex_scope, 0%nat); (ex_scope, 1%nat)] (initial P)) = SErr /\
  cyclic (loop_program []) ex_scope (fun c => (c <? 2)%nat) (fun _ => false) /\
  snd (EvaluateConsts (loop_program []) [(ex_scope, 1%nat); (ex_scope, 0%nat)] (initial (loop_program []))) = SOk.
Proof.
  split; [|split; [vm_compute; reflexivity|split; [|vm_compute; reflexivity]]].
  - intros [|[|[|c]]] Hc; cbn in Hc; [| | |discriminate]; eexists; (split; [reflexivity|]); cbn.
    + apply refers_paren. apply refers_name with (c := 1%nat); reflexivity.
    + apply refers_name with (c := 0%nat); reflexivity.
    + apply applies_in_unary. apply applies_in_paren. apply applies_arith.
      * apply operand_refers. apply refers_name with (c := 0%nat); reflexivity.
      * apply operand_number. unfold MaxInt64. lia.
      * left. apply refers_name with (c := 0%nat); reflexivity.
  - intros [|[|c]] Hc; cbn in Hc; [| |discriminate]; eexists; (split; [reflexivity|]); cbn.
    + apply refers_paren. apply refers_name with (c := 1%nat); reflexivity.
    + apply refers_name with (c := 0%nat); reflexivity.
Qed.
(** Otherwise it can depend on the order: A = true ? 1 : B, B = A + 1. *)
Example C33_order_refuted : exists P o1 o2, map snd o1 = rev (map snd o2) /\
  snd (EvaluateConsts P o1 (initial P)) = SOk /\ snd (EvaluateConsts P o2 (initial P)) = SErr.
Proof.
  exists (mkP [ETernary (EBool true) (ENum 1) (EName "B"); EArith Plus (EName "A") (ENum 1)] [] []).
  exists [(ex_scope, 1%nat); (ex_scope, 0%nat)], [(ex_scope, 0%nat); (ex_scope, 1%nat)]. vm_compute. repeat split.
Qed.

(** ** C41 *)

(** A reference to bit:n or int:n, with n in decimal notation: the Go type for 1 to
    64 bits is the smallest that holds them; the widths 8, 16, 32 and 64 become
    uint8, ..., int64; any width above 255 becomes 255; and width 0 gives Go's uint
    or int. *)
Theorem C41_reference : forall (signed : bool) ds, ds <> [] -> Forall (fun d => (d <= 9)%nat) ds ->
  let n := number_of ds in
  let name := if signed then "int"%string else "bit"%string in
  let t := VisitTypeReference (name ++ ":" ++ text_of ds) in
  let standard := (n =? 8) || (n =? 16) || (n =? 32) || (n =? 64) in
  t_bits t = (if standard then 0 else Z.min 255 n) /\ t_dynamic t = false /\
  t_name t = (if standard then (if signed then "int" else "uint") ++ goBits n else name)%string /\
  GoType t = Some ((if signed then "int" else "uint") ++ goBits n)%string.
Proof. exact field_reference. Qed.
Print Assumptions C41_reference.

Theorem C41_smallest : forall n, 1 <= n <= 64 ->
  exists w, In w [8; 16; 32; 64] /\ n <= w /\ (forall w', In w' [8; 16; 32; 64] -> n <= w' -> w <= w') /\
  In (("uint" ++ goBits n)%string, (0, 2 ^ w)) go_range /\ In (("int" ++ goBits n)%string, (- 2 ^ (w - 1), 2 ^ (w - 1))) go_range.
Proof. exact go_bits_smallest. Qed.
Print Assumptions C41_smallest.

Example C41_applies :
  VisitTypeReference "bit:13" = mkT "bit" 13 false /\ GoType (VisitTypeReference "bit:13") = Some "uint16"%string /\
  VisitTypeReference "int:032" = mkT "int32" 0 false /\ VisitTypeReference "bit:1000" = mkT "bit" 255 false /\
  GoType (VisitTypeReference "bit:0") = Some "uint"%string /\ number_of [1; 0; 0; 0]%nat = 1000.
Proof. repeat split. Qed.

(** ** C51 *)

(** The constants of a schema have the same values in whatever order they are
    evaluated, provided that a name means the same in every package. *)
Theorem C51_order : forall P defs rho rank order,
  (forall look c, In (look, c) order -> constants P defs look rho /\ acyclic defs look rank /\ (c < length defs)%nat) ->
  let x := EvaluateConsts P order (initial P) in
  ((forall look c d, In (look, c) order -> nth_error defs c = Some d -> int_value rho d <> None) ->
   snd x = SOk /\ (forall look c d, In (look, c) order -> nth_error defs c = Some d -> value_of (fst x) (RConst c) = int_value rho d)) /\
  (forall look c d, In (look, c) order -> nth_error defs c = Some d -> int_value rho d = None -> snd x = SPanic).
Proof. exact constants_value. Qed.
Print Assumptions C51_order.

Example C51_applies :
  let order := [(ex_scope, 2%nat); (ex_scope, 0%nat); (ex_scope, 1%nat)] in
  (forall look c, In (look, c) order -> constants ex_program ex_defs look ex_rho /\ acyclic ex_defs look (fun c => c) /\ (c < length ex_defs)%nat) /\
  map (fun c => value_of (fst (EvaluateConsts ex_program order (initial ex_program))) (RConst c)) [0; 1; 2]%nat = [Some 3; Some 15; Some 15].
Proof.
  split; [|vm_compute; reflexivity]. intros look c H. cbn in H.
  repeat (destruct H as [H|H]; [injection H as <- <-; split; [exact ex_constants|split; [exact ex_acyclic|cbn; lia]]|]). contradiction.
Qed.
(** A constant is evaluated in the package of whoever asks first.  Package q has
    A = 1 and B = A + 1; package p has A = 10 and C = B.  B is 2 if q comes first and
    11 if p does. *)
Example C51_packages_refuted : exists P q p o1 o2, Forall (fun x => In x o2) o1 /\ Forall (fun x => In x o1) o2 /\
  q "A"%string = Some (SConst 0) /\ p "A"%string = Some (SConst 2) /\ q "B"%string = Some (SConst 1) /\ p "B"%string = Some (SConst 1) /\
  snd (EvaluateConsts P o1 (initial P)) = SOk /\ value_of (fst (EvaluateConsts P o1 (initial P))) (RConst 1) = Some 2 /\
  snd (EvaluateConsts P o2 (initial P)) = SOk /\ value_of (fst (EvaluateConsts P o2 (initial P))) (RConst 1) = Some 11.
Proof.
  set (q := fun n => if (n =? "A")%string then Some (SConst 0) else if (n =? "B")%string then Some (SConst 1) else None).
  set (p := fun n => if (n =? "A")%string then Some (SConst 2) else if (n =? "B")%string then Some (SConst 1) else if (n =? "C")%string then Some (SConst 3) else None).
  exists (mkP [ENum 1; EArith Plus (EName "A") (ENum 1); ENum 10; EName "B"] [] []), q, p.
  exists [(q, 0%nat); (q, 1%nat); (p, 2%nat); (p, 3%nat)], [(p, 2%nat); (p, 3%nat); (q, 0%nat); (q, 1%nat)].
  split; [repeat constructor; cbn; tauto|]. split; [repeat constructor; cbn; tauto|]. vm_compute. repeat split.
Qed.

(** ** C52 *)

(** An enum item or bitmask value without a value crashes the generator if a
    constant refers to it before its type has been numbered; constants are evaluated
    first. *)
Theorem C52_crash : forall P look t i s e m k,
  (look t = Some (SEnum e) -> find_item i (nth e (p_enums P) []) 0 = Some k -> s (REnum e k) = Absent ->
   snd (snd (evaluate_expr P look (EDot t i) s)) = SPanic) /\
  (look t = Some (SMask m) -> find_item i (nth m (p_masks P) []) 0 = Some k -> s (RMask m k) = Absent ->
   snd (snd (evaluate_expr P look (EDot t i) s)) = SPanic).
Proof. exact implicit_crash. Qed.
Print Assumptions C52_crash.

(** const X = Color.b; and const Y = Mask.w. *)
Example C52_applies :
  initial ex_program (REnum 0 2) = Absent /\
  snd (snd (evaluate_expr ex_program ex_scope (EDot "Color" "b") (initial ex_program))) = SPanic /\
  snd (snd (evaluate_expr ex_program ex_scope (EDot "Mask" "w") (initial ex_program))) = SPanic.
Proof. vm_compute. repeat split. Qed.
(** A bitmask value with an explicit value counts as 0 in a constant. *)
Example C52_zero_refuted : exists P look c, nth_error (p_consts P) 0 = Some (EDot "Mask" c) /\
  (exists m k, look "Mask"%string = Some (SMask m) /\ root_expr P (RMask m k) = Some (ENum 16)) /\
  let x := evaluate P look (RConst 0) (initial P) in
  snd x = SOk /\ r_int (slot_result (fst x (RConst 0))) = 0.
Proof.
  exists (mkP [EDot "Mask" "x"] [] (p_masks ex_program)), ex_scope, "x"%string.
  split; [reflexivity|]. split; [exists 0%nat, 2%nat; split; reflexivity|]. vm_compute. split; reflexivity.
Qed.

(** ** C53 *)

(** Arithmetic on an enum item and a number gives the operator applied to 1 and 1. *)
Theorem C53_dummy : forall P look s t i z op, z <= MaxInt64 ->
  let item := evaluate_expr P look (EDot t i) s in
  snd (snd item) = SOk -> r_type (fst (snd item)) = TyInt ->
  (r_native (fst (snd item)) = None) ->
  forall e, In e [EArith op (EDot t i) (ENum z); EArith op (ENum z) (EDot t i)] ->
  let x := snd (evaluate_expr P look e s) in
  snd x = SOk /\ int_arith op 1 1 = Some (r_int (fst x)) /\ r_full (fst x) = false.
Proof. exact item_arith. Qed.
Print Assumptions C53_dummy.

(** Color.g is 5; Color.g + 7 is 2. *)
Example C53_applies :
  let x := evaluate_expr ex_program ex_scope (EDot "Color" "g") (initial ex_program) in
  let y := evaluate_expr ex_program ex_scope (EArith Plus (EDot "Color" "g") (ENum 7)) (initial ex_program) in
  snd (snd x) = SOk /\ r_int (fst (snd x)) = 5 /\ r_native (fst (snd x)) = None /\ r_int (fst (snd y)) = 2.
Proof. vm_compute. repeat split. Qed.

(** ** C54 *)

(** Comparing two bool expressions gives false, for every operator. *)
Theorem C54_bool_compare : forall P look s a b x y op,
  bool_names a = [] -> bool_names b = [] ->
  Forall (fun z => 0 <= z < 2 ^ 63) (bool_literals a) -> Forall (fun z => 0 <= z < 2 ^ 63) (bool_literals b) ->
  bool_value (fun _ => None) a = Some x -> bool_value (fun _ => None) b = Some y ->
  reached P s ->
  let r := snd (evaluate_expr P look (ECompare op (bool_expr a) (bool_expr b)) s) in
  snd r = SOk /\ r_type (fst r) = TyBool /\ r_bool (fst r) = false.
Proof. exact bool_compare. Qed.
Print Assumptions C54_bool_compare.

Example C54_applies :
  let t := BCompare Lt (INum 1) (INum 2) in
  bool_value (fun _ => None) t = Some true /\
  r_bool (fst (snd (evaluate_expr ex_program ex_scope (ECompare Eq (bool_expr t) (bool_expr t)) (initial ex_program)))) = false /\
  r_bool (fst (snd (evaluate_expr ex_program ex_scope (ECompare Ne (bool_expr t) (EBool false)) (initial ex_program)))) = false.
Proof. vm_compute. repeat split. Qed.

(** ** C65 *)

(** Once the items have their values, [Enum.item] is the integer that is the value
    of the item, and so valueof, which wants an enum or a bitmask, fails on it. *)
Theorem C65_enum : forall P look s t i e k v,
  look t = Some (SEnum e) -> find_item i (nth e (p_enums P) []) 0 = Some k -> value_of s (REnum e k) = Some v ->
  let x := snd (evaluate_expr P look (EDot t i) s) in
  snd x = SOk /\ r_type (fst x) = TyInt /\ r_int (fst x) = v /\
  snd (snd (evaluate_expr P look (EValueof (EDot t i)) s)) = SErr.
Proof. exact dot_enum. Qed.
Print Assumptions C65_enum.

(** valueof(Mask.value) is the value. *)
Theorem C65_mask : forall P look s t i m k v,
  look t = Some (SMask m) -> find_item i (nth m (p_masks P) []) 0 = Some k -> value_of s (RMask m k) = Some v ->
  let x := snd (evaluate_expr P look (EValueof (EDot t i)) s) in
  snd x = SOk /\ r_type (fst x) = TyInt /\ r_int (fst x) = v.
Proof. exact dot_mask. Qed.
Print Assumptions C65_mask.

(** isset of two bitmask values: whether they have a bit in common. *)
Theorem C65_isset : forall P look s t1 i1 m1 k1 a t2 i2 m2 k2 b,
  look t1 = Some (SMask m1) -> find_item i1 (nth m1 (p_masks P) []) 0 = Some k1 -> value_of s (RMask m1 k1) = Some a ->
  look t2 = Some (SMask m2) -> find_item i2 (nth m2 (p_masks P) []) 0 = Some k2 -> value_of s (RMask m2 k2) = Some b ->
  let x := snd (evaluate_expr P look (EIsset (EDot t1 i1) (EDot t2 i2)) s) in
  snd x = SOk /\ r_type (fst x) = TyBool /\
  (r_bool (fst x) = true <-> exists k, 0 <= k /\ Z.testbit a k = true /\ Z.testbit b k = true).
Proof. exact isset_masks. Qed.
Print Assumptions C65_isset.

(** With all items of [ex_program] numbered: Color.b is 6, valueof(Mask.y) is 32,
    and isset of Mask.x and Mask.y is false. *)
Example C65_applies :
  let s := fst (evaluate_mask ex_program ex_scope 0 (fst (evaluate_enum ex_program ex_scope 0 (initial ex_program)))) in
  let at_ e := snd (evaluate_expr ex_program ex_scope e s) in
  ex_scope "Color"%string = Some (SEnum 0) /\ find_item "b" (nth 0 (p_enums ex_program) []) 0 = Some 2%nat /\
  value_of s (REnum 0 2) = Some 6 /\ r_int (fst (at_ (EDot "Color" "b"))) = 6 /\
  ex_scope "Mask"%string = Some (SMask 0) /\ find_item "y" (nth 0 (p_masks ex_program) []) 0 = Some 3%nat /\
  value_of s (RMask 0 3) = Some 32 /\ r_int (fst (at_ (EValueof (EDot "Mask" "y")))) = 32 /\
  r_bool (fst (at_ (EIsset (EDot "Mask" "x") (EDot "Mask" "y")))) = false /\
  r_bool (fst (at_ (EIsset (EDot "Mask" "x") (EDot "Mask" "x")))) = true.
Proof. vm_compute. repeat split. Qed.
