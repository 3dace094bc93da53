(** C50, C74-C76: whether the Go text of expressions compiles, and what it evaluates to. *)

Require Import ZArith String List Bool Lia.
From Verif Require Import Bits Stream Scalars Traits AstExpr AstTypes AstTypesSpec GoSyntax ExprPrint ExprPrintSpec ExprPrintFacts GoSyntaxFacts GoTypes GoTypesSpec GoTypesFacts.
Import ListNotations.
Open Scope Z_scope.

(** ** C74: arithmetic on integers compiles exactly if its constants fit, and has the
    Go type of its zserio type *)

Theorem C74_compiles : forall D e, arithmetic D e -> agree e ->
  exists ts, print e = Some ts /\ (exists t, go_expression ts t) /\
  forall t, go_expression ts t ->
    (check D t <> None <-> constants_fit e) /\
    (r_full (res e) = false -> constants_fit e -> exists go, go_of e = Some go /\ check D t = Some (CTyped go None)) /\
    (r_full (res e) = true -> check D t = Some (CInt (r_int (res e)))).
Proof. exact arithmetic_text. Qed.
Print Assumptions C74_compiles.

(** struct { uint8 A; int16 B; Small C; Small[] D; function uint16 F() } with
    subtype uint8 Small. *)
Definition D0 : genv := mkG
  (fun t => if ((t =? "Small") || (t =? "Color"))%string then Some (KInt (GU 8)) else None)
  (fun n => if (n =? "ColorRed")%string then Some ("Color", 3)%string else None)
  (fun p => match p with
            | GSelect (GName v) n =>
                if (n =? "A")%string then Some "uint8"%string else if (n =? "B")%string then Some "int16"%string
                else if (n =? "C")%string then Some "Small"%string else None
            | GInvoke (GSelect (GName v) n) => if (n =? "F")%string then Some "uint16"%string else None
            | _ => None
            end)
  (fun p => match p with GSelect (GName v) n => if (n =? "D")%string then Some "Small"%string else None | _ => None end).
Definition open_result (t : tref) : result := mkRes TyInt 0 f64_zero "" false (Some t) false.
Definition fA : aexpr := AIdent (IMember "A") (Some "uint8"%string) (open_result (builtin_type "uint8")).
Definition fB : aexpr := AIdent (IMember "B") (Some "int16"%string) (open_result (builtin_type "int16")).
Definition fC : aexpr := AIdent (IMember "C") (Some "Small"%string) (open_result (builtin_type "uint8")).
Definition cF : aexpr := ACall (AIdent (IMember "F") None (mkRes TyNone 0 f64_zero "" false None false)) (Some "uint16"%string) (open_result (builtin_type "uint16")).
Definition lD : aexpr := ALengthof (AIdent (IMember "D") None (mkRes TyNone 0 f64_zero "" false None false)) (open_result (builtin_type "int64")).
Definition num (z : Z) : aexpr := AConst (mkRes TyInt z f64_zero "" false None true).
Definition at_index : aexpr := AIndexVar (mkRes TyInt 0 f64_zero "" false None false).
Definition arith (op : aop) (a b : aexpr) : aexpr := AArith op a b (fst (eval_arith op false (res a) (res b))).
Definition paren (a : aexpr) : aexpr := AParen a (fst (eval_paren false (res a))).

Example C74_applies :
  arithmetic D0 (arith Plus (paren (arith Plus (arith Plus (arith Plus fA fB) fC) at_index)) (arith Modulo lD (num 100))) /\
  agree (arith Plus (paren (arith Plus (arith Plus (arith Plus fA fB) fC) at_index)) (arith Modulo lD (num 100))) /\
  constants_fit (arith Plus fA (num 255)) /\ ~ constants_fit (arith Plus fA (num 256)) /\ ~ constants_fit (arith Divide fB (num 0)).
Proof.
  assert (IN : forall n r, In (n, r) named_range -> integer (builtin_type n)) by (intros n r H; exists r; exact (range_named n r H)).
  assert (OI : forall n, (exists r, In (n, r) named_range) -> open_int (open_result (builtin_type n))).
  { intros n (r & H). split; [reflexivity|]. split; [reflexivity|]. exact (IN n r H). }
  assert (U8 : exists r, In ("uint8"%string, r) named_range) by (eexists; cbn; tauto).
  assert (I16 : exists r, In ("int16"%string, r) named_range) by (eexists; cbn; tauto).
  assert (I64 : exists r, In ("int64"%string, r) named_range) by (eexists; cbn; tauto).
  assert (A : arithmetic D0 fA) by (refine (AE_field D0 "A" _ _ _ (GU 8) (OI _ U8) _ _ _); reflexivity).
  assert (B : arithmetic D0 fB) by (refine (AE_field D0 "B" _ _ _ (GS 16) (OI _ I16) _ _ _); reflexivity).
  assert (C : arithmetic D0 fC) by (refine (AE_field D0 "C" _ _ _ (GU 8) (OI _ U8) _ _ _); reflexivity).
  assert (L : arithmetic D0 lD) by (refine (AE_lengthof D0 "D" _ _ _ "Small" _ _ (OI _ I64) _); reflexivity).
  assert (X : arithmetic D0 at_index) by (apply AE_index; [split; [reflexivity|split; [reflexivity|exact I]]|reflexivity]).
  assert (N : arithmetic D0 (num 100)) by (apply AE_const; [split; [reflexivity|split; [reflexivity|split; [cbn; lia|exact I]]]|exact I]).
  split; [|split; [vm_compute; repeat split; auto; lia|]].
  - repeat first [assumption|apply AE_arith; [| |reflexivity|reflexivity]|apply AE_paren; [|reflexivity|exact I|reflexivity]].
  - split; [|split].
    + cbn. split; [exact I|]. split; [exact I|]. intros g lo hi G H. injection G as <-. split; [discriminate|]. intros _.
      repeat (destruct H as [H|H]; [first [discriminate H|injection H as <- <-; split; [lia|discriminate]]|]). contradiction.
    + cbn. intros (_ & _ & H). destruct (H "uint8"%string 0 (2 ^ 8) eq_refl ltac:(tauto)) as (_ & Q). destruct (Q eq_refl) as (R & _). lia.
    + cbn. intros (_ & _ & H). destruct (H "int16"%string (- 2 ^ 15) (2 ^ 15) eq_refl ltac:(tauto)) as (_ & Q). destruct (Q eq_refl) as (_ & R). now apply R.
Qed.

(** In parentheses, a field of a subtype loses its Go type: with subtype uint8 Small,
    (C) + A becomes (v.C) + v.A, of the types Small and uint8. *)
Theorem C74_refuted : exists D e ts t, printable e /\ agree e /\ constants_fit e /\ e = arith Plus (paren fC) fA /\
  arithmetic D fC /\ arithmetic D fA /\ print e = Some ts /\ go_expression ts t /\ check D t = None.
Proof.
  exists D0, (arith Plus (paren fC) fA), (flatten (raw (arith Plus (paren fC) fA))), (raw (arith Plus (paren fC) fA)).
  assert (P : printable (arith Plus (paren fC) fA)) by (vm_compute; repeat split; discriminate).
  assert (A : agree (arith Plus (paren fC) fA)) by (vm_compute; repeat split; auto; lia).
  assert (O : open_int (open_result (builtin_type "uint8"))) by (split; [reflexivity|split; [reflexivity|eexists; apply range_named; cbn; tauto]]).
  split; [exact P|]. split; [exact A|]. split; [cbn; repeat split; discriminate|]. split; [reflexivity|].
  split; [refine (AE_field D0 "C" _ _ _ (GU 8) O _ _ _); reflexivity|]. split; [refine (AE_field D0 "A" _ _ _ (GU 8) O _ _ _); reflexivity|].
  split; [exact (print_flatten _ P)|]. split; [|vm_compute; reflexivity].
  destruct (proj1 (print_read _ P) A) as (ts & t & E & G & _). pose proof (read_raw _ ts t P A E G) as Q. rewrite (print_flatten _ P) in E. injection E as <-. subst t. exact G.
Qed.
Print Assumptions C74_refuted.

(** ** C75: the operands of comparisons and of &, | and ^ are not converted: they
    compile exactly if both operands have one Go type.  The left operand of a shift is
    converted only if it is constant *)

Theorem C75_unconverted : forall D a b e ts t, unconverted a b e -> arithmetic D a -> arithmetic D b ->
  r_full (res a) && r_full (res b) = false -> constants_fit a -> constants_fit b ->
  agree e -> print e = Some ts -> go_expression ts t ->
  (r_full (res a) = false -> r_full (res b) = false -> (check D t <> None <-> go_of a = go_of b)) /\
  (r_full (res a) = true -> forall go g, go_of b = Some go -> int_kind D go = Some g -> (check D t <> None <-> representable g (r_int (res a)) = true)) /\
  (r_full (res b) = true -> forall go g, go_of a = Some go -> int_kind D go = Some g -> (check D t <> None <-> representable g (r_int (res b)) = true)).
Proof. exact unconverted_text. Qed.
Print Assumptions C75_unconverted.

Theorem C75_shift : forall D op a b r ts t, AstExpr.is_shift op = true -> eval_bitwise op false (res a) (res b) = (r, SOk) ->
  arithmetic D a -> arithmetic D b -> r_full (res a) && r_full (res b) = false -> constants_fit a -> constants_fit b ->
  agree (ABitwise op a b r) -> print (ABitwise op a b r) = Some ts -> go_expression ts t ->
  (r_full (res a) = false ->
     (check D t <> None <-> (r_full (res b) = true -> 0 <= r_int (res b))) /\
     (check D t <> None -> check D t = option_map (fun go => CTyped go None) (go_of a))) /\
  (r_full (res a) = true ->
     exists go lo hi, match r_native (res a) with Some n => GoType n = Some go | None => go = "uint32"%string end /\ In (go, (lo, hi)) go_range /\
     (check D t <> None <-> lo <= r_int (res a) < hi) /\ (check D t <> None -> check D t = Some (CTyped go None))).
Proof. exact shift_text. Qed.
Print Assumptions C75_shift.

Definition compare (op : cop) (a b : aexpr) : aexpr := ACompare op a b (fst (eval_compare op false (res a) (res b))).
Definition bitwise (op : bop) (a b : aexpr) : aexpr := ABitwise op a b (fst (eval_bitwise op false (res a) (res b))).

(** A < A compiles; A < B, with the types uint8 and int16, does not, although the
    comparison has a meaning; A < 255 does and A < 256 does not. *)
Theorem C75_refuted : exists D a b ts t, unconverted a b (compare Lt a b) /\ arithmetic D a /\ arithmetic D b /\
  r_full (res a) = false /\ r_full (res b) = false /\ agree (compare Lt a b) /\
  print (compare Lt a b) = Some ts /\ go_expression ts t /\ check D t = None /\ forall S x y, s_paths S (GSelect (GName "v") "A") = Some (GI x) ->
  s_paths S (GSelect (GName "v") "B") = Some (GI y) -> ideal D S (source (compare Lt a b)) = Some (GB (x <? y)).
Proof.
  exists D0, fA, fB, (flatten (raw (compare Lt fA fB))), (raw (compare Lt fA fB)).
  assert (P : printable (compare Lt fA fB)) by (vm_compute; repeat split; discriminate).
  assert (A : agree (compare Lt fA fB)) by (vm_compute; repeat split; auto; lia).
  assert (O : forall n, (exists r, In (n, r) named_range) -> open_int (open_result (builtin_type n))).
  { intros n (r & H). split; [reflexivity|]. split; [reflexivity|]. exists r. exact (range_named n r H). }
  split; [apply U_compare; reflexivity|]. split; [refine (AE_field D0 "A" _ _ _ (GU 8) (O _ _) _ _ _); try reflexivity; eexists; cbn; tauto|].
  split; [refine (AE_field D0 "B" _ _ _ (GS 16) (O _ _) _ _ _); try reflexivity; eexists; cbn; tauto|].
  split; [reflexivity|]. split; [reflexivity|]. split; [exact A|]. split; [exact (print_flatten _ P)|].
  split; [|split; [vm_compute; reflexivity|]].
  - destruct (proj1 (print_read _ P) A) as (ts & t & E & G & _). pose proof (read_raw _ ts t P A E G) as Q. rewrite (print_flatten _ P) in E. injection E as <-. subst t. exact G.
  - intros S x y X Y. cbn. rewrite X, Y. reflexivity.
Qed.
Print Assumptions C75_refuted.

Example C75_applies :
  let OK e := check D0 (raw e) <> None in
  unconverted fA fA (compare Lt fA fA) /\ agree (compare Lt fA fA) /\ OK (compare Lt fA fA) /\ OK (compare Ge fA (num 255)) /\ ~ OK (compare Ge fA (num 256)) /\
  ~ OK (compare Eq fA fC) /\ ~ OK (bitwise And fA fB) /\ OK (bitwise And fA (num 7)) /\
  OK (bitwise LShift fA fB) /\ OK (bitwise LShift (num 1) fA) /\ ~ OK (bitwise LShift (num (-1)) fA) /\ ~ OK (bitwise LShift (num (2 ^ 32)) fA).
Proof. split; [apply U_compare; reflexivity|]. vm_compute. repeat split; auto; try discriminate; try lia; intros H; apply H; reflexivity. Qed.

(** ** C76: without overflow, the Go text of an expression has the value of the
    expression in the schema; sums, differences and products of one Go type wrap around *)

Theorem C76_value : forall D S e ts t, printable e -> agree e -> print e = Some ts -> go_expression ts t ->
  state_ok D S -> check D t <> None -> no_overflow D S t -> geval D S t = ideal D S (source e).
Proof. exact text_value. Qed.
Print Assumptions C76_value.

Theorem C76_wraps : forall D S go g t k, state_ok D S -> int_kind D go = Some g -> modular D S go t -> check D t = Some (CTyped go k) ->
  geval D S t = match ideal D S (strip t) with Some (GI z) => Some (GI (gconv g z)) | _ => None end.
Proof. exact modular_value. Qed.
Print Assumptions C76_wraps.

Definition S0 (x y : Z) : gstate := mkGS
  (fun p => match p with
            | GSelect (GName v) n =>
                if (n =? "A")%string then Some (GI x) else if (n =? "B")%string then Some (GI y) else if (n =? "C")%string then Some (GI 7) else None
            | GInvoke _ => Some (GI 1000)
            | _ => None
            end)
  (fun _ i => if (0 <=? i) && (i <? 2) then Some (GI 9) else None) (fun _ => 2) 1.
Lemma S0_ok : forall x y, 0 <= x < 256 -> - 2 ^ 15 <= y < 2 ^ 15 -> state_ok D0 (S0 x y).
Proof.
  intros x y X Y. unfold state_ok. split; [|split; [|split; [|split; [|split]]]].
  - intros p t v H V _. destruct p as [ | | | |f| |f n| | | ]; try discriminate; cbn in *.
    + destruct f as [ | | | | | |f m| | | ]; try discriminate. destruct f; try discriminate. destruct (m =? "F")%string; [|discriminate]. injection H as <-. injection V as <-. cbn. unfold in_u. lia.
    + destruct f; try discriminate. destruct (n =? "A")%string; [injection H as <-; injection V as <-; cbn; unfold in_u; lia|].
      destruct (n =? "B")%string; [injection H as <-; injection V as <-; cbn; unfold in_s; cbn; lia|].
      destruct (n =? "C")%string; [injection H as <-; injection V as <-; cbn; unfold in_u; lia|discriminate].
  - intros p t i v H V _. cbn in *. destruct ((0 <=? i) && (i <? 2)); [|discriminate]. injection V as <-. destruct p as [ | | | | | |f n| | | ]; try discriminate. destruct f; try discriminate.
    destruct (n =? "D")%string; [|discriminate]. injection H as <-. cbn. unfold in_u. lia.
  - intros p. cbn. lia.
  - cbn. lia.
  - intros t w H. cbn in H. destruct ((t =? "Small") || (t =? "Color"))%string; destruct H as [H|H]; try discriminate; injection H as <-; lia.
  - intros n t z H. cbn in H. destruct (n =? "ColorRed")%string; [|discriminate]. injection H as <- <-. exists (GU 8). split; [reflexivity|]. cbn. unfold in_u. lia.
Qed.

Example C76_applies : forall x y, 0 <= x < 100 -> 0 <= y < 1000 ->
  let e := arith Minus (arith Plus fA fB) (num 5) in
  state_ok D0 (S0 x y) /\ printable e /\ agree e /\ check D0 (raw e) <> None /\
  (5 <= x + y -> no_overflow D0 (S0 x y) (raw e)) /\ ideal D0 (S0 x y) (source e) = Some (GI (x + y - 5)).
Proof.
  intros x y X Y e. subst e. split; [apply S0_ok; cbn; lia|]. split; [vm_compute; repeat split; try discriminate; auto|]. split; [vm_compute; repeat split; auto; lia|].
  split; [vm_compute; discriminate|]. split; [|reflexivity]. intros P.
  assert (UX : to_u 16 x = x) by (unfold to_u; apply Z.mod_small; lia). assert (UY : to_u 16 y = y) by (unfold to_u; apply Z.mod_small; lia).
  assert (UZ : to_u 16 (x + y) = x + y) by (unfold to_u; apply Z.mod_small; lia).
  cbn. unfold in_u. rewrite UX, UY, UZ. split; [split; [|split]|split]; try (right; split; [exact I|]; right); intros; repeat match goal with H : Some _ = Some _ |- _ => injection H as H end; lia.
Qed.

(** uint8 A = 200 and C = 7: A + A is 144 in uint8; A * C + A is wrapped around once at
    the end. *)
Example C76_wraps_applies :
  let t := GBin Add (GBin Mul (GSelect (GName "v") "A") (GLit (LInt 7))) (GSelect (GName "v") "A") in
  modular D0 (S0 200 0) "uint8" t /\ check D0 t = Some (CTyped "uint8" None) /\ ideal D0 (S0 200 0) (strip t) = Some (GI 1600) /\
  geval D0 (S0 200 0) t = Some (GI 64).
Proof.
  intros t. split; [|vm_compute; auto].
  assert (A : modular D0 (S0 200 0) "uint8" (GSelect (GName "v") "A")) by (apply Mo_exact with None; [reflexivity|exact I]).
  apply Mo_op; [cbn; tauto| |exact A]. apply Mo_op; [cbn; tauto|exact A|]. apply Mo_constant with 7; [reflexivity|exact I].
Qed.

(** With overflow the value differs: A + A for uint8 A = 200 is 400 in the schema. *)
Theorem C76_refuted : exists D S e ts t, printable e /\ agree e /\ print e = Some ts /\ go_expression ts t /\ state_ok D S /\ check D t <> None /\
  ideal D S (source e) = Some (GI 400) /\ geval D S t = Some (GI 144).
Proof.
  exists D0, (S0 200 0), (arith Plus fA fA), (flatten (raw (arith Plus fA fA))), (raw (arith Plus fA fA)).
  assert (P : printable (arith Plus fA fA)) by (vm_compute; repeat split; discriminate).
  assert (A : agree (arith Plus fA fA)) by (vm_compute; repeat split; auto; lia).
  split; [exact P|]. split; [exact A|]. split; [exact (print_flatten _ P)|].
  split; [|split; [apply S0_ok; cbn; lia|split; [vm_compute; discriminate|vm_compute; auto]]].
  destruct (proj1 (print_read _ P) A) as (ts & t & E & G & _). pose proof (read_raw _ ts t P A E G) as Q. rewrite (print_flatten _ P) in E. injection E as <-. subst t. exact G.
Qed.
Print Assumptions C76_refuted.

(** ** C50: numbits at run time is right; of a constant it is one too large for powers
    of two from 2 *)

Theorem C50_every_value : forall v, 0 <= v < 2 ^ 64 -> Scalars.NumBits v = numbits v.
Proof. exact numbits_run. Qed.
Print Assumptions C50_every_value.

Theorem C50_constant : forall a r, r_type a = TyInt -> 0 <= r_int a < 2 ^ 63 -> eval_numbits true a = (r, SOk) ->
  ((exists k, 1 <= k /\ r_int a = 2 ^ k) -> r_int r = numbits (r_int a) + 1) /\
  ((~ exists k, 1 <= k /\ r_int a = 2 ^ k) -> r_int r = numbits (r_int a)).
Proof. exact numbits_constant. Qed.
Print Assumptions C50_constant.

Theorem C50_refuted : exists a r, r_type a = TyInt /\ 0 <= r_int a /\ eval_numbits true a = (r, SOk) /\ r_int r <> Scalars.NumBits (r_int a).
Proof. exists (res (num 4)), (fst (eval_numbits true (res (num 4)))). repeat split; [cbn; lia|vm_compute; discriminate]. Qed.
Print Assumptions C50_refuted.

Example C50_constant_applies : map numbits [0; 1; 2; 3; 4; 5; 8; 9] = [0; 1; 1; 2; 2; 3; 3; 4] /\ map Scalars.NumBits [0; 1; 2; 3; 4; 5; 8; 9] = [0; 1; 1; 2; 2; 3; 3; 4] /\
  map (fun v => r_int (fst (eval_numbits true (res (num v))))) [0; 1; 2; 3; 4; 5; 8; 9] = [0; 1; 2; 2; 3; 3; 4; 4].
Proof. vm_compute. auto. Qed.
