(** C108: functions of a schema file in the code that is generated for it. *)

Require Import ZArith String Ascii List Bool Lia.
From Verif Require Import Bits Traits Schema.
From Verif Require GoTypes GoTypesSpec GoTypesFacts Literals LiteralsSpec AstTypes.
From Verif Require Import Packages Visitor Parser FileParser Compile CompileSpec CompileThms ExprCode ExprCodeSpec ExprCodeFacts ExprCodeThms PropExprCode.
Import ListNotations.
Open Scope string_scope.
Open Scope list_scope.

Lemma exported_title : forall n N, exported n N -> N = Members.title n.
Proof.
  intros n N H. destruct H as [c d r H|c r H].
  - cbn in H. repeat (destruct H as [H|H]; [injection H as <- <-; reflexivity|]). contradiction.
  - cbn [Members.title]. f_equal. unfold Members.upper. destruct ((97 <=? nat_of_ascii c) && (nat_of_ascii c <=? 122))%nat eqn:B; [|reflexivity].
    exfalso. apply H. apply andb_prop in B. destruct B as (B1 & B2). apply Nat.leb_le in B1, B2. rewrite <- (ascii_nat_embedding c).
    assert (I : In (nat_of_ascii c) (seq 97 26)) by (apply in_seq; lia). remember (nat_of_ascii c) as k. clear - I. cbn [seq In] in I.
    repeat (destruct I as [<-|I]; [vm_compute; tauto|]). contradiction.
Qed.
Lemma method_found : forall fns fn, NoDup (map Members.title (map fn_name (map visit_function fns))) -> In fn fns ->
  find (fun f => (Members.title (fn_name f) =? Members.title (cfn_name fn))%string) (map visit_function fns) = Some (visit_function fn).
Proof.
  intros fns fn D I. apply find_only; [now apply in_map|apply String.eqb_refl|]. intros y Iy E. apply String.eqb_eq in E.
  apply In_nth_error in Iy. destruct Iy as (i & Ii). apply (in_map visit_function), In_nth_error in I. destruct I as (j & Ij).
  rewrite map_map in D. pose proof (NoDup_at _ _ i j _ _ D Ii Ij E) as ->. congruence.
Qed.
Lemma function_method : forall f p scope fn N, coded f p -> function_in (cfl_directives f) scope fn -> exported (cfn_name fn) N ->
  method_of p scope N = Some (visit_function fn) /\ function_ok p scope (visit_function fn) = true.
Proof.
  intros f p scope fn N C H X. apply exported_title in X. subst N. destruct H as [(s & I & <- & F)|(s & I & <- & F)].
  - destruct (coded_struct f p s C I) as (sd & Vs & T1 & T2 & Ok). unfold visit_struct in Vs. destruct (visit_all visit_field (cs_fields s)); [|discriminate]. injection Vs as <-.
    unfold struct_ok in Ok. cbn [s_functions s_name s_params s_fields] in Ok. rewrite !andb_true_iff in Ok. destruct Ok as ((((Fn & _) & _) & D) & _). apply distinct_ok in D. rewrite map_app in D. apply NoDup_right in D.
    unfold method_of. rewrite T1, T2. cbn [s_functions]. split; [now apply method_found|]. rewrite forallb_forall in Fn. specialize (Fn _ (in_map _ _ _ F)). now apply andb_prop in Fn.
  - destruct (coded_union f p s C I) as (sd & Vs & T1 & T2 & T3 & Ok). unfold visit_union in Vs. destruct (visit_all visit_choice_field (cu_fields s)); [|discriminate]. injection Vs as <-.
    unfold union_ok in Ok. cbn [u_functions u_name u_params u_fields] in Ok. rewrite !andb_true_iff in Ok. destruct Ok as (((Fn & _) & D) & _). apply distinct_ok in D. rewrite map_app in D. apply NoDup_right in D.
    unfold method_of. rewrite T1, T2, T3. cbn [u_functions]. split; [now apply method_found|]. rewrite forallb_forall in Fn. specialize (Fn _ (in_map _ _ _ F)). now apply andb_prop in Fn.
Qed.
Lemma function_runs : forall p scope fn, function_ok p scope fn = true -> runs p scope false (fn_result fn).
Proof.
  intros p scope fn H. unfold function_ok in H. destruct (go_tree p scope false (fn_result fn)) as [t|] eqn:T; [|discriminate]. exists t. split; [exact T|].
  destruct (go_type_of p (fn_type fn)); [|discriminate]. destruct (GoTypes.check (genv_of p scope) t); [discriminate|discriminate H].
Qed.
Lemma conv_bits : forall g z, GoTypesFacts.sized g -> low_bits g z (gconv g z).
Proof.
  intros g z H. split; [now apply GoTypesFacts.gconv_range|]. pose proof (proj1 (GoTypesFacts.gconv_mod g (gconv g z) z H) (GoTypesFacts.gconv_value g _ (GoTypesFacts.gconv_range g z H))) as M.
  assert (M' : (gconv g z mod 2 ^ gwidth g = z mod 2 ^ gwidth g)%Z) by (unfold gwidth; destruct g; exact M). clear M. set (y := gconv g z) in *. clearbody y. set (w := (2 ^ gwidth g)%Z) in *.
  assert (P : (0 < w)%Z) by (apply Z.pow_pos_nonneg; [lia|]; destruct g; cbn in *; unfold GoTypesFacts.sized in H; lia). clearbody w.
  exists (y / w - z / w)%Z. pose proof (Z.div_mod y w ltac:(lia)). pose proof (Z.div_mod z w ltac:(lia)). nia.
Qed.
Lemma named_sized : forall go g, GoTypes.find_name go GoTypes.predeclared = Some (GoTypes.KInt g) -> GoTypesFacts.sized g.
Proof.
  intros go g H. unfold GoTypes.predeclared in H. cbn [GoTypes.find_name] in H.
  repeat (match type of H with (if ?b then _ else _) = _ => destruct b end; [first [discriminate H | injection H as <-; cbn; lia]|]). discriminate H.
Qed.

Lemma builtin_sized : forall n bits g, builtin_kind n bits = Some (GoTypes.KInt g) -> GoTypesFacts.sized g.
Proof. intros n bits g H. unfold builtin_kind in H. destruct (AstTypes.GoType _); [|discriminate]. exact (named_sized _ g H). Qed.
Lemma enum_sized : forall p e g, enum_kind p e = Some (GoTypes.KInt g) -> GoTypesFacts.sized g.
Proof. intros p e g H. unfold enum_kind in H. destruct (GetOriginalType _ _ _ _) as [([] & ?)|]; try discriminate H. destruct builtin; [|discriminate H]. exact (builtin_sized _ _ g H). Qed.
Lemma kind_sized : forall p go g, named_kind p go = Some (GoTypes.KInt g) -> GoTypesFacts.sized g.
Proof.
  intros p go g H. unfold named_kind in H. destruct (find _ (vp_subtypes p)) as [s|].
  - destruct (GetOriginalType _ _ _ _) as [([] & ?)|]; try discriminate H. destruct builtin; [exact (builtin_sized _ _ g H)|]. destruct (get name (vp_enums p)); [|discriminate H]. exact (enum_sized _ _ g H).
  - destruct (find _ (vp_enums p)); [|discriminate H]. exact (enum_sized _ _ g H).
Qed.
Lemma representable_value : forall g z, GoTypesFacts.sized g -> GoTypes.representable g z = true -> gvalue g z.
Proof. intros g z S H. rewrite <- (GoTypesFacts.representable_eq g z H). now apply GoTypesFacts.gconv_range. Qed.
Lemma any_kind_sized : forall p c t g, GoTypes.kind_of (genv_of p c) t = Some (GoTypes.KInt g) -> GoTypesFacts.sized g.
Proof. intros p c t g H. unfold GoTypes.kind_of in H. destruct (GoTypes.find_name t GoTypes.predeclared) eqn:F; [injection H as ->; exact (named_sized _ g F)|exact (kind_sized p t g H)]. Qed.
Lemma go_value_kind : forall p c t x v, go_value (GoTypes.kind_of (genv_of p c) t) x = Some v -> GoTypesSpec.of_kind (GoTypes.kind_of (genv_of p c) t) v.
Proof.
  intros p c t x v H. destruct (GoTypes.kind_of (genv_of p c) t) as [[g|]|] eqn:K; cbn [go_value] in H; [| |discriminate].
  - pose proof (any_kind_sized p c t g K) as Sz. destruct x as [[[]|]|]; try discriminate H.
    + destruct (GoTypes.representable g z) eqn:R; [|discriminate H]. injection H as <-. exact (representable_value g z Sz R).
    + injection H as <-. cbn. destruct g; cbn in *; unfold in_u, in_s; [|pose proof (Z.pow_nonneg 2 (w - 1))]; pose proof (Z.pow_pos_nonneg 2 w); pose proof (Z.pow_pos_nonneg 2 (w - 1)); lia.
  - destruct x as [[[]|]|]; try discriminate H; injection H as <-; exact I.
Qed.
Lemma state_fits : forall f p scope E, coded f p -> ordinary E -> GoTypesSpec.state_ok (genv_of p scope) (gstate_of p scope E 0).
Proof.
  intros f p scope E C (Op & Os). pose proof C as (_ & _ & _ & Ok). split; [|split; [|split; [|split; [|split]]]].
  - intros x t v G V _. cbn [GoTypes.g_paths GoTypes.s_paths genv_of gstate_of] in G, V. unfold at_v in G, V. destruct x; try discriminate V. destruct x; try discriminate V. destruct (n0 =? "v")%string; [|discriminate V].
    destruct (go_slot p scope n) as [sl|]; [|discriminate V]. destruct (sl_array sl); [discriminate G|]. rewrite G in V. exact (go_value_kind p scope t _ v V).
  - intros x t i v _ V. discriminate V.
  - intros x. cbn [GoTypes.s_length gstate_of]. destruct (at_v _ x) as [sl|]; [|lia]. unfold array_size, slot_value. destruct (sl_place sl) as [i|i].
    + destruct (nth_error (e_params E) i) as [[| | | | |l]|] eqn:Ei; cbn; try lia. apply nth_error_In in Ei. specialize (Op l Ei). lia.
    + destruct (nth_error (e_slots E) i) as [[[| | | | |l]|]|] eqn:Ei; try lia. apply nth_error_In in Ei. specialize (Os l Ei). lia.
  - cbn. lia.
  - intros t w [H|H]; cbn [GoTypes.g_types genv_of] in H; exact (kind_sized p t _ H).
  - intros n t z H. cbn [GoTypes.g_consts genv_of] in H. unfold code_ok in Ok. repeat (apply andb_prop in Ok; destruct Ok as (Ok & ?)).
    match goal with Q : forallb (item_fits p) _ = true |- _ => rewrite forallb_forall in Q; specialize (Q _ (ExprCodeFacts.get_in _ _ _ H)); unfold item_fits in Q; cbn [fst snd] in Q; rename Q into F end.
    destruct (named_kind p t) as [[g|]|] eqn:K; try discriminate F. unfold GoTypes.int_kind, GoTypes.kind_of. cbn [GoTypes.g_types genv_of]. rewrite K.
    assert (X : exists e, t = Members.title e).
    { apply ExprCodeFacts.get_in in H. unfold item_consts in H. apply in_flat_map in H. destruct H as (e & _ & H). destruct (item_values None (e_items (snd e))); [|destruct H]. apply in_map_iff in H. destruct H as (y & Q & _). injection Q as _ <- _. eauto. }
    destruct X as (e & ->). rewrite title_defined. exists g. split; [reflexivity|]. exact (representable_value g z (kind_sized p _ g K) F).
Qed.

(** ** Methods *)

(** The method for a function returns its value, or the low bits of it that the return
    type holds. *)
Theorem C108_int : forall s f p scope fn N E g z, compiled_text s f p -> function_in (cfl_directives f) scope fn -> exported (cfn_name fn) N ->
  has_int (cfl_directives f) (cfn_type fn) g -> is_int (cfl_directives f) scope E None (cfn_body fn) z ->
  exists y, method_call p scope N E = Some (VInt y) /\ low_bits g z y.
Proof.
  intros s f p scope fn N E g z H Fn X (k & t' & Lk & St & It) V. apply compiled_coded in H. destruct (function_method f p scope fn N H Fn X) as (M & Ok).
  destruct (function_runs _ _ _ Ok) as (t & T & Ck). exists (gconv g z). unfold method_call. rewrite M. unfold call_method, go_run. rewrite T.
  rewrite (run_int f p scope E None 0 (cfn_body fn) z t false H ltac:(discriminate) V T Ck). cbn [visit_function fn_type].
  destruct (int_builtin t' g It) as (n & bits & go' & Vt & G & F & _). destruct (coded_kind f p scope k (cfn_type fn) t' n bits go' (GoTypes.KInt g) H Lk St Vt G F) as (go & -> & Kd).
  unfold GoTypes.eval_convert. rewrite Kd. split; [reflexivity|]. exact (conv_bits g z (named_sized go' g F)).
Qed.
Print Assumptions C108_int.
Theorem C108_value : forall s f p scope fn N E g z, compiled_text s f p -> function_in (cfl_directives f) scope fn -> exported (cfn_name fn) N ->
  has_int (cfl_directives f) (cfn_type fn) g -> is_int (cfl_directives f) scope E None (cfn_body fn) z -> gvalue g z ->
  method_call p scope N E = Some (VInt z).
Proof.
  intros s f p scope fn N E g z H Fn X It V Gv. destruct (C108_int s f p scope fn N E g z H Fn X It V) as (y & -> & Gy & k & Ey). do 2 f_equal.
  assert (R : forall a b, gvalue g a -> gvalue g b -> (Z.abs (a - b) < 2 ^ gwidth g)%Z).
  { intros a b. destruct g; cbn [gvalue gwidth]; unfold in_u, in_s; [lia|]. destruct (Z.le_gt_cases 1 w) as [W|W].
    - replace (2 ^ w)%Z with (2 * 2 ^ (w - 1))%Z by (rewrite <- Z.pow_succ_r by lia; f_equal; lia). lia.
    - intros (A1 & A2). rewrite (Z.pow_neg_r 2 (w - 1)) in A1, A2 by lia. lia. }
  specialize (R y z Gy Gv). rewrite Ey in R |- *. replace (z + k * 2 ^ gwidth g - z)%Z with (k * 2 ^ gwidth g)%Z in R by lia. rewrite Z.abs_mul in R.
  destruct (Z.eq_dec k 0) as [->|]; [lia|]. pose proof (Z.pow_nonneg 2 (gwidth g) ltac:(lia)). nia.
Qed.
Print Assumptions C108_value.
Theorem C108_bool : forall s f p scope fn N E b, compiled_text s f p -> function_in (cfl_directives f) scope fn -> exported (cfn_name fn) N ->
  has_bool (cfl_directives f) (cfn_type fn) -> is_bool (cfl_directives f) scope E None (cfn_body fn) b ->
  method_call p scope N E = Some (VBool b).
Proof.
  intros s f p scope fn N E b H Fn X (k & Lk & St) V. apply compiled_coded in H. destruct (function_method f p scope fn N H Fn X) as (M & Ok).
  destruct (function_runs _ _ _ Ok) as (t & T & Ck). unfold method_call. rewrite M. unfold call_method, go_run. rewrite T.
  rewrite (run_bool f p scope E None 0 (cfn_body fn) b t false H ltac:(discriminate) V T Ck). cbn [visit_function fn_type].
  destruct (coded_kind f p scope k (cfn_type fn) (CKeyword "bool") "bool" 0 "bool" GoTypes.KBool H Lk St eq_refl eq_refl eq_refl) as (go & -> & Kd).
  unfold GoTypes.eval_convert. now rewrite Kd.
Qed.
Print Assumptions C108_bool.

(** A function that returns an integer has no condition for a result, and the other way
    round: there is no code that compiles. *)
Theorem C108_types : forall s f p scope fn N E, compiled_text s f p -> function_in (cfl_directives f) scope fn -> exported (cfn_name fn) N -> ordinary E ->
  (forall g b, has_int (cfl_directives f) (cfn_type fn) g -> ~ is_bool (cfl_directives f) scope E None (cfn_body fn) b) /\
  (forall z, has_bool (cfl_directives f) (cfn_type fn) -> ~ is_int (cfl_directives f) scope E None (cfn_body fn) z).
Proof.
  intros s f p scope fn N E H Fn X O. apply compiled_coded in H. destruct (function_method f p scope fn N H Fn X) as (_ & Ok). pose proof (state_fits f p scope E H O) as St0.
  unfold function_ok in Ok. cbn [visit_function fn_result fn_type] in Ok. destruct (go_tree p scope false (visit_expr (cfn_body fn))) as [t|] eqn:T; [|discriminate].
  destruct (go_type_of p (visit_type (cfn_type fn))) as [go0|] eqn:G0; [|discriminate]. destruct (GoTypes.check (genv_of p scope) t) as [c|] eqn:Ck; [|discriminate].
  assert (Cn : GoTypes.check (genv_of p scope) t <> None) by congruence. destruct (variable_of c) as [c'|] eqn:Vc; [|discriminate].
  destruct (GoTypes.convert (genv_of p scope) go0 c') eqn:Cv; [|discriminate]. clear Ok. split.
  - intros g b (k & t' & Lk & St & It) V. pose proof (run_bool f p scope E None 0 (cfn_body fn) b t false H ltac:(discriminate) V T Cn) as R.
    pose proof (GoTypesFacts.eval_class _ _ St0 t c _ Ck R) as Cl.
    destruct (int_builtin t' g It) as (n & bits & go' & Vt & G & F & _). destruct (coded_kind f p scope k (cfn_type fn) t' n bits go' (GoTypes.KInt g) H Lk St Vt G F) as (go & Gt & Kd).
    rewrite Gt in G0. injection G0 as <-. unfold GoTypes.convert in Cv. rewrite Kd in Cv. destruct c as [z| |tt o]; cbn [variable_of] in Vc.
    + discriminate Cl.
    + injection Vc as <-. discriminate Cv.
    + injection Vc as <-. unfold GoTypes.int_kind in Cv. destruct Cl as (Cl & _). destruct (GoTypes.kind_of (genv_of p scope) tt) as [[g'|]|]; try discriminate Cv. apply Cl. discriminate.
  - intros z (k & Lk & St) V. pose proof (run_int f p scope E None 0 (cfn_body fn) z t false H ltac:(discriminate) V T Cn) as R.
    pose proof (GoTypesFacts.eval_class _ _ St0 t c _ Ck R) as Cl.
    destruct (coded_kind f p scope k (cfn_type fn) (CKeyword "bool") "bool" 0 "bool" GoTypes.KBool H Lk St eq_refl eq_refl eq_refl) as (go & Gt & Kd).
    rewrite Gt in G0. injection G0 as <-. unfold GoTypes.convert in Cv. rewrite Kd in Cv. destruct c as [y| |tt o]; cbn [variable_of] in Vc.
    + destruct (GoTypes.representable _ _); [|discriminate Vc]. injection Vc as <-. discriminate Cv.
    + destruct Cl as (b & Cl). discriminate Cl.
    + injection Vc as <-. unfold GoTypes.is_bool in Cv. destruct Cl as (Cl & _). destruct (GoTypes.kind_of (genv_of p scope) tt) as [[g'|]|]; try discriminate Cv. apply Cl. discriminate.
Qed.
Print Assumptions C108_types.

(** ** A file *)

Definition fn_text : string :=
"package p;
subtype uint32 Area;
struct Rect {
  uint16 w;
  uint16 h;
  function Area area() { return w * h; }
  function bool square() { return w == h; }
  function uint8 limit() { return 300; }
};
union Pick {
  uint8 a;
  bool b;
  function int8 version() { return 2; }
};
choice Kind(uint8 k) on k {
  case 1: uint8 a;
  default: bool b;
  function uint8 next() { return k; }
};
".
Definition area : cfunction := mkCFn (CNamed ["Area"] []) "area" (CBinary BMul (CId "w") (CId "h")).
Definition square : cfunction := mkCFn (CKeyword "bool") "square" (CBinary BEq (CId "w") (CId "h")).
Definition limit : cfunction := mkCFn (CKeyword "uint8") "limit" (lit "300").
Definition version : cfunction := mkCFn (CKeyword "int8") "version" (lit "2").
Definition next : cfunction := mkCFn (CKeyword "uint8") "next" (CId "k").
Definition rect : cstruct := mkCS "Rect" [] [] [fld (ft (CKeyword "uint16") CNone "w" None) None; fld (ft (CKeyword "uint16") CNone "h" None) None] [area; square; limit].
Definition pick : cunion := mkCU "Pick" [] [] [mkCCF (ft (CKeyword "uint8") CNone "a" None) None; mkCCF (ft (CKeyword "bool") CNone "b" None) None] [version].
Definition kind_ : cchoice := mkCC "Kind" [] [(CKeyword "uint8", "k")] (CId "k") [([lit "1"], Some (mkCCF (ft (CKeyword "uint8") CNone "a" None) None))]
  (Some (Some (mkCCF (ft (CKeyword "bool") CNone "b" None) None))) [next].
Definition fn_file : cfile := mkCFile None (Some ["p"]) [] [CSubtype (CKeyword "uint32") "Area"; CStruct rect; CUnion pick; CChoice kind_].
Lemma fn_compiled : exists p, compiled_text (list_ascii_of_string fn_text) fn_file p /\
  method_call p "Rect" "Area" (mkE [] [Some (VInt 256); Some (VInt 256)]) = Some (VInt 0) /\
  (forall E, method_call p "Rect" "Limit" E = Some (VInt 44)) /\ (forall n, method_of p "Kind" n = None).
Proof.
  destruct (visit_file fn_file) as [p|] eqn:V; [|vm_compute in V; discriminate V]. exists p. split; [|split; [|split]].
  - split; [vm_compute; reflexivity|]. split; [exact V|]. vm_compute in V. injection V as <-. split; [vm_compute; reflexivity|].
    split; [unfold declared_once; cbn; repeat constructor; cbn; intuition discriminate|]. repeat constructor; discriminate.
  - vm_compute in V. injection V as <-. vm_compute. reflexivity.
  - intros E. vm_compute in V. injection V as <-. vm_compute. reflexivity.
  - intros n. vm_compute in V. injection V as <-. vm_compute. reflexivity.
Qed.
Local Notation ds := (cfl_directives fn_file).
Lemma rect_field : forall i x, nth_error ["w"; "h"] i = Some x -> member ds "Rect" x (CKeyword "uint16") false (read_field i).
Proof.
  intros i x H. destruct i as [|[|i]]; try (now destruct i); injection H as <-;
    [refine (ME_field ds "Rect" rect 0 (fld (ft (CKeyword "uint16") CNone "w" None) None) _ _ _ _)|refine (ME_field ds "Rect" rect 1 (fld (ft (CKeyword "uint16") CNone "h" None) None) _ _ _ _)];
    try reflexivity; cbn; tauto.
Qed.
Lemma rect_int : forall w h hi i x z, (0 <= w < 2 ^ 16)%Z -> (0 <= h < 2 ^ 16)%Z -> nth_error ["w"; "h"] i = Some x -> nth_error [w; h] i = Some z -> (z < hi <= 2 ^ 16)%Z ->
  int_value ds "Rect" (mkE [] [Some (VInt w); Some (VInt h)]) None 0 hi (CId x) z.
Proof.
  intros w h hi i x z W H X Z B. apply (IV_member _ _ _ _ _ _ x (CKeyword "uint16") (GU 16) (read_field i)).
  - now apply rect_field.
  - intros Q. destruct i as [|[|i]]; try (now destruct i); injection X as <-; cbn in Q; intuition discriminate.
  - exists 0%nat, (CKeyword "uint16"). split; [lia|]. split; [constructor|]. constructor. cbn. tauto.
  - intros y Hy. cbn. unfold in_u. lia.
  - destruct i as [|[|i]]; try (now destruct i); injection Z as <-; reflexivity.
  - destruct i as [|[|i]]; try (now destruct i); injection Z as <-; lia.
Qed.
Lemma area_type : has_int ds (CNamed ["Area"] []) (GU 32).
Proof. exists 1%nat, (CKeyword "uint32"). split; [lia|]. split; [|constructor; cbn; tauto]. apply SF_subtype with (CKeyword "uint32"); [cbn; tauto|constructor]. Qed.
Lemma two : forall lo hi, (lo <= 2 < hi)%Z -> int_value ds "Pick" (mkE [] []) None lo hi (lit "2") 2.
Proof. intros lo hi H. apply IV_literal; [|exact H]. apply SL_plain, (digit_literal "2"%char 2). cbn. tauto. Qed.

(** The hypotheses are met: Area() of 200 and 300, Square(), and Version() of a union. *)
Example C108_applies : exists p, compiled_text (list_ascii_of_string fn_text) fn_file p /\
  (let E := mkE [] [Some (VInt 200); Some (VInt 300)] in
   function_in ds "Rect" area /\ exported "area" "Area" /\ has_int ds (cfn_type area) (GU 32) /\ is_int ds "Rect" E None (cfn_body area) 60000 /\
   method_call p "Rect" "Area" E = Some (VInt 60000) /\
   function_in ds "Rect" square /\ exported "square" "Square" /\ has_bool ds (cfn_type square) /\ is_bool ds "Rect" E None (cfn_body square) false /\
   method_call p "Rect" "Square" E = Some (VBool false)) /\
  (function_in ds "Pick" version /\ exported "version" "Version" /\ has_int ds (cfn_type version) (GS 8) /\ is_int ds "Pick" (mkE [] []) None (cfn_body version) 2 /\
   method_call p "Pick" "Version" (mkE [] []) = Some (VInt 2)).
Proof.
  destruct fn_compiled as (p & C & _). exists p. split; [exact C|].
  assert (A1 : function_in ds "Rect" area) by (left; exists rect; cbn; tauto). assert (A2 : exported "area" "Area") by (apply EX_small; cbn; tauto).
  assert (B1 : function_in ds "Rect" square) by (left; exists rect; cbn; tauto). assert (B2 : exported "square" "Square") by (apply EX_small; cbn; tauto).
  assert (D1 : function_in ds "Pick" version) by (right; exists pick; cbn; tauto). assert (D2 : exported "version" "Version") by (apply EX_small; cbn; tauto).
  assert (D3 : has_int ds (cfn_type version) (GS 8)) by (exists 0%nat, (CKeyword "int8"); split; [lia|]; split; [constructor|]; constructor; cbn; tauto).
  assert (B3 : has_bool ds (cfn_type square)) by (exists 0%nat; split; [lia|constructor]).
  assert (W : forall hi, (300 < hi <= 2 ^ 16)%Z -> int_value ds "Rect" (mkE [] [Some (VInt 200); Some (VInt 300)]) None 0 hi (CId "w") 200) by (intros hi H; apply (rect_int _ _ hi 0); try reflexivity; lia).
  assert (H : forall hi, (300 < hi <= 2 ^ 16)%Z -> int_value ds "Rect" (mkE [] [Some (VInt 200); Some (VInt 300)]) None 0 hi (CId "h") 300) by (intros hi H; apply (rect_int _ _ hi 1); try reflexivity; lia).
  assert (A4 : is_int ds "Rect" (mkE [] [Some (VInt 200); Some (VInt 300)]) None (cfn_body area) 60000).
  { exists 0%Z, (2 ^ 16)%Z. split; [lia|]. split; [lia|]. apply (IV_op _ _ _ _ _ _ BMul _ _ 200 300); [apply W; lia|apply H; lia|reflexivity|lia]. }
  assert (B4 : is_bool ds "Rect" (mkE [] [Some (VInt 200); Some (VInt 300)]) None (cfn_body square) false).
  { apply (BV_compare _ _ _ _ BEq _ _ 200 300); [| |reflexivity]; exists 0%Z, (2 ^ 16)%Z; (split; [lia|]; split; [lia|]); [apply W; lia|apply H; lia]. }
  assert (D4 : is_int ds "Pick" (mkE [] []) None (cfn_body version) 2) by (exists 0%Z, 3%Z; split; [lia|]; split; [lia|]; apply two; lia).
  split; repeat (split; [assumption|]).
  - split; [exact area_type|]. split; [exact A4|]. split; [apply (C108_value _ _ p "Rect" area "Area" _ (GU 32) 60000 C A1 A2 area_type A4); cbn; unfold in_u; lia|].
    repeat (split; [assumption|]). exact (C108_bool _ _ p "Rect" square "Square" _ false C B1 B2 B3 B4).
  - apply (C108_value _ _ p "Pick" version "Version" _ (GS 8) 2 C D1 D2 D3 D4). cbn. unfold in_s. lia.
Qed.

(** A constant that the return type does not hold is accepted, and another number is
    returned: "function uint8 limit() { return 300; }". *)
Theorem C108_constant_refuted : exists s f p scope fn N g z y, compiled_text s f p /\ function_in (cfl_directives f) scope fn /\ exported (cfn_name fn) N /\
  has_int (cfl_directives f) (cfn_type fn) g /\ (forall E, is_int (cfl_directives f) scope E None (cfn_body fn) z) /\
  (forall E, method_call p scope N E = Some (VInt y)) /\ y <> z.
Proof.
  destruct fn_compiled as (p & C & _ & L & _). exists (list_ascii_of_string fn_text), fn_file, p, "Rect", limit, "Limit", (GU 8), 300%Z, 44%Z.
  split; [exact C|]. split; [left; exists rect; cbn; tauto|]. split; [apply EX_small; cbn; tauto|]. split; [apply uint8_type|]. split; [|split; [exact L|discriminate]].
  intros E. exists 0%Z, 301%Z. split; [lia|]. split; [lia|]. apply IV_literal; [apply SL_plain|lia].
  apply (LiteralsSpec.IDecimal "3"%char ["0"; "0"]%char 300%Z); [discriminate|].
  apply (LiteralsSpec.NDigit 10 ["3"; "0"]%char 30 "0"%char 0); [|left; reflexivity|reflexivity].
  apply (LiteralsSpec.NDigit 10 ["3"]%char 3 "0"%char 0); [|left; reflexivity|reflexivity].
  apply (LiteralsSpec.NDigit 10 []%char 0 "3"%char 3); [constructor|left; reflexivity|reflexivity].
Qed.
Print Assumptions C108_constant_refuted.
(** Values that the return type holds, but the types of the operands do not, are lost
    too: "function uint32 area() { return w * h; }" for uint16 w and h. *)
Theorem C108_wide_refuted : exists s f p scope fn N a b E g x y z, compiled_text s f p /\ function_in (cfl_directives f) scope fn /\ exported (cfn_name fn) N /\
  cfn_body fn = CBinary BMul a b /\ is_int (cfl_directives f) scope E None a x /\ is_int (cfl_directives f) scope E None b y /\
  has_int (cfl_directives f) (cfn_type fn) g /\ gvalue g (x * y) /\ method_call p scope N E = Some (VInt z) /\ z <> (x * y)%Z.
Proof.
  destruct fn_compiled as (p & C & A & _). exists (list_ascii_of_string fn_text), fn_file, p, "Rect", area, "Area", (CId "w"), (CId "h"), (mkE [] [Some (VInt 256); Some (VInt 256)]), (GU 32), 256%Z, 256%Z, 0%Z.
  split; [exact C|]. split; [left; exists rect; cbn; tauto|]. split; [apply EX_small; cbn; tauto|]. split; [reflexivity|].
  split; [exists 0%Z, (2 ^ 16)%Z; split; [lia|]; split; [lia|]; apply (rect_int _ _ _ 0); try reflexivity; lia|].
  split; [exists 0%Z, (2 ^ 16)%Z; split; [lia|]; split; [lia|]; apply (rect_int _ _ _ 1); try reflexivity; lia|].
  split; [exact area_type|]. split; [cbn; unfold in_u; lia|]. split; [exact A|discriminate].
Qed.
Print Assumptions C108_wide_refuted.
(** The functions of a choice have no methods. *)
Theorem C108_choice_refuted : exists s f p c fn, compiled_text s f p /\ In (CChoice c) (cfl_directives f) /\ In fn (cc_functions c) /\ forall N, method_of p (cc_name c) N = None.
Proof.
  destruct fn_compiled as (p & C & _ & _ & K). exists (list_ascii_of_string fn_text), fn_file, p, kind_, next. split; [exact C|]. split; [cbn; tauto|]. split; [cbn; tauto|exact K].
Qed.
Print Assumptions C108_choice_refuted.

(** A condition returned as uint8 and a number returned as bool: no code compiles. *)
Definition return_text (type body : string) : string := "package p; struct T { uint16 w; function " ++ type ++ " get() { return " ++ body ++ "; } };".
Definition return_file (type : string) (body : cexpr) : cfile :=
  mkCFile None (Some ["p"]) [] [CStruct (mkCS "T" [] [] [fld (ft (CKeyword "uint16") CNone "w" None) None] [mkCFn (CKeyword type) "get" body])].
Example C108_types_applies :
  (exists p, compiled_text (list_ascii_of_string (return_text "bool" "w == 1")) (return_file "bool" (CBinary BEq (CId "w") (lit "1"))) p) /\
  (exists p, compiled_text (list_ascii_of_string (return_text "uint8" "w + 1")) (return_file "uint8" (CBinary BPlus (CId "w") (lit "1"))) p) /\
  generate_code ["T"] (list_ascii_of_string (return_text "uint8" "w == 1")) = None /\ generate_code ["T"] (list_ascii_of_string (return_text "bool" "w + 1")) = None.
Proof.
  assert (X : forall type body e, parse_file (stream (list_ascii_of_string (return_text type body))) = Some (return_file type e) ->
    (exists p, visit_file (return_file type e) = Some p /\ code_ok p = true) -> exists p, compiled_text (list_ascii_of_string (return_text type body)) (return_file type e) p).
  { intros type body e P (p & V & O). exists p. split; [exact P|]. split; [exact V|]. split; [exact O|].
    split; [unfold declared_once; cbn; repeat constructor; cbn; intuition discriminate|]. repeat constructor; discriminate. }
  split; [apply X; [vm_compute; reflexivity|eexists; split; [vm_compute; reflexivity|vm_compute; reflexivity]]|].
  split; [apply X; [vm_compute; reflexivity|eexists; split; [vm_compute; reflexivity|vm_compute; reflexivity]]|]. split; vm_compute; reflexivity.
Qed.
