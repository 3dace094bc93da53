(** C79-C84: names, member access, choices and unions in the expressions of a schema. *)

Require Import ZArith String List Bool Lia.
From Verif Require Import Traits AstExpr AstTypesSpec GoSyntax ExprPrint ExprPrintSpec GoTypes GoTypesSpec Packages PackagesSpec PackagesFacts Members MembersSpec MembersFacts.
Import ListNotations.
Open Scope Z_scope.

(** ** A schema for the examples

    package a; import b.*;
    const uint8 size = 3;
    enum uint8 Color { red = 1, green = 5 };  enum uint8 Other { red = 7 };  bitmask uint8 Rights { READ = 1 };
    subtype uint8 Small;  subtype Color Paint;
    struct Header { uint8 kind; };
    struct S { uint8 count; Small len; uint8 data[]; Header header; b.Header other; Tail tail; };
    choice C(Paint color, uint8 kind, Header header, Rights rights) ...;  choice D(bool flag) ...;
    package b;
    struct Header { int32 kind; };  struct Tail { int16 x; }; *)
Definition u8 : tyref := mkTR true "" "uint8" 0.
Definition i16 : tyref := mkTR true "" "int16" 0.
Definition i32 : tyref := mkTR true "" "int32" 0.
Definition of (pkg n : string) : tyref := mkTR false pkg n 0.
Definition types_a : list (string * sym) := [
  ("size", SyConst u8); ("Color", SyEnum 0); ("Other", SyEnum 1); ("Rights", SyBitmask 0);
  ("Small", SySubtype u8); ("Paint", SySubtype (of "a" "Color")); ("Header", SyStruct 0); ("S", SyStruct 1); ("C", SyChoice 0); ("D", SyChoice 1)]%string.
Definition pa : package := mkP "a" [] types_a None [("red", SyEnumItem 2); ("green", SyEnumItem 1)]%string [1%nat].
Definition pb : package := mkP "b" [] [("Header", SyStruct 2); ("Tail", SyStruct 3)]%string None [] [].
Definition int_res (z : Z) : result := mkRes TyInt z f64_zero "" false None true.
Definition members0 (pkg c : string) : option (list (string * sym)) :=
  if ((pkg =? "a") && (c =? "Header"))%string then Some [("kind", SyField u8 false)]%string
  else if ((pkg =? "a") && (c =? "S"))%string then
    Some [("count", SyField u8 false); ("len", SyField (of "a" "Small") false); ("data", SyField u8 true);
          ("header", SyField (of "a" "Header") false); ("other", SyField (of "b" "Header") false); ("tail", SyField (of "b" "Tail") false); ("size", SyField u8 false)]%string
  else if ((pkg =? "a") && (c =? "C"))%string then
    Some [("color", SyParameter (of "a" "Paint")); ("kind", SyParameter u8); ("header", SyParameter (of "a" "Header")); ("rights", SyParameter (of "a" "Rights"))]%string
  else if ((pkg =? "a") && (c =? "D"))%string then Some [("flag", SyParameter (mkTR true "" "bool" 0))]%string
  else if ((pkg =? "b") && (c =? "Header"))%string then Some [("kind", SyField i32 false)]%string
  else if ((pkg =? "b") && (c =? "Tail"))%string then Some [("x", SyField i16 false)]%string
  else None.
Definition E0 : menv := mkME [pa; pb] 2
  (fun _ n => if (n =? "size")%string then int_res 3 else int_res 0)
  (fun i => match i with 0%nat => int_res 1 | 1%nat => int_res 5 | _ => int_res 7 end)
  (fun i => match i with 0%nat => [("red", int_res 1); ("green", int_res 5)]%string | _ => [("red", int_res 7)]%string end)
  (fun _ => [("READ", Some (int_res 1))]%string) (fun _ => u8) members0 (fun _ => MNum 0) (fun _ => u8) (fun _ => TyInt) (fun n => n).

Example searchable_a : searchable E0 pa.
Proof.
  assert (R : forall q, reach [pa; pb] pa q -> q = pa \/ q = pb).
  { intros q H. induction H as [|q r H IH He]; [now left|]. destruct IH as [-> | ->]; cbn in He; [right; destruct He as [<-|[]]; reflexivity|contradiction]. }
  assert (R1 : forall q r, reach [pa; pb] q r -> q = pa \/ q = pb -> r = pa \/ r = pb).
  { intros q r H Hq. induction H as [|r x H IH He]; [assumption|]. destruct IH as [-> | ->]; cbn in He; [right; destruct He as [<-|[]]; reflexivity|contradiction]. }
  assert (B : forall r, reach [pa; pb] pb r -> r = pb).
  { intros r H. induction H as [|r x H IH He]; [reflexivity|]. subst r. destruct He. }
  split; [|split; [now left|split; [|cbn; lia]]].
  - split; [repeat constructor; cbn; intuition discriminate|cbn; intuition discriminate].
  - intros q Hq (r & Hr & He). destruct (R q Hq) as [-> | ->].
    + destruct (R1 pa r Hr ltac:(now left)) as [-> | ->]; cbn in He; [destruct He as [He|[]]; discriminate|contradiction].
    + rewrite (B r Hr) in He. destruct He.
Qed.

Example members_a : members_declared E0.
Proof.
  intros q c l [<-|[<-|[]]] H; cbn [E0 me_members p_name pa pb] in H; unfold members0 in H; intros U; unfold undeclared in U;
    repeat match type of H with context [(?x =? ?y)%string] => destruct (String.eqb_spec x y); subst; cbn [andb] in H end; try discriminate; vm_compute in U; discriminate.
Qed.

Definition in_S : current := enter "a" "S" nowhere.

Lemma not_global_a : forall n, get n types_a = None -> get n (p_types pb) = None -> not_global E0 pa n.
Proof. intros n A B. split; [exact A|]. intros q Hq. cbn in Hq. destruct Hq as [<-|[]]. exact B. Qed.

(** ** C79: the name of a field or parameter *)

Theorem C79_member : forall E cur p c n s t k m, searchable E p -> cur (p_name p) = Some c ->
  member_of E p c n s -> not_global E p n -> member_type s t -> means (me_world E) p t k m ->
  ((k <= subtype_limit m)%nat -> exists go r, evaluate_member E cur p (MName n) = MOk (AIdent (IMember (title n)) go r) (Some (mkSR s n (p_name p) c)) /\
    go = PackageGoType (p_name p) t /\ r_type r = meaning_type m /\ r_native r = meaning_native m /\ r_full r = false) /\
  ((subtype_limit m < k)%nat -> evaluate_member E cur p (MName n) = MFail SErr).
Proof. exact member_value. Qed.
Print Assumptions C79_member.

Theorem C79_constant : forall E cur p n q t, sees (me_world E) p n q (SyConst t) ->
  evaluate_member E cur p (MName n) = MOk (AConst (copy_result true (me_const E (p_name q) n))) None.
Proof. exact constant_wins. Qed.
Print Assumptions C79_constant.

(** In struct S, size is the constant, and not the field. *)
Theorem C79_refuted : exists E cur p c n t a, searchable E p /\ cur (p_name p) = Some c /\ member_of E p c n (SyField t false) /\
  evaluate_member E cur p (MName n) = MOk a None /\ r_full (res a) = true /\ r_int (res a) = 3.
Proof.
  exists E0, in_S, pa, "S"%string, "size"%string, u8. eexists. split; [exact searchable_a|]. split; [reflexivity|].
  split; [eexists; split; reflexivity|]. split; [vm_compute; reflexivity|]. split; reflexivity.
Qed.
Print Assumptions C79_refuted.

Example C79_applies : member_of E0 pa "S" "len" (SyField (of "a" "Small") false) /\ not_global E0 pa "len" /\ member_type (SyField (of "a" "Small") false) (of "a" "Small") /\
  means (me_world E0) pa (of "a" "Small") 1 (Builtin u8) /\ sees (me_world E0) pa "size" pa (SyConst u8) /\
  exists r, evaluate_member E0 in_S pa (MName "len") = MOk (AIdent (IMember "Len") (Some "Small"%string) r) (Some (mkSR (SyField (of "a" "Small") false) "len" "a" "S")).
Proof.
  split; [eexists; split; reflexivity|]. split; [apply not_global_a; reflexivity|]. split; [right; eauto|].
  split; [eapply means_subtype; [reflexivity|apply reach_self|reflexivity|reflexivity|now apply means_builtin]|].
  split; [left; split; reflexivity|]. eexists. vm_compute. reflexivity.
Qed.

(** ** C80: integer expressions over the members of a compound type *)

Theorem C80_compiles : forall E cur p c D e, searchable E p -> cur (p_name p) = Some c -> integer_expression E p c D e ->
  (evaluate_member E cur p e = MFail SPanic /\ divides e) \/
  exists a s, evaluate_member E cur p e = MOk a s /\
    (agree a -> exists ts, print a = Some ts /\ (exists t, go_expression ts t) /\
      forall t, go_expression ts t ->
        (check D t <> None <-> constants_fit a) /\
        forall S z, exact_constants E p c S e -> value E p c S e z -> state_ok D S -> check D t <> None -> no_overflow D S t -> geval D S t = Some (GI z)).
Proof. exact integer_text. Qed.
Print Assumptions C80_compiles.

(** count + (data_length % size) in struct S, with the constant size. *)
Definition D_S : genv := mkG (fun t => if (t =? "Small")%string then Some (KInt (GU 8)) else None) (fun _ => None)
  (fun g => match g with
            | GSelect (GName v) n => if (n =? "Count")%string then Some "uint8"%string else if (n =? "Len")%string then Some "Small"%string else None
            | _ => None
            end)
  (fun g => match g with GSelect (GName v) n => if (n =? "Data")%string then Some "uint8"%string else None | _ => None end).
Definition e80 : mexpr := MArith Plus (MName "count") (MArith Modulo (MParen (MLengthof (MName "data"))) (MName "size")).

Example C80_applies : integer_expression E0 pa "S" D_S e80 /\ integer_expression E0 pa "S" D_S (MArith Plus (MName "len") (MNum 1)) /\
  exists a s ts, evaluate_member E0 in_S pa e80 = MOk a s /\ agree a /\ constants_fit a /\ print a = Some ts /\
  value E0 pa "S" (mkGS (fun g => Some (GI 7)) (fun _ _ => None) (fun _ => 5) 0) e80 9.
Proof.
  assert (IU : integer (mkT "uint8" 0 false)) by (eexists; apply range_named; cbn; tauto).
  assert (MC : member_of E0 pa "S" "count" (SyField u8 false)) by (eexists; split; reflexivity).
  assert (MD : member_of E0 pa "S" "data" (SyField u8 true)) by (eexists; split; reflexivity).
  assert (SZ : sees (me_world E0) pa "size" pa (SyConst u8)) by (left; split; reflexivity).
  split.
  { apply IE_arith.
    - eapply IE_member; [exact MC|apply not_global_a; reflexivity|right; eauto|now apply means_builtin|lia|exact IU|reflexivity|reflexivity|reflexivity].
    - apply IE_arith; [apply IE_paren|].
      + eapply IE_lengthof; [exact MD|apply not_global_a; reflexivity|now apply means_builtin|cbn; lia|reflexivity].
      + discriminate.
      + eapply IE_const; [exact SZ|reflexivity|cbn; lia|exact I]. }
  split.
  { apply IE_arith; [|apply IE_num; lia]. eapply (IE_member E0 pa "S" D_S "len" _ (of "a" "Small") 1 u8); [eexists; split; reflexivity|apply not_global_a; reflexivity|right; eauto| |lia|exact IU|reflexivity|reflexivity|reflexivity].
    eapply means_subtype; [reflexivity|apply reach_self|reflexivity|reflexivity|now apply means_builtin]. }
  eexists _, _, _. split; [vm_compute; reflexivity|]. split; [vm_compute; repeat split; auto; lia|]. split.
  { cbn. repeat split; try discriminate; try (intros; match goal with H : Some _ = Some _ |- _ => injection H as <- end);
      repeat match goal with H : _ \/ _ |- _ => destruct H as [H|H] | H : (_, _) = (_, _) |- _ => first [discriminate H|injection H as <- <-] end; try lia; contradiction. }
  split; [vm_compute; reflexivity|].
  eapply (V_arith _ _ _ _ _ _ _ 7 2); [eapply V_member; [exact MC|apply not_global_a; reflexivity|reflexivity]| |reflexivity].
  eapply V_arith; [apply V_paren; eapply V_lengthof; [exact MD|apply not_global_a; reflexivity]|eapply V_const; exact SZ|reflexivity].
Qed.

(** ** C81: the labels of a choice *)

Theorem C81_labels : forall E cur p name ch sel t k m sw zss, searchable E p -> ch_selector ch = MName sel -> member_of E p name sel (SyParameter t) -> not_global E p sel ->
  means (me_world E) p t k m -> plain_name E p t -> EvaluateChoice E cur p name ch = inr (sw, zss) ->
  sw = title sel /\ Forall2 (Forall2 (label_value E (enter (p_name p) name cur) p t)) (ch_labels ch) zss.
Proof. exact choice_labels. Qed.
Print Assumptions C81_labels.

Theorem C81_items : forall E cur p name ch sel t k m zss, searchable E p -> items_only E -> ch_selector ch = MName sel -> member_of E p name sel (SyParameter t) -> not_global E p sel ->
  means (me_world E) p t k m -> (k <= subtype_limit m)%nat -> plain_name E p t -> evaluate_all E (enter (p_name p) name cur) p (ch_exprs ch) = SOk ->
  (forall labels n, In labels (ch_labels ch) -> In (MName n) labels -> item_only E p n) ->
  Forall2 (Forall2 (label_value E (enter (p_name p) name cur) p t)) (ch_labels ch) zss -> EvaluateChoice E cur p name ch = inr (title sel, zss).
Proof. exact choice_complete. Qed.
Print Assumptions C81_items.

(** With a selector of a builtin type, no label can be a name, such as that of a
    constant; with a bitmask, a value is not found by its name. *)
Theorem C81_builtin : forall E cur p name ch sel t sw zss labels n, searchable E p -> ch_selector ch = MName sel -> member_of E p name sel (SyParameter t) -> not_global E p sel ->
  tr_builtin t = true -> nothing E p (tr_name t) -> In labels (ch_labels ch) -> In (MName n) labels -> EvaluateChoice E cur p name ch <> inr (sw, zss).
Proof. exact choice_builtin. Qed.
Print Assumptions C81_builtin.

Theorem C81_unknown : forall E cur p name ch sel t k m sw zss labels n, searchable E p -> ch_selector ch = MName sel -> member_of E p name sel (SyParameter t) -> not_global E p sel ->
  means (me_world E) p t k m -> nothing E p n -> In labels (ch_labels ch) -> In (MName n) labels -> EvaluateChoice E cur p name ch <> inr (sw, zss).
Proof. exact choice_unknown. Qed.
Print Assumptions C81_unknown.

Lemma reach_a : forall q, reach (me_world E0) pa q -> q = pa \/ q = pb.
Proof.
  intros q H. induction H as [|q r H IH He]; [now left|]. destruct IH as [-> | ->]; cbn in He; [right; destruct He as [<-|[]]; reflexivity|contradiction].
Qed.
Lemma no_member_a : forall n, (forall pkg c l, members0 pkg c = Some l -> get n l = None) -> no_member_named E0 pa n.
Proof. intros n H q c l _ Hl. exact (H _ _ _ Hl). Qed.
Ltac members0_cases :=
  intros pkg c l H; unfold members0 in H; repeat (match type of H with (if ?x then _ else _) = _ => destruct x end; [injection H as <-; reflexivity|]); discriminate.

(** choice C(Paint color, ...) on color { case green: ...; case red, Other.red: ...; } *)
Definition ch0 : choice := mkCh (MName "color") [[MName "green"]; [MName "red"; MDot (MName "Other") false "red"]] [].
Example C81_applies : member_of E0 pa "C" "color" (SyParameter (of "a" "Paint")) /\ not_global E0 pa "color" /\
  means (me_world E0) pa (of "a" "Paint") 1 (Declared (SyEnum 0)) /\ plain_name E0 pa (of "a" "Paint") /\ items_only E0 /\ item_only E0 pa "red" /\ item_only E0 pa "green" /\
  EvaluateChoice E0 nowhere pa "C" ch0 = inr ("Color"%string, [[5]; [1; 7]]) /\
  EvaluateChoice E0 nowhere pa "C" (mkCh (MName "kind") [[MName "size"]] []) = inl SErr /\ nothing E0 pa "uint8" /\
  EvaluateChoice E0 nowhere pa "C" (mkCh (MName "kind") [[MNum 3]] []) = inr ("Kind"%string, [[3]]) /\
  EvaluateChoice E0 nowhere pa "C" (mkCh (MName "rights") [[MName "READ"]] []) = inl SErr /\ nothing E0 pa "READ" /\
  EvaluateChoice E0 nowhere pa "C" (mkCh (MName "rights") [[MDot (MName "Rights") false "READ"]] []) = inr ("Rights"%string, [[1]]).
Proof.
  split; [eexists; split; reflexivity|]. split; [apply not_global_a; reflexivity|].
  split; [eapply means_subtype; [reflexivity|apply reach_self|reflexivity|reflexivity|eapply means_declared; [reflexivity|apply reach_self|reflexivity|reflexivity|exact I]]|].
  split; [exists pa, (SySubtype (of "a" "Color")); split; [left; split; reflexivity|reflexivity]|].
  split.
  { intros q n s [<-|[<-|[]]] H; unfold has_item in H; cbn [p_others pa pb get] in H; [|discriminate].
    destruct (_ =? _)%string; [injection H as <-; eauto|]. destruct (_ =? _)%string; [injection H as <-; eauto|discriminate]. }
  assert (IO : forall n s, get n types_a = None -> get n (p_types pb) = None -> (forall pkg c l, members0 pkg c = Some l -> get n l = None) -> get n (p_others pa) = Some s -> item_only E0 pa n).
  { intros n s A B M H. split; [now apply not_global_a|]. split; [now apply no_member_a|]. exists pa, s. split; [apply reach_self|exact H]. }
  assert (NO : forall n, get n types_a = None -> get n (p_types pb) = None -> (forall pkg c l, members0 pkg c = Some l -> get n l = None) -> get n (p_others pa) = None -> nothing E0 pa n).
  { intros n A B M H. split; [now apply not_global_a|]. split; [|now apply no_member_a]. intros q s Hq Hs. destruct (reach_a q Hq) as [-> | ->]; unfold has_item in Hs; [congruence|discriminate]. }
  split; [eapply IO; [reflexivity|reflexivity|members0_cases|reflexivity]|].
  split; [eapply IO; [reflexivity|reflexivity|members0_cases|reflexivity]|].
  split; [vm_compute; reflexivity|]. split; [vm_compute; reflexivity|]. split; [eapply NO; [reflexivity|reflexivity|members0_cases|reflexivity]|].
  split; [vm_compute; reflexivity|]. split; [vm_compute; reflexivity|]. split; [eapply NO; [reflexivity|reflexivity|members0_cases|reflexivity]|]. vm_compute. reflexivity.
Qed.

(** choice C(bool flag) on flag { case true: ...; case false: ...; }: both labels are
    written as 0. *)
Theorem C81_refuted : exists E cur p name sel t, searchable E p /\ member_of E p name sel (SyParameter t) /\ means (me_world E) p t 0 (Builtin t) /\ tr_name t = "bool"%string /\
  EvaluateChoice E cur p name (mkCh (MName sel) [[MBool true]; [MBool false]] []) = inr (title sel, [[0]; [0]]).
Proof.
  exists E0, nowhere, pa, "D"%string, "flag"%string, (mkTR true "" "bool" 0). split; [exact searchable_a|]. split; [eexists; split; reflexivity|].
  split; [now apply means_builtin|]. split; [reflexivity|]. vm_compute. reflexivity.
Qed.
Print Assumptions C81_refuted.

(** ** C82: the selector of a choice *)

Theorem C82_switch : forall E cur p name ch sw zss, EvaluateChoice E cur p name ch = inr (sw, zss) ->
  exists n, last_name (ch_selector ch) = Some n /\ sw = title n.
Proof. exact choice_switch. Qed.
Print Assumptions C82_switch.

Theorem C82_field : forall E cur p name ch sel t array k m sw zss labels n, searchable E p -> ch_selector ch = MName sel -> member_of E p name sel (SyField t array) -> not_global E p sel ->
  means (me_world E) p t k m -> In labels (ch_labels ch) -> In (MName n) labels -> EvaluateChoice E cur p name ch <> inr (sw, zss).
Proof. exact choice_field. Qed.
Print Assumptions C82_field.

(** choice C(..., uint8 kind, Header header, ...) on header.kind: the generated code
    switches on v.Kind, the parameter kind, and not on v.Header.Kind. *)
Theorem C82_refuted : exists E cur p name a n labels r, searchable E p /\ path_to E p name (MDot a false n) (SyField u8 false) p /\
  member_of E p name n (SyParameter u8) /\
  EvaluateChoice E cur p name (mkCh (MDot a false n) labels []) = inr r /\ EvaluateChoice E cur p name (mkCh (MName n) labels []) = inr r.
Proof.
  exists E0, nowhere, pa, "C"%string, (MName "header"), "kind"%string, [[MNum 1]; [MNum 2]]. eexists. split; [exact searchable_a|]. split.
  { eapply (path_dot E0 pa "C" (MName "header") (SyParameter (of "a" "Header")) pa (of "a" "Header") pa (SyStruct 0));
      [apply path_own; [eexists; split; reflexivity|apply not_global_a; reflexivity]|now left|reflexivity|apply reach_self|reflexivity|left; split; reflexivity|eauto|eexists; split; reflexivity]. }
  split; [eexists; split; reflexivity|]. split; vm_compute; reflexivity.
Qed.
Print Assumptions C82_refuted.

(** A selector that is calculated cannot be generated. *)
Example C82_applies : EvaluateChoice E0 nowhere pa "C" (mkCh (MName "color") [[MName "red"]] []) = inr ("Color"%string, [[1]]) /\
  EvaluateChoice E0 nowhere pa "C" (mkCh (MArith Plus (MName "kind") (MNum 1)) [[MNum 1]] []) = inl SErr /\
  EvaluateChoice E0 nowhere pa "C" (mkCh (MParen (MName "kind")) [[MNum 1]] []) = inl SErr /\
  EvaluateChoice E0 nowhere pa "S" (mkCh (MName "count") [[MName "red"]] []) = inl SErr /\
  EvaluateChoice E0 nowhere pa "S" (mkCh (MName "count") [[MNum 1]] []) = inr ("Count"%string, [[1]]).
Proof. repeat split; vm_compute; reflexivity. Qed.

(** ** C83: names in a union *)

Theorem C83_union : forall E p l e n, searchable E p -> In e l -> In n (names e) -> not_global E p n -> no_item E p n -> EvaluateUnion E nowhere p l <> SOk.
Proof. exact union_names. Qed.
Print Assumptions C83_union.

(** An array of the length len, which is a parameter of the union, and of the length
    size, which is a constant. *)
Example C83_applies : not_global E0 pa "len" /\ no_item E0 pa "len" /\ EvaluateUnion E0 nowhere pa [MName "len"] = SErr /\ EvaluateStruct E0 nowhere pa "S" [MName "len"] = SOk /\
  EvaluateUnion E0 nowhere pa [MArith Plus (MName "size") (MNum 1); MCompare Eq (MDot (MName "Color") false "red") (MName "red")] = SOk.
Proof.
  split; [apply not_global_a; reflexivity|]. split.
  { intros q s Hq Hs. destruct (reach_a q Hq) as [-> | ->]; discriminate. }
  repeat split; vm_compute; reflexivity.
Qed.

(** ** C84: member access *)

Theorem C84_path : forall E cur p c e s q t k m, members_declared E -> searchable E p -> cur (p_name p) = Some c -> path_to E p c e s q ->
  member_type s t -> means (me_world E) q t k m -> (k <= subtype_limit m)%nat ->
  exists a n pkg cn, evaluate_member E cur p e = MOk a (Some (mkSR s n pkg cn)) /\ symbol a = Some (PackageGoType (p_name p) t) /\
    r_type (res a) = meaning_type m /\ r_native (res a) = meaning_native m /\ r_full (res a) = false.
Proof. exact path_member. Qed.
Print Assumptions C84_path.

Theorem C84_panics : forall E cur p e id n, last_name e = None -> forall a s, evaluate_member E cur p e = MOk a s ->
  (id = true -> exists b t, evaluate_member E cur p (MName n) = MOk b t) -> evaluate_member E cur p (MDot e id n) = MFail SPanic.
Proof. exact dot_panics. Qed.
Print Assumptions C84_panics.

(** Field other of struct S has the type b.Header, whose kind is an int32; other.kind
    is taken for the uint8 of a.Header. *)
Theorem C84_refuted : exists E cur p c f n t q t' a s, searchable E p /\ members_declared E /\ cur (p_name p) = Some c /\
  member_of E p c f (SyField t false) /\ not_global E p f /\ means (me_world E) p t 0 (Declared (SyStruct 2)) /\
  In q (me_world E) /\ p_name q = tr_package t /\ member_of E q (tr_name t) n (SyField t' false) /\
  evaluate_member E cur p (MDot (MName f) false n) = MOk a s /\ r_native (res a) = Some (builtin u8) /\ t' = i32.
Proof.
  exists E0, in_S, pa, "S"%string, "other"%string, "kind"%string, (of "b" "Header"), pb, i32. eexists _, _.
  split; [exact searchable_a|]. split; [exact members_a|]. split; [reflexivity|]. split; [eexists; split; reflexivity|]. split; [apply not_global_a; reflexivity|].
  split; [eapply means_declared; [reflexivity|apply edge_reach; cbn; now left|reflexivity|reflexivity|exact I]|].
  split; [right; now left|]. split; [reflexivity|]. split; [eexists; split; reflexivity|]. split; [vm_compute; reflexivity|]. split; reflexivity.
Qed.
Print Assumptions C84_refuted.

(** tail.x is of the imported struct Tail; (header).kind panics. *)
Example C84_applies : path_to E0 pa "S" (MDot (MName "tail") false "x") (SyField i16 false) pb /\
  (exists a s, evaluate_member E0 in_S pa (MDot (MName "tail") false "x") = MOk a s /\ r_native (res a) = Some (builtin i16)) /\
  (exists a s, evaluate_member E0 in_S pa (MDot (MName "header") false "kind") = MOk a s /\ r_native (res a) = Some (builtin u8)) /\
  evaluate_member E0 in_S pa (MDot (MParen (MName "header")) false "kind") = MFail SPanic.
Proof.
  split.
  { eapply (path_dot E0 pa "S" (MName "tail") (SyField (of "b" "Tail") false) pa (of "b" "Tail") pb (SyStruct 3));
      [apply path_own; [eexists; split; reflexivity|apply not_global_a; reflexivity]|right; eauto|reflexivity|apply edge_reach; cbn; now left|reflexivity| |eauto|eexists; split; reflexivity].
    right. split; [reflexivity|]. exists [], []. split; [reflexivity|]. split; [intros x []|reflexivity]. }
  split; [eexists _, _; split; [vm_compute; reflexivity|reflexivity]|]. split; [eexists _, _; split; [vm_compute; reflexivity|reflexivity]|]. vm_compute. reflexivity.
Qed.
