(** C97: the expressions of template instances. *)

Require Import ZArith String List Bool Lia Permutation.
From Verif Require Import AstExpr GoSyntax ExprPrint ExprPrintSpec GoTypes GoTypesSpec Packages PackagesSpec PackagesFacts Members MembersSpec MembersFacts Instances InstancesSpec InstancesFacts.
Import ListNotations.
Open Scope Z_scope.

(** Whatever the order, the labels of all instances of a choice template are those of
    the instance that is evaluated first: items of the type of its selector. *)
Theorem C97_labels : forall E cur l st st' i c sel, EvaluateInstances E cur l st = inr st' -> In i l -> st (i_template i) = fresh_choice c -> ch_selector c = MName sel ->
  exists i0 cur0, first_instance l i i0 /\ cur0 (p_name (i_package i0)) = Some (i_name i0) /\
    forall t, selects E i0 sel t -> exists zss, switch_of (st' (i_template i)) = Some (title sel) /\ labels_of (st' (i_template i)) = Some (map (map Some) zss) /\
      Forall2 (Forall2 (label_value E cur0 (i_package i0) t)) (ch_labels c) zss.
Proof. exact labels_of_first. Qed.
Print Assumptions C97_labels.

(** They are right for all instances if the labels have the same values in all the
    types. *)
Theorem C97_agree : forall E cur l st st' i c sel ty, EvaluateInstances E cur l st = inr st' -> In i l -> st (i_template i) = fresh_choice c -> ch_selector c = MName sel ->
  (forall j, In j l -> i_template j = i_template i -> selects E j sel (ty j)) ->
  (forall j n z labels, In j l -> i_template j = i_template i -> In labels (ch_labels c) -> In (MName n) labels -> item_value E (i_package j) (ty j) n z -> item_value E (i_package i) (ty i) n z) ->
  exists zss, labels_of (st' (i_template i)) = Some (map (map Some) zss) /\
    Forall2 (Forall2 (fun label z => forall n, label = MName n -> item_value E (i_package i) (ty i) n z)) (ch_labels c) zss.
Proof. exact labels_agree. Qed.
Print Assumptions C97_agree.

(** The other expressions of all instances, of structs too, are the results of the
    evaluation in the instance that comes first. *)
Theorem C97_expressions : forall E cur l st st' i es, EvaluateInstances E cur l st = inr st' -> In i l -> t_exprs (st (i_template i)) = map Todo es ->
  exists i0 cur0, first_instance l i i0 /\ cur0 (p_name (i_package i0)) = Some (i_name i0) /\
    Forall2 (fun e oa => exists a s, evaluate_member E cur0 (i_package i0) e = MOk a s /\ oa = Some a) es (printed (st' (i_template i))).
Proof. exact printed_of_first. Qed.
Print Assumptions C97_expressions.

(** Errors are those of first instances. *)
Theorem C97_errors : forall E l cur st x, EvaluateInstances E cur l st = inl x ->
  exists i cur0, In i l /\ first_instance l i i /\ EvaluateInstance E (enter (p_name (i_package i)) (i_name i) cur0) (i_package i) (st (i_template i)) = inl x.
Proof. exact first_fails. Qed.
Print Assumptions C97_errors.

(** ** Examples

    package a;
    enum uint8 E1 { A, B };  enum uint8 E2 { B, A };  enum uint8 E3 { A };  enum uint8 E4 { A, C, B = 1 };
    choice Pick<T>(T kind) on kind { case A: uint8 x; case B: uint16 y; };
    struct Sum<T> { T first; uint8 second; uint8 data[first + second]; }; *)
Definition u8 : tyref := mkTR true "" "uint8" 0.
Definition u32 : tyref := mkTR true "" "uint32" 0.
Definition of (n : string) : tyref := mkTR false "a" n 0.
Definition types_a : list (string * sym) := [
  ("E1", SyEnum 0); ("E2", SyEnum 1); ("E3", SyEnum 2); ("E4", SyEnum 3);
  ("PickE1", SyChoice 0); ("PickE2", SyChoice 1); ("PickE3", SyChoice 2); ("PickE4", SyChoice 3); ("SumUint8", SyStruct 0); ("SumUint32", SyStruct 1)]%string.
Definition pa : package := mkP "a" [] types_a None [("A", SyEnumItem 0); ("B", SyEnumItem 1); ("C", SyEnumItem 2)]%string [].
Definition int_res (z : Z) : result := mkRes TyInt z f64_zero "" false None true.
Definition members0 (pkg c : string) : option (list (string * sym)) :=
  get c [("PickE1", [("kind", SyParameter (of "E1"))]); ("PickE2", [("kind", SyParameter (of "E2"))]);
         ("PickE3", [("kind", SyParameter (of "E3"))]); ("PickE4", [("kind", SyParameter (of "E4"))]);
         ("SumUint8", [("first", SyField u8 false); ("second", SyField u8 false); ("data", SyField u8 true)]);
         ("SumUint32", [("first", SyField u32 false); ("second", SyField u8 false); ("data", SyField u8 true)])]%string.
Definition E0 : menv := mkME [pa] 1 (fun _ _ => int_res 0) (fun i => int_res (Z.of_nat i))
  (fun i => match i with
            | 0%nat => [("A", int_res 0); ("B", int_res 1)]
            | 1%nat => [("B", int_res 0); ("A", int_res 1)]
            | 2%nat => [("A", int_res 0)]
            | _ => [("A", int_res 0); ("C", int_res 1); ("B", int_res 1)]
            end%string)
  (fun _ => []) (fun _ => u8) members0 (fun _ => MNum 0) (fun _ => u8) (fun _ => TyInt) (fun n => n).

Definition pick : choice := mkCh (MName "kind") [[MName "A"]; [MName "B"]] [].
Definition sum : list mexpr := [MArith Plus (MName "first") (MName "second")].
Definition templates : store := fun k => match k with O => fresh_choice pick | _ => fresh_struct sum end.
Definition of_pick (n : string) : instance := mkI pa n 0.
Definition of_sum (n : string) : instance := mkI pa n 1.

Definition labels_in (r : status + store) (k : nat) : option (list (list (option Z))) := match r with inr st => labels_of (st k) | inl _ => None end.

Lemma searchable_a : searchable E0 pa.
Proof.
  assert (R : forall q r, reach [pa] q r -> q = pa -> r = pa).
  { intros q r H ->. induction H as [|r x H IH He]; [reflexivity|]. subst r. destruct He. }
  split; [|split; [now left|split; [|cbn; lia]]].
  - split; [repeat constructor; intros []|cbn; intuition discriminate].
  - intros q Hq (r & Hr & He). rewrite (R pa q Hq eq_refl) in *. rewrite (R pa r Hr eq_refl) in He. destruct He.
Qed.
Lemma selects_a : forall n t i, In (n, t, i) [("PickE1", "E1", 0%nat); ("PickE2", "E2", 1%nat); ("PickE3", "E3", 2%nat); ("PickE4", "E4", 3%nat)]%string ->
  selects E0 (of_pick n) "kind" (of t) /\ means (me_world E0) pa (of t) 0 (Declared (SyEnum i)).
Proof.
  intros n t i H. assert (M : means (me_world E0) pa (of t) 0 (Declared (SyEnum i))).
  { destruct H as [H|[H|[H|[H|[]]]]]; injection H as <- <- <-;
      (eapply means_declared; [reflexivity|apply reach_self|reflexivity|reflexivity|exact I]). }
  split; [|exact M]. split; [exact searchable_a|].
  destruct H as [H|[H|[H|[H|[]]]]]; injection H as <- <- <-;
    (split; [eexists; split; reflexivity|]; split; [split; [reflexivity|intros q []]|]; split; [eexists _, _; exact M|]; eexists pa, _; split; [left; split; reflexivity|reflexivity]).
Qed.

Example C97_applies : selects E0 (of_pick "PickE1") "kind" (of "E1") /\ selects E0 (of_pick "PickE4") "kind" (of "E4") /\
  (forall n z, In n ["A"; "B"]%string -> item_value E0 pa (of "E1") n z -> item_value E0 pa (of "E4") n z) /\
  labels_in (EvaluateInstances E0 nowhere [of_pick "PickE1"; of_sum "SumUint8"; of_pick "PickE4"] templates) 0 = Some [[Some 0]; [Some 1]].
Proof.
  destruct (selects_a "PickE1" "E1" 0 ltac:(cbn; tauto)) as [S1 M1]. destruct (selects_a "PickE4" "E4" 3 ltac:(cbn; tauto)) as [S4 M4].
  split; [exact S1|]. split; [exact S4|]. split.
  - intros n z Hn (k & i & r & [(M & G)|(M & G)] & ->); pose proof (means_unique _ _ _ _ _ (proj1 searchable_a) (proj1 (proj2 searchable_a)) M1 _ _ M) as X; try discriminate X. injection X as ->.
    exists 0%nat, 3%nat, r. split; [left; split; [exact M4|]|reflexivity]. cbn in Hn. destruct Hn as [<-|[<-|[]]]; cbn in *; congruence.
  - vm_compute. reflexivity.
Qed.

(** With E1 and E2, which number their items differently, the labels of PickE2 are
    those of E1 or of E2, depending on the order; with E3, which has no B, the
    schema is accepted or rejected. *)
Theorem C97_order_refuted :
  (exists E l l' st k, Permutation l l' /\ labels_in (EvaluateInstances E nowhere l st) k <> labels_in (EvaluateInstances E nowhere l' st) k /\
    labels_in (EvaluateInstances E nowhere l st) k <> None /\ labels_in (EvaluateInstances E nowhere l' st) k <> None) /\
  (exists E l l' st st', Permutation l l' /\ EvaluateInstances E nowhere l st = inr st' /\ EvaluateInstances E nowhere l' st = inl SErr).
Proof.
  split.
  - exists E0, [of_pick "PickE1"; of_pick "PickE2"], [of_pick "PickE2"; of_pick "PickE1"], templates, 0%nat. split; [apply perm_swap|]. repeat split; vm_compute; discriminate.
  - exists E0, [of_pick "PickE1"; of_pick "PickE3"], [of_pick "PickE3"; of_pick "PickE1"], templates. eexists. split; [apply perm_swap|]. split; [vm_compute; reflexivity|vm_compute; reflexivity].
Qed.
Print Assumptions C97_order_refuted.

(** In SumUint32, first + second is printed as for SumUint8, without the cast it
    needs: Go rejects it.  Alone, SumUint32 is fine. *)
Definition D32 : genv := mkG (fun _ => None) (fun _ => None)
  (fun g => match g with
            | GSelect (GName _) n => if (n =? "First")%string then Some "uint32"%string else if (n =? "Second")%string then Some "uint8"%string else None
            | _ => None
            end) (fun _ => None).
Definition text_in (r : status + store) (k : nat) : option (list tok) :=
  match r with inr st => match printed (st k) with Some a :: _ => print a | _ => None end | inl _ => None end.

Theorem C97_compiles_refuted : exists E i j st ts ts' t t' D, i_template i = i_template j /\
  text_in (EvaluateInstances E nowhere [i; j] st) (i_template j) = Some ts /\ text_in (EvaluateInstances E nowhere [j] st) (i_template j) = Some ts' /\
  go_expression ts t /\ go_expression ts' t' /\ check D t = None /\ check D t' <> None.
Proof.
  exists E0, (of_sum "SumUint8"), (of_sum "SumUint32"), templates. eexists _, _, (GBin Add (GSelect (GName "v") "First") (GSelect (GName "v") "Second")),
    (GBin Add (GSelect (GName "v") "First") (GCall (GName "uint32") (GSelect (GName "v") "Second"))), D32.
  split; [reflexivity|]. split; [vm_compute; reflexivity|]. split; [vm_compute; reflexivity|].
  assert (S : forall n x, (n <= 7)%nat -> parses n [TName "v"; TDot; TName x] (GSelect (GName "v") x)) by (intros n x Hn; apply (P_select n [TName "v"%string]); [assumption|apply P_name; lia]).
  split; [|split; [|split]].
  - apply (P_bin 1 Add [TName "v"; TDot; TName "First"]%string [TName "v"; TDot; TName "Second"]%string); [cbn; lia|apply S; cbn; lia|apply S; cbn; lia].
  - apply (P_bin 1 Add [TName "v"; TDot; TName "First"]%string [TName "uint32"; TLeft; TName "v"; TDot; TName "Second"; TRight]%string); [cbn; lia|apply S; cbn; lia|].
    apply (P_call _ [TName "uint32"]%string [TName "v"; TDot; TName "Second"]%string); [cbn; lia|apply P_name; lia|apply S; lia].
  - reflexivity.
  - discriminate.
Qed.
Print Assumptions C97_compiles_refuted.
