(** Properties of the names in generated code. *)

Require Import ZArith String Ascii List Bool Arith Lia.
From Verif Require Import Packages PackagesSpec PackagesFacts Members Resolve ResolveSpec Names NamesSpec NamesFacts.
Import ListNotations.
Open Scope string_scope.

(** ** C95 *)

(** The text for a type is the name under which it is declared, except for structs,
    choices and subtypes that start with a lower case letter. *)
Theorem C95_reference : forall d p, p <> "" -> PackageGoType p (mkTR false p (schema_name d) 0) = Some (go_name d) <->
  match d with DSubtype n | DStruct n _ _ _ | DChoice n _ _ => title n = n | _ => True end.
Proof. exact reference_iff. Qed.
Print Assumptions C95_reference.

(** The type of a field is looked up with an upper case letter: if there is no such
    name, it is not found, whatever its declaration. *)
Theorem C95_lost : forall f w p q t, distinct w -> In p w -> acyclic w p -> (length w <= f)%nat -> tr_builtin t = false ->
  reach w p q -> p_name q = tr_package t -> unknown_name w q (title (tr_name t)) -> GetOriginalType f w p (capitalised t) = Unknown.
Proof. exact lost_type. Qed.
Print Assumptions C95_lost.

(** If there is another type of that name, the field has that type. *)
Theorem C95_other : forall f w p q t s, distinct w -> In p w -> acyclic w p -> (length w <= f)%nat -> tr_builtin t = false ->
  reach w p q -> p_name q = tr_package t -> declares q (title (tr_name t)) s ->
  match s with SyEnum _ | SyUnion _ | SyBitmask _ | SyChoice _ | SyStruct _ => True | _ => False end ->
  GetOriginalType f w p (capitalised t) = Found (mkO (capitalised t) false true) /\ GetSymbol f w q (tr_name (capitalised t)) = Found (p_name q, s).
Proof. exact other_type. Qed.
Print Assumptions C95_other.

(** Package "p" with the struct "point"; package "q" with "point" and "Point". *)
Definition pp := mkP "p" [] [("point", SyStruct 0)] None [] [].
Definition pq := mkP "q" [] [("point", SyStruct 0); ("Point", SyStruct 1)] None [] [].
Definition point (m : string) := mkTR false m "point" 0.

Lemma example_alone : forall p, p_imported p = [] -> acyclic [pp; pq] p.
Proof.
  intros p Hi q Hq (r & Hr & He). assert (Hp : forall x, reach [pp; pq] p x -> x = p).
  { intros x Hx. induction Hx as [|y z Hy IH Hz]; [reflexivity|]. subst y. unfold edge, imported in Hz. rewrite Hi in Hz. destruct Hz. }
  apply Hp in Hq. subst q. apply Hp in Hr. subst r. unfold edge, imported in He. rewrite Hi in He. destruct He.
Qed.
Lemma example_distinct : distinct [pp; pq].
Proof. split; [repeat constructor; cbn; intuition discriminate|cbn; intuition discriminate]. Qed.

Example C95_applies :
  distinct [pp; pq] /\ acyclic [pp; pq] pp /\ acyclic [pp; pq] pq /\
  unknown_name [pp; pq] pp (title "point") /\ declares pq (title "point") (SyStruct 1) /\
  GetOriginalType 2 [pp; pq] pp (point "p") = Found (mkO (point "p") false true) /\
  GetOriginalType 2 [pp; pq] pp (capitalised (point "p")) = Unknown /\
  GetSymbol 2 [pp; pq] pq "point" = Found ("q", SyStruct 0) /\
  GetSymbol 2 [pp; pq] pq (tr_name (capitalised (point "q"))) = Found ("q", SyStruct 1).
Proof.
  split; [exact example_distinct|]. split; [now apply example_alone|]. split; [now apply example_alone|]. split.
  - split; [split; [reflexivity|split; [intros q []|split; [intros fs H; discriminate H|intros q []]]]|].
    intros r s Hr. assert (r = pp); [|subst r; unfold has_item; discriminate].
    induction Hr as [|y z Hy IH Hz]; [reflexivity|]. subst y. destruct Hz.
  - now repeat split.
Qed.

(** A field of a declared type that resolves, and is unknown when the code is
    generated. *)
Theorem C95_accepted_refuted : exists w p t t', In p w /\ resolveTypeReference w p t = Some t' /\
  (exists o, GetOriginalType (length w) w p t' = Found o) /\ GetOriginalType (length w) w p (capitalised t') = Unknown.
Proof.
  exists [pp; pq], pp, (point ""), (point "p"). split; [now left|]. split; [reflexivity|]. split; [now eexists|reflexivity].
Qed.
Print Assumptions C95_accepted_refuted.

(** ** C96 *)

(** The identifiers of an enum are different exactly if its items are different
    without underscores, and none is called like one of the functions. *)
Theorem C96_enum : forall n items, starts_with_letter n -> NoDup (identifiers (DEnum n items)) <->
  NoDup (map item_name items) /\ (forall i, In i items -> ~ In (item_name i) [""; "Values"; "Strings"; "String"]).
Proof. exact enum_iff. Qed.
Print Assumptions C96_enum.

(** Items that are words of letters, and not the same up to case, are different. *)
Theorem C96_items : forall a b, word a -> word b -> item_name a = item_name b -> same_letters a b.
Proof. exact items_distinct. Qed.
Print Assumptions C96_items.

Theorem C96_union : forall n ps fs gs, starts_with_letter n -> NoDup (identifiers (DUnion n ps fs gs)) <->
  NoDup (map title fs) /\ ~ In "Undefined" (map title fs).
Proof. exact union_iff. Qed.
Print Assumptions C96_union.

Theorem C96_bitmask : forall n vs, starts_with_letter n -> NoDup (identifiers (DBitmask n vs)) <-> NoDup (map title vs) /\ ~ In "" vs.
Proof. exact bitmask_iff. Qed.
Print Assumptions C96_bitmask.

(** Identifiers of different declarations are different if no name is the beginning
    of another one. *)
Theorem C96_package : forall ds, (forall d, In d ds -> starts_with_letter (schema_name d) /\ NoDup (identifiers d)) ->
  ForallOrdPairs (fun a b => apart (go_name a) (go_name b)) ds -> NoDup (flat_map identifiers ds).
Proof. exact package_distinct. Qed.
Print Assumptions C96_package.

(** The fields and methods of a generated type are different exactly if the names of
    the members are, up to the case of the first letter, and none is the name of
    a generated method. *)
Theorem C96_struct_members : forall n ps fs gs, NoDup (members (DStruct n ps fs gs)) <->
  NoDup (map title (ps ++ fs ++ gs)) /\ forall x, In x (ps ++ fs ++ gs)%list -> ~ In (title x) methods.
Proof. exact struct_members. Qed.
Print Assumptions C96_struct_members.
Theorem C96_choice_members : forall n ps fs, NoDup (members (DChoice n ps fs)) <->
  NoDup (map title (ps ++ fs)) /\ forall x, In x (ps ++ fs)%list -> ~ In (title x) methods.
Proof. exact choice_members. Qed.
Print Assumptions C96_choice_members.
Theorem C96_union_members : forall n ps fs gs, NoDup (members (DUnion n ps fs gs)) <->
  NoDup (map title (ps ++ fs ++ gs)) /\ forall x, In x (ps ++ fs ++ gs)%list -> ~ In (title x) ("UnionChoice" :: methods).
Proof. exact union_members. Qed.
Print Assumptions C96_union_members.

Lemma example_nodup : forall l, nodup string_dec l = l -> NoDup l.
Proof. intros l H. rewrite <- H. apply NoDup_nodup. Qed.
Definition example := [DEnum "colour" ["LIGHT_RED"; "red"]; DStruct "Shape" ["kind"] ["size"; "items"] ["area"]; DUnion "Value" [] ["number"; "text"] []; DBitmask "Flags" ["a"; "B"]].
Example C96_applies :
  (forall d, In d example -> starts_with_letter (schema_name d) /\ NoDup (identifiers d)) /\
  ForallOrdPairs (fun a b => apart (go_name a) (go_name b)) example /\
  word "LIGHT_RED" /\
  identifiers (DEnum "colour" ["LIGHT_RED"; "red"]) =
    ["Colour"; "ColourLightRed"; "ColourRed"; "ColourValues"; "ColourStrings"; "ColourString"; "_ColourNames"; "_ColourValues"; "_ColourName"; "_ColourNameToValue"] /\
  NoDup (members (DStruct "Shape" ["kind"] ["size"; "items"] ["area"])).
Proof.
  split; [|split; [|split; [|split]]].
  - intros d Hd. cbn in Hd. repeat destruct Hd as [<-|Hd]; try destruct Hd; (split; [unfold starts_with_letter, letter; cbn; lia|]); apply example_nodup; vm_compute; reflexivity.
  - repeat constructor; intro E; discriminate E.
  - do 4 (apply MoreLetters; [unfold letter; cbn; lia|]). apply Underscore; [unfold letter; cbn; lia|].
    do 2 (apply MoreLetters; [unfold letter; cbn; lia|]). apply LastLetter. unfold letter. cbn. lia.
  - reflexivity.
  - apply example_nodup. vm_compute. reflexivity.
Qed.

(** Declarations with different names, even up to case, can lead to the same Go
    identifier: two declarations, two items, an item and a function, a field of a
    union and "no field". *)
Theorem C96_names_refuted :
  (exists a b x, lowered (schema_name a) <> lowered (schema_name b) /\ In x (identifiers a) /\ In x (identifiers b)) /\
  (exists i j, ~ same_letters i j /\ item_name i = item_name j) /\
  (exists n i, ~ NoDup (identifiers (DEnum n [i]))) /\
  (exists n f, ~ NoDup (identifiers (DUnion n [] [f] []))).
Proof.
  split; [|split; [|split]].
  - exists (DEnum "Foo" []), (DStruct "FooValues" [] [] []), "FooValues". split; [discriminate|]. split; cbn; tauto.
  - exists "A_1", "A1". split; [discriminate|reflexivity].
  - exists "Foo", "VALUES". intro H. apply (proj1 (enum_iff "Foo" ["VALUES"] ltac:(unfold starts_with_letter, letter; cbn; lia))) in H as [_ H].
    apply (H "VALUES"); [now left|]. right. now left.
  - exists "Foo", "undefined". intro H. apply (proj1 (union_iff "Foo" [] ["undefined"] [] ltac:(unfold starts_with_letter, letter; cbn; lia))) in H as [_ H].
    apply H. now left.
Qed.
Print Assumptions C96_names_refuted.
