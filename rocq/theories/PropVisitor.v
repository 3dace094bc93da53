(** C85 to C88: reading schema files. *)

Require Import ZArith String Ascii List Bool Lia.
From Verif Require Literals LiteralsSpec.
From Verif Require Import Packages PackagesSpec Visitor VisitorSpec VisitorWords VisitorFacts VisitorWordsFacts.
Import ListNotations.
Open Scope string_scope.
Open Scope list_scope.

(** A file:
      package a.b;
      import x.y.*; import x.z.Thing;
      const uint8 SIZE = 4;
      subtype bit:8 Byte;
      struct Point(bool wide) {
        align(32): optional int32 x = 1 if wide : x > 0;
        packed Byte data[SIZE];
        function bool far() { return x >> 2 > 5 ? wide : false; }
      };
      choice Value(uint8 kind) on kind { case 1: case 2: x.y.Kind k; default: ; };
      union Either { string s : s != ""; bit<SIZE> b; };
      enum uint8 Color { RED, deprecated GREEN = 7 };
      struct Point { bool b; };                                          *)
Definition ex_lit (t : string) : cexpr := CLiteral Literals.TDecimal t.
Definition ex_plain (t : ctype) : cinst := mkCI t CNone.
Definition ex_x : cfield :=
  mkCF (Some (ex_lit "32")) None false true (mkCFT false false (ex_plain (CKeyword "int32")) "x" None)
    (Some (ex_lit "1")) (Some (CId "wide")) (Some (CBinary BGt (CId "x") (ex_lit "0"))).
Definition ex_data : cfield :=
  mkCF None None false false (mkCFT true false (ex_plain (CNamed ["Byte"] [])) "data" (Some (Some (CId "SIZE")))) None None None.
Definition ex_point : cstruct :=
  mkCS "Point" [] [(CKeyword "bool", "wide")] [ex_x; ex_data]
    [mkCFn (CKeyword "bool") "far" (CTernary (CBinary BGt (CBinary BShr (CId "x") (ex_lit "2")) (ex_lit "5")) (CId "wide") (CLiteral Literals.TBool "false"))].
Definition ex_value : cchoice :=
  mkCC "Value" [] [(CKeyword "uint8", "kind")] (CId "kind")
    [([ex_lit "1"; ex_lit "2"], Some (mkCCF (mkCFT false false (ex_plain (CNamed ["x"; "y"; "Kind"] [])) "k" None) None))] (Some None) [].
Definition ex_either : cunion :=
  mkCU "Either" [] []
    [mkCCF (mkCFT false false (ex_plain (CKeyword "string")) "s" None) (Some (CBinary BNe (CId "s") (CLiteral Literals.TString """""")));
     mkCCF (mkCFT false false (mkCI (CBitField false None) (CLength (CId "SIZE"))) "b" None) None] [].
Definition ex_color : cenum := mkCE (ex_plain (CKeyword "uint8")) "Color" [(None, "RED", None); (Some Deprecated, "GREEN", Some (ex_lit "7"))].
Definition ex_point2 : cstruct := mkCS "Point" [] [] [mkCF None None false false (mkCFT false false (ex_plain (CKeyword "bool")) "b" None) None None None] [].
Definition ex_imports : list cimport := [mkCIm ["x"; "y"] None; mkCIm ["x"; "z"] (Some "Thing")].
Definition ex_file : cfile :=
  mkCFile None (Some ["a"; "b"]) ex_imports
    [CConst (ex_plain (CKeyword "uint8")) "SIZE" (ex_lit "4"); CSubtype (CBitField false (Some 8%nat)) "Byte";
     CStruct ex_point; CChoice ex_value; CUnion ex_either; CEnum ex_color; CStruct ex_point2].

(** ** C85: imports *)

(** The imports of a file are read in their order.  An import of a whole package is
    read as such; of an import of a single type the name of the type is lost: "." is
    read in its place. *)
Theorem C85_imports : forall f v, visit_file f = Some v ->
  vp_imports v = map visit_import (cfl_imports f) /\ exists ids, cfl_package f = Some ids /\ vp_name v = dotted_name ids.
Proof. intros f v H. destruct (file_head f v H) as (H1 & ids & H2 & H3). rewrite join_dotted in H3. eauto. Qed.
Print Assumptions C85_imports.
Theorem C85_import : forall names symbol, names <> [] ->
  visit_import (mkCIm names symbol) = mkI (dotted_name names) (match symbol with None => "*" | Some _ => "." end).
Proof.
  intros names [n|] H; rewrite <- join_dotted; [now apply import_single|now apply import_whole].
Qed.
Print Assumptions C85_import.

(** So a type of another package can be named without its package exactly if it is
    declared in a package that is imported as a whole. *)
Theorem C85_reference : forall f v w p n bits, visit_file f = Some v -> p_imports p = vp_imports v ->
  distinct w -> In p w -> ident n -> undeclared p n -> Forall (fun i => cim_names i <> []) (cfl_imports f) ->
  (forall i, In i (p_imports p) -> exists q, In q w /\ p_name q = i_package i) ->
  ((exists t', resolveTypeReference w p (mkTR false "" n bits) = Some t') <->
   exists i q s, In i (cfl_imports f) /\ cim_symbol i = None /\ In q w /\ p_name q = dotted_name (cim_names i) /\ declares q n s).
Proof.
  intros f v w p n bits Hv Hp Hd Hin Hid Hu Hne Hk. destruct (file_head f v Hv) as (H1 & _). rewrite H1 in Hp.
  rewrite (imported_reference w p (cfl_imports f) n bits Hd Hin Hid Hu Hp Hne Hk).
  split; intros (i & q & s & A & B & C & D & E); exists i, q, s; repeat split; auto; [rewrite <- join_dotted|rewrite join_dotted]; assumption.
Qed.
Print Assumptions C85_reference.

(** Thing is declared in x.z and imported by its name, but cannot be named. *)
Example C85_applies :
  map visit_import ex_imports = [mkI "x.y" "*"; mkI "x.z" "."] /\
  let none := mkD [] [] [] [] [] [] [] [] in
  let thing n k := CollectSymbols n [] (mkD [] [] [] [(k, 0%nat)] [] [] [] []) in
  let p := CollectSymbols "a.b" (map visit_import ex_imports) none in
  let w := [p; thing "x.y" "Kind"; thing "x.z" "Thing"] in
  distinct w /\ (forall i, In i (p_imports p) -> exists q, In q w /\ p_name q = i_package i) /\ ident "Thing" /\
  resolveTypeReference w p (mkTR false "" "Kind" 0) = Some (mkTR false "x.y" "Kind" 0) /\
  resolveTypeReference w p (mkTR false "" "Thing" 0) = None.
Proof.
  split; [reflexivity|]. cbv zeta. split; [|split; [|split; [|split; reflexivity]]].
  - split; [|cbn; intuition discriminate]. cbn. repeat constructor; cbn; intuition discriminate.
  - intros i Hi. cbn in Hi. destruct Hi as [<-|[<-|[]]].
    + eexists. split; [right; left; reflexivity|reflexivity].
    + eexists. split; [right; right; left; reflexivity|reflexivity].
  - split; [discriminate|reflexivity].
Qed.

(** ** C86: nothing else is lost or changed *)

(** Read off the syntax tree of a declaration, the words are those of the file, but
    for the ones that VisitorSpec.v lists as dropped. *)
Theorem C86_words :
  (forall e, show_expr (visit_expr e) = expr_words e) /\
  (forall s x, proper_struct s -> visit_struct s = Some x -> show_struct x = struct_words (strip_struct s)) /\
  (forall u x, proper_union u -> visit_union u = Some x -> show_union x = union_words (strip_union u)) /\
  (forall c x, proper_choice c -> visit_choice c = Some x -> show_choice x = choice_words (strip_choice c)) /\
  (forall e, proper_inst (ce_type e) -> show_enum (visit_enum e) = enum_words (strip_enum e)) /\
  (forall b, proper_inst (cb_type b) -> show_bitmask (visit_bitmask b) = bitmask_words (strip_bitmask b)) /\
  (forall t n e, proper_inst t -> show_const (visit_const t n e) = const_words (strip_inst t) n e) /\
  (forall t, proper_type t -> show_ref (visit_type t) = type_words (strip_type t)).
Proof.
  exact (conj expr_shown (conj struct_shown (conj union_shown (conj choice_shown (conj enum_shown (conj bitmask_shown (conj const_shown type_shown))))))).
Qed.
Print Assumptions C86_words.

(** Two declarations have the same syntax tree exactly if they differ in nothing but
    that. *)
Theorem C86_same :
  (forall a b, visit_expr a = visit_expr b <-> a = b) /\
  (forall a b x y, proper_struct a -> proper_struct b -> visit_struct a = Some x -> visit_struct b = Some y -> (x = y <-> strip_struct a = strip_struct b)) /\
  (forall a b x y, proper_union a -> proper_union b -> visit_union a = Some x -> visit_union b = Some y -> (x = y <-> strip_union a = strip_union b)) /\
  (forall a b x y, proper_choice a -> proper_choice b -> visit_choice a = Some x -> visit_choice b = Some y -> (x = y <-> strip_choice a = strip_choice b)) /\
  (forall a b, proper_inst (ce_type a) -> proper_inst (ce_type b) -> (visit_enum a = visit_enum b <-> strip_enum a = strip_enum b)) /\
  (forall a b, proper_inst (cb_type a) -> proper_inst (cb_type b) -> (visit_bitmask a = visit_bitmask b <-> strip_bitmask a = strip_bitmask b)) /\
  (forall a b, proper_type a -> proper_type b -> (visit_type a = visit_type b <-> strip_type a = strip_type b)).
Proof. exact same_trees. Qed.
Print Assumptions C86_same.

(** What is dropped changes nothing, in no file. *)
Theorem C86_dropped : forall f, visit_file (strip_file f) = visit_file f.
Proof. exact file_same. Qed.
Print Assumptions C86_dropped.

Example C86_applies :
  proper_struct ex_point /\ proper_choice ex_value /\ proper_union ex_either /\
  (exists v, visit_struct ex_point = Some v /\ show_struct v =
    ["struct"; "Point"; "("; "bool"; "wide"; ")"; "{"; "align"; "("; "32"; ")"; ":"; "optional"; "int32"; "x"; "="; "1"; "if"; "wide"; ":"; "x"; ">"; "0"; ";";
     "packed"; "Byte"; "data"; "["; "SIZE"; "]"; ";";
     "function"; "bool"; "far"; "("; ")"; "{"; "return"; "x"; ">"; ">"; "2"; ">"; "5"; "?"; "wide"; ":"; "false"; ";"; "}"; "}"; ";"]) /\
  (exists v, visit_choice ex_value = Some v /\ show_choice v =
    ["choice"; "Value"; "("; "uint8"; "kind"; ")"; "on"; "kind"; "{"; "case"; "1"; ":"; "case"; "2"; ":"; "x.y.Kind"; "k"; ";"; "default"; ":"; ";"; "}"; ";"]).
Proof.
  assert (A : proper_align (Some (ex_lit "32"))) by (intros t H; injection H as <-; exists 32%Z; apply (small_literal 32); lia).
  assert (N : proper_align None) by (intros t H; discriminate H).
  assert (P : forall k, In k keywords -> proper_inst (ex_plain (CKeyword k))) by (intros k Hk; split; [exact Hk|discriminate]).
  split; [|split; [|split; [|split]]].
  - split; [|split].
    + constructor; [|constructor]. cbn. tauto.
    + constructor; [split; [apply P; cbn; tauto|exact A]|constructor; [split; [|exact N]|constructor]].
      split; [|discriminate]. split; [discriminate|]. split; [|exact I]. constructor; [|constructor]. split; [discriminate|reflexivity].
    + constructor; [|constructor]. cbn. tauto.
  - split; [|split; [|split; [exact I|constructor]]].
    + constructor; [|constructor]. cbn. tauto.
    + constructor; [|constructor]. split; [|discriminate]. split; [discriminate|]. split; [|exact I]. repeat constructor; discriminate.
  - split; [constructor|split; [|constructor]]. constructor; [apply P; cbn; tauto|constructor; [|constructor]]. split; [exact I|discriminate].
  - eexists. split; [reflexivity|vm_compute; reflexivity].
  - eexists. split; [reflexivity|vm_compute; reflexivity].
Qed.

(** Constraints of the fields of choices and unions are dropped, and so are offsets:
    files that say different things are read as the same. *)
Theorem C86_constraint_refuted : exists a b, proper_union a /\ proper_union b /\ union_words a <> union_words b /\ visit_union a = visit_union b.
Proof.
  exists ex_either, (strip_union ex_either). split; [|split; [|split; [discriminate|reflexivity]]]; split; try constructor; try constructor; cbn; auto;
    try (split; [cbn; tauto|discriminate]); try (constructor; [split; [exact I|discriminate]|constructor]); constructor.
Qed.
Print Assumptions C86_constraint_refuted.
Theorem C86_offset_refuted : exists a b, proper_field a /\ proper_field b /\ field_words a <> field_words b /\ visit_field a = visit_field b.
Proof.
  exists (mkCF None (Some (CId "o")) false false (mkCFT false false (ex_plain (CKeyword "bool")) "b" None) None None None),
         (mkCF None None false false (mkCFT false false (ex_plain (CKeyword "bool")) "b" None) None None None).
  repeat split; try discriminate; cbn; tauto.
Qed.
Print Assumptions C86_offset_refuted.

(** ** C87: declarations with the same name *)

(** Of the declarations of a kind that have the same name the last one is kept; the
    others are dropped without an error. *)
Theorem C87_last : forall f v n, visit_file f = Some v ->
  (forall x, last_such pick_struct cs_name n (cfl_directives f) x -> get n (vp_structs v) = visit_struct x) /\
  (forall x, last_such pick_choice cc_name n (cfl_directives f) x -> get n (vp_choices v) = visit_choice x) /\
  (forall x, last_such pick_union cu_name n (cfl_directives f) x -> get n (vp_unions v) = visit_union x) /\
  (forall x, last_such pick_enum ce_name n (cfl_directives f) x -> get n (vp_enums v) = Some (visit_enum x)) /\
  (forall x, last_such pick_bitmask cb_name n (cfl_directives f) x -> get n (vp_bitmasks v) = Some (visit_bitmask x)) /\
  (forall t e m, last_such pick_const (fun x => snd (fst x)) n (cfl_directives f) (t, m, e) -> get n (vp_consts v) = Some (visit_const t m e)) /\
  (forall t m, last_such pick_subtype snd n (cfl_directives f) (t, m) -> get n (vp_subtypes v) = Some (visit_type t)) /\
  (forall t m, last_such pick_instantiate snd n (cfl_directives f) (t, m) -> get n (vp_instantiated v) = Some (visit_type t)).
Proof.
  intros f v n H. exact (conj (proj2 (file_structs f v n H)) (conj (proj2 (file_choices f v n H)) (conj (proj2 (file_unions f v n H))
    (conj (proj2 (file_enums f v n H)) (conj (proj2 (file_bitmasks f v n H)) (conj (proj2 (file_consts f v n H))
    (conj (proj2 (file_subtypes f v n H)) (proj2 (file_instantiated f v n H))))))))).
Qed.
Print Assumptions C87_last.

(** And a name that is not declared is not in the model. *)
Theorem C87_none : forall f v n, visit_file f = Some v ->
  (no_such pick_struct cs_name n (cfl_directives f) -> get n (vp_structs v) = None) /\
  (no_such pick_choice cc_name n (cfl_directives f) -> get n (vp_choices v) = None) /\
  (no_such pick_union cu_name n (cfl_directives f) -> get n (vp_unions v) = None) /\
  (no_such pick_enum ce_name n (cfl_directives f) -> get n (vp_enums v) = None) /\
  (no_such pick_bitmask cb_name n (cfl_directives f) -> get n (vp_bitmasks v) = None) /\
  (no_such pick_const (fun x => snd (fst x)) n (cfl_directives f) -> get n (vp_consts v) = None) /\
  (no_such pick_subtype snd n (cfl_directives f) -> get n (vp_subtypes v) = None) /\
  (no_such pick_instantiate snd n (cfl_directives f) -> get n (vp_instantiated v) = None).
Proof.
  intros f v n H. exact (conj (proj1 (file_structs f v n H)) (conj (proj1 (file_choices f v n H)) (conj (proj1 (file_unions f v n H))
    (conj (proj1 (file_enums f v n H)) (conj (proj1 (file_bitmasks f v n H)) (conj (proj1 (file_consts f v n H))
    (conj (proj1 (file_subtypes f v n H)) (proj1 (file_instantiated f v n H))))))))).
Qed.
Print Assumptions C87_none.

(** The second Point of the file counts; Byte is a uint8. *)
Definition ex_model : pkg := match visit_file ex_file with Some v => v | None => mkPkg "" [] [] [] [] [] [] [] [] [] end.
Example C87_applies : let v := ex_model in visit_file ex_file = Some v /\
  last_such pick_struct cs_name "Point" (cfl_directives ex_file) ex_point2 /\
  get "Point" (vp_structs v) = visit_struct ex_point2 /\ visit_struct ex_point2 <> visit_struct ex_point /\
  get "Byte" (vp_subtypes v) = Some (TRef true "" "uint8" 0 []) /\ get "SIZE" (vp_structs v) = None.
Proof.
  cbv zeta. split; [vm_compute; reflexivity|]. split; [|split; [vm_compute; reflexivity|split; [vm_compute; discriminate|split; vm_compute; reflexivity]]].
  exists [CConst (ex_plain (CKeyword "uint8")) "SIZE" (ex_lit "4"); CSubtype (CBitField false (Some 8%nat)) "Byte";
     CStruct ex_point; CChoice ex_value; CUnion ex_either; CEnum ex_color], (CStruct ex_point2), [].
  split; [reflexivity|]. split; [reflexivity|]. split; [reflexivity|]. intros d y [].
Qed.

(** ** C88: files that crash the generator *)

(** A file without syntax errors is read, or it crashes the generator: without a
    package name, with an alignment that is not a decimal literal up to 255, or with
    an implicit array. *)
Theorem C88_crash : forall f, Forall proper_aligns (cfl_directives f) ->
  (visit_file f = None <-> cfl_package f = None \/ exists d, In d (cfl_directives f) /\ bad_directive d).
Proof. exact file_crashes. Qed.
Print Assumptions C88_crash.

Definition ex_aligned (e : cexpr) : cfield := mkCF (Some e) None false false (mkCFT false false (ex_plain (CKeyword "bool")) "b" None) None None None.
Definition ex_with (f : cfield) : cfile := mkCFile None (Some ["a"]) [] [CStruct (mkCS "S" [] [] [f] [])].
Example C88_applies :
  Forall proper_aligns (cfl_directives (ex_with (ex_aligned (CId "WORD")))) /\
  bad_directive (CStruct (mkCS "S" [] [] [ex_aligned (CId "WORD")] [])) /\
  visit_file (ex_with (ex_aligned (CId "WORD"))) = None /\
  visit_file (ex_with (ex_aligned (ex_lit "256"))) = None /\
  visit_file (ex_with (ex_aligned (ex_lit "255"))) <> None /\
  visit_file (ex_with (mkCF None None false false (mkCFT false true (ex_plain (CKeyword "uint8")) "b" (Some None)) None None None)) = None /\
  visit_file (mkCFile None None [] []) = None /\ visit_file ex_file <> None.
Proof.
  split; [|split; [|repeat split; vm_compute; congruence]].
  - constructor; [|constructor]. cbn. constructor; [|constructor]. intros t H. discriminate H.
  - cbn. eexists. split; [now left|]. left. eexists. split; [reflexivity|]. intros (t & z & H & _). discriminate H.
Qed.
