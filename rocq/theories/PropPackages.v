(** Properties of packages, imports and name lookup. *)

Require Import ZArith String List Bool Permutation.
From Verif Require Import Packages PackagesSpec PackagesFacts.
Import ListNotations.
Open Scope Z_scope.

(** Files for the examples: "a" imports everything from "b" and "d", "b" imports
    everything from "c" and "c" nothing; "d" and "e" import each other; "s"
    imports the single type c.Thing. *)
Definition ex_ref (pkg name : string) : tyref := mkTR false pkg name 0.
Definition ex_byte : tyref := mkTR true "" "uint8" 0.
Definition ex_decls : decls :=
  mkD [("Small", ex_byte); ("Smaller", ex_ref "c" "Small"); ("Loop", ex_ref "c" "Loop")]%string [] [] [("Thing", 0%nat)]%string
      [("Color", (0%nat, [("RED", 0%nat); ("BLUE", 1%nat)])); ("Light", (1%nat, [("GREEN", 2%nat)]))]%string [] [] [].
Definition ex_none : decls := mkD [] [] [] [] [] [] [] [].
Definition ex_files : list package := [
  CollectSymbols "a" [mkI "b" "*"] ex_none;
  CollectSymbols "b" [mkI "c" "*"] (mkD [("Tiny", ex_ref "c" "Smaller")] [] [] [] [] [] [] []);
  CollectSymbols "c" [] ex_decls;
  CollectSymbols "d" [mkI "e" "*"] ex_none;
  CollectSymbols "e" [mkI "d" "*"; mkI "b" "*"] ex_none;
  CollectSymbols "s" [mkI "c" "."] ex_none]%string.
Definition ex_world : world := match load ex_files with Some w => w | None => [] end.
Definition ex_pkg (n : string) : package :=
  match position n ex_world 0 with Some k => nth k ex_world (CollectSymbols "" [] ex_none) | None => CollectSymbols "" [] ex_none end.

(** The edges of the examples. *)
Example ex_loads : load ex_files = Some ex_world /\ fresh ex_files /\ distinct ex_world /\
  map p_name ex_world = ["a"; "b"; "c"; "d"; "e"; "s"]%string /\
  (forall n, In n ["a"; "b"; "c"; "d"; "e"; "s"]%string -> In (ex_pkg n) ex_world /\ p_name (ex_pkg n) = n).
Proof.
  split; [reflexivity|]. split; [intros p H; repeat destruct H as [<-|H]; try reflexivity; destruct H|].
  split; [split; [repeat constructor; cbn; intuition discriminate|cbn; intuition discriminate]|]. split; [reflexivity|].
  intros n H. repeat destruct H as [<-|H]; try (split; [cbn; tauto|reflexivity]); destruct H.
Qed.

(** "c" imports nothing; what "b" reaches is itself and "c"; what "a" reaches is
    itself and what "b" reaches. *)
Example ex_reach_c : forall q, reach ex_world (ex_pkg "c") q -> q = ex_pkg "c".
Proof. intros q H. induction H as [|q r H IH He]; [reflexivity|]. subst q. destruct He. Qed.
Example ex_reach_b : forall q, reach ex_world (ex_pkg "b") q -> q = ex_pkg "b" \/ q = ex_pkg "c".
Proof.
  intros q H. induction H as [|q r H IH He]; [now left|]. destruct IH as [-> | ->]; cbn in He; [|destruct He].
  destruct He as [<-|[]]. now right.
Qed.
Example ex_reach_a : forall q, reach ex_world (ex_pkg "a") q -> q = ex_pkg "a" \/ q = ex_pkg "b" \/ q = ex_pkg "c".
Proof.
  intros q H. induction H as [|q r H IH He]; [now left|]. destruct IH as [-> | [-> | ->]]; cbn in He; [| |destruct He].
  - destruct He as [<-|[]]. right. now left.
  - destruct He as [<-|[]]. right. now right.
Qed.
Example ex_acyclic : acyclic ex_world (ex_pkg "a") /\ acyclic ex_world (ex_pkg "b").
Proof.
  assert (H : forall q, q = ex_pkg "a" \/ q = ex_pkg "b" \/ q = ex_pkg "c" -> ~ reach1 ex_world q q).
  { intros q [-> | [-> | ->]] (r & Hr & He).
    - apply ex_reach_a in Hr as [-> | [-> | ->]]; cbn in He; intuition discriminate.
    - apply ex_reach_b in Hr as [-> | ->]; cbn in He; intuition discriminate.
    - apply ex_reach_c in Hr as ->. cbn in He. assumption. }
  split; intros q Hq; apply H; [now apply ex_reach_a|]. right. now apply ex_reach_b.
Qed.
Example ex_cyclic : cyclic ex_world (ex_pkg "d").
Proof.
  exists (ex_pkg "d"). split; [constructor|]. exists (ex_pkg "e"). split; [|cbn; tauto].
  eapply reach_step; [constructor|]. cbn. tauto.
Qed.

(** ** C35 *)

(** The packages a package uses are the ones it imports with "*". *)
Theorem C35_edges : forall files w p q, load files = Some w -> In p w -> fresh files ->
  edge w p q <-> (In q w /\ exists i, In i (p_imports p) /\ i_type i = "*"%string /\ i_package i = p_name q).
Proof. exact load_edge. Qed.
Print Assumptions C35_edges.

(** The list of imports, computed with one round more than there are packages:
    no duplicates, and exactly the packages that can be reached. *)
Theorem C35_imports : forall files w p, load files = Some w -> In p w ->
  exists l, GoGetAllImports (S (length w)) w p = Some l /\ NoDup l /\
    forall n, In n l <-> exists q, reach1 w p q /\ p_name q = n.
Proof. exact load_imports. Qed.
Print Assumptions C35_imports.

(** Also on a cycle. *)
Example C35_applies :
  GoGetAllImports 7 ex_world (ex_pkg "a") = Some ["b"; "c"]%string /\
  GoGetAllImports 7 ex_world (ex_pkg "d") = Some ["e"; "d"; "b"; "c"]%string.
Proof. vm_compute. repeat split. Qed.

(** ** C38 *)

(** The own types come first, *)
Theorem C38_own_type : forall f w p n s, declares p n s -> GetSymbol f w p n = Found (p_name p, s).
Proof. exact lookup_own_type. Qed.
Print Assumptions C38_own_type.

(** then those of the imports in their order, *)
Theorem C38_imported_type : forall f w p n l1 q l2 s, undeclared p n -> imported w p = l1 ++ q :: l2 ->
  (forall x, In x l1 -> undeclared x n) -> declares q n s -> GetSymbol f w p n = Found (p_name q, s).
Proof. exact lookup_imported_type. Qed.
Print Assumptions C38_imported_type.

(** then the members of the current type, *)
Theorem C38_member : forall f w p n s, undeclared p n -> (forall q, edge w p q -> undeclared q n) -> has_member p n s ->
  GetSymbol f w p n = Found (p_name p, s).
Proof. exact lookup_member. Qed.
Print Assumptions C38_member.

(** then the items of the own enums, *)
Theorem C38_own_item : forall w p n s f, no_name w p n -> has_item p n s -> GetSymbol (S f) w p n = Found (p_name p, s).
Proof. exact item_own. Qed.
Print Assumptions C38_own_item.

(** and last the items of all packages that can be reached.  Without cycles the
    search ends, no deeper than the number of packages. *)
Theorem C38_item : forall w p n f, In p w -> acyclic w p -> no_name w p n -> (length w <= f)%nat ->
  match GetSymbol f w p n with
  | Found (m, s) => exists q, reach w p q /\ p_name q = m /\ has_item q n s
  | Unknown => forall q s, reach w p q -> ~ has_item q n s
  | Runs => False
  end.
Proof. exact item_found. Qed.
Print Assumptions C38_item.

(** With a cycle the search for an unknown name does not end. *)
Theorem C38_cycle : forall w p n f, cyclic w p -> no_name w p n -> (forall q s, reach w p q -> ~ has_item q n s) ->
  GetSymbol f w p n = Runs.
Proof. exact item_endless. Qed.
Print Assumptions C38_cycle.

(** The search for a package. *)
Theorem C38_scope : forall w p n f, distinct w -> In p w -> acyclic w p -> (length w <= f)%nat ->
  match GetImportedScope f w p n with
  | Found q => reach w p q /\ p_name q = n
  | Unknown => forall q, reach w p q -> p_name q <> n
  | Runs => False
  end.
Proof. exact scope_answer. Qed.
Print Assumptions C38_scope.
Theorem C38_scope_cycle : forall f w p n, cyclic w p -> n <> ""%string -> (forall q, reach w p q -> p_name q <> n) ->
  GetImportedScope f w p n = Runs.
Proof. exact scope_endless. Qed.
Print Assumptions C38_scope_cycle.

Example C38_applies :
  GetSymbol 6 ex_world (ex_pkg "c") "Thing" = Found ("c"%string, SyStruct 0) /\
  GetSymbol 6 ex_world (ex_pkg "b") "Thing" = Found ("c"%string, SyStruct 0) /\
  GetSymbol 6 ex_world (ex_pkg "a") "Thing" = Unknown /\
  GetSymbol 6 ex_world (ex_pkg "a") "GREEN" = Found ("c"%string, SyEnumItem 2) /\
  no_name ex_world (ex_pkg "a") "GREEN" /\ no_name ex_world (ex_pkg "d") "no" /\
  GetSymbol 1000 ex_world (ex_pkg "d") "no" = Runs /\
  GetImportedScope 6 ex_world (ex_pkg "a") "c" = Found (ex_pkg "c").
Proof.
  assert (Hm : forall n q, In q ex_world -> no_member q n).
  { intros n q Hq fs Hfs. exfalso. repeat destruct Hq as [<-|Hq]; try discriminate. destruct Hq. }
  refine (conj eq_refl (conj eq_refl (conj eq_refl (conj eq_refl (conj _ (conj _ (conj eq_refl eq_refl))))))).
  - refine (conj eq_refl (conj _ (conj (Hm _ _ _) _))); [intros q [<-|[]]; reflexivity|cbn; tauto|intros q [<-|[]]; apply Hm; cbn; tauto].
  - refine (conj eq_refl (conj _ (conj (Hm _ _ _) _))); [intros q [<-|[]]; reflexivity|cbn; tauto|intros q [<-|[]]; apply Hm; cbn; tauto].
Qed.

(** ** C39 *)

(** A chain of [k] subtypes leads to its end if [k] is at most 100, and is an
    error if it is longer. *)
Theorem C39_chain : forall f w p t k e m, distinct w -> In p w -> acyclic w p -> (length w <= f)%nat ->
  chain w p t k e -> final w p e m ->
  GetOriginalType f w p t = if (k <=? 100)%nat then Found (mkO e (negb (k =? 0)%nat) m) else Unknown.
Proof. exact original_right. Qed.
Print Assumptions C39_chain.

(** A chain without an end is an error. *)
Theorem C39_cycle : forall f w p, distinct w -> In p w -> acyclic w p -> (length w <= f)%nat ->
  forall left cast t, (forall k, exists e, chain w p t k e) -> original_loop left f w p cast t = Unknown.
Proof. exact original_endless. Qed.
Print Assumptions C39_cycle.

(** c.Smaller is c.Small is uint8; c.Loop is c.Loop. *)
Example C39_applies :
  chain ex_world (ex_pkg "a") (ex_ref "b" "Tiny") 3 ex_byte /\ final ex_world (ex_pkg "a") ex_byte false /\
  final ex_world (ex_pkg "a") (ex_ref "c" "Thing") true /\
  (forall k, exists e, chain ex_world (ex_pkg "a") (ex_ref "c" "Loop") k e) /\
  GetOriginalType 6 ex_world (ex_pkg "a") (ex_ref "b" "Tiny") = Found (mkO ex_byte true false) /\
  GetOriginalType 6 ex_world (ex_pkg "a") (ex_ref "c" "Loop") = Unknown.
Proof.
  assert (Hb : reach ex_world (ex_pkg "a") (ex_pkg "b")) by (eapply reach_step; [constructor|cbn; tauto]).
  assert (Hc : reach ex_world (ex_pkg "a") (ex_pkg "c")) by (eapply reach_step; [exact Hb|cbn; tauto]).
  refine (conj _ (conj (or_introl (conj eq_refl eq_refl)) (conj _ (conj _ (conj eq_refl eq_refl))))).
  - apply chain_link with (t' := ex_ref "c" "Smaller"); [reflexivity|exists (ex_pkg "b"); now repeat split|].
    apply chain_link with (t' := ex_ref "c" "Small"); [reflexivity|exists (ex_pkg "c"); now repeat split|].
    apply chain_link with (t' := ex_byte); [reflexivity|exists (ex_pkg "c"); now repeat split|]. constructor.
  - right. refine (conj eq_refl (conj eq_refl _)). exists (SyStruct 0). split; [exists (ex_pkg "c"); now repeat split|exact I].
  - intro k. exists (ex_ref "c" "Loop"). induction k as [|k IH]; [constructor|].
    apply chain_link with (t' := ex_ref "c" "Loop"); [reflexivity|exists (ex_pkg "c"); now repeat split|assumption].
Qed.

(** ** C55 *)

(** An accepted reference names a package that declares the type: the own one if
    it does, otherwise one that is imported. *)
Theorem C55_resolved : forall w p t t', resolveTypeReference w p t = Some t' -> In p w -> tr_builtin t = false ->
  tr_builtin t' = false /\ tr_name t' = tr_name t /\ tr_bits t' = tr_bits t /\
  (exists q s, In q w /\ p_name q = tr_package t' /\ declares q (tr_name t) s) /\
  (tr_package t <> ""%string -> t' = t) /\
  (tr_package t = ""%string -> (exists s, declares p (tr_name t) s) -> tr_package t' = p_name p) /\
  (tr_package t = ""%string -> undeclared p (tr_name t) ->
     exists i, In i (p_imports p) /\ i_package i = tr_package t' /\ (i_type i = "*"%string \/ i_type i = tr_name t)).
Proof. exact resolve_spec. Qed.
Print Assumptions C55_resolved.

(** If all imports are of whole packages, the generator finds the type again. *)
Theorem C55_found : forall files w p t t' f, load files = Some w -> fresh files -> In p w -> acyclic w p ->
  ~ In ""%string (map p_name w) -> (length w <= f)%nat ->
  resolveTypeReference w p t = Some t' -> tr_builtin t = false -> tr_package t = ""%string ->
  (forall i, In i (p_imports p) -> i_type i = "*"%string) ->
  exists q s, p_name q = tr_package t' /\ declares q (tr_name t) s /\
    GetImportedScope f w p (tr_package t') = Found q /\ GetSymbol f w q (tr_name t') = Found (tr_package t', s).
Proof. exact resolved_found. Qed.
Print Assumptions C55_found.

(** If all imports are of single types, an accepted reference to a type of another
    package is unknown to the generator.  (It is written with its package, C85.) *)
Theorem C55_single_import : forall files w p t t' f, load files = Some w -> fresh files -> In p w ->
  resolveTypeReference w p t = Some t' -> tr_builtin t = false -> tr_package t' <> p_name p ->
  (forall i, In i (p_imports p) -> i_type i <> "*"%string) ->
  GetImportedScope (S f) w p (tr_package t') = Unknown /\ GetOriginalType (S f) w p t' = Unknown /\
  PackageGoArrayTraits (S f) (S f) w p t' = Unknown /\ PackageIsDeltaPackable (S f) (S f) w p t' = Unknown.
Proof. exact single_import. Qed.
Print Assumptions C55_single_import.

Example C55_applies :
  resolveTypeReference ex_world (ex_pkg "b") (ex_ref "" "Thing") = Some (ex_ref "c" "Thing") /\
  GetOriginalType 6 ex_world (ex_pkg "b") (ex_ref "c" "Thing") = Found (mkO (ex_ref "c" "Thing") false true) /\
  resolveTypeReference ex_world (ex_pkg "s") (ex_ref "c" "Thing") = Some (ex_ref "c" "Thing") /\
  resolveTypeReference ex_world (ex_pkg "s") (ex_ref "" "Thing") = None /\
  GetOriginalType 6 ex_world (ex_pkg "s") (ex_ref "c" "Thing") = Unknown /\
  resolveTypeReference ex_world (ex_pkg "s") (ex_ref "" "Small") = None /\
  resolveTypeReference ex_world (ex_pkg "a") (ex_ref "" "Thing") = None.
Proof. vm_compute. repeat split. Qed.

(** ** C56 *)

(** Of several files with the same package the last one stays, alone. *)
Theorem C56_last_file : forall files q, In q (parse_files files) <->
  exists l1 l2, files = l1 ++ q :: l2 /\ forall x, In x l2 -> p_name x <> p_name q.
Proof. exact parse_files_last. Qed.
Print Assumptions C56_last_file.
Theorem C56_one_each : forall files, NoDup (map p_name (parse_files files)).
Proof. exact parse_files_nodup. Qed.
Print Assumptions C56_one_each.

Example C56_applies :
  let file d := CollectSymbols "a" [] d in
  parse_files [file ex_decls; CollectSymbols "b" [] ex_none; file ex_none] = [file ex_none; CollectSymbols "b" [] ex_none] /\
  get "Thing" (p_types (file ex_decls)) = Some (SyStruct 0) /\ get "Thing" (p_types (file ex_none)) = None.
Proof. vm_compute. repeat split. Qed.

(** ** C57 *)

(** What a name means does not depend on the order in which Go ranges over the
    maps; for enum items, if no two enums share one. *)
Theorem C57_order : forall name imports a b, keyed a -> reordered a b -> forall n,
  get n (p_types (CollectSymbols name imports a)) = get n (p_types (CollectSymbols name imports b)) /\
  (NoDup (map fst (all_items a)) ->
   get n (p_others (CollectSymbols name imports a)) = get n (p_others (CollectSymbols name imports b))).
Proof. exact reordered_same. Qed.
Print Assumptions C57_order.

(** If two kinds of declarations share a name, only one is seen. *)
Theorem C57_kinds : forall d n, keyed d -> get n (type_scope d) =
  match get n (d_choices d) with Some i => Some (SyChoice i) | None =>
  match get n (d_bitmasks d) with Some i => Some (SyBitmask i) | None =>
  match get n (d_unions d) with Some i => Some (SyUnion i) | None =>
  match get n (d_enums d) with Some e => Some (SyEnum (fst e)) | None =>
  match get n (d_structs d) with Some i => Some (SyStruct i) | None =>
  match get n (d_consts d) with Some t => Some (SyConst t) | None =>
  match get n (d_instantiated d) with Some t => Some (SyInstantiate t) | None =>
  match get n (d_subtypes d) with Some t => Some (SySubtype t) | None => None end end end end end end end end.
Proof. exact type_scope_order. Qed.
Print Assumptions C57_kinds.

(** Two enums with a common item: the meaning of the item depends on the order. *)
Theorem C57_items_refuted : exists a b n, keyed a /\ reordered a b /\
  get n (p_others (CollectSymbols "p" [] a)) <> get n (p_others (CollectSymbols "p" [] b)).
Proof.
  pose (e1 := ("Color", (0%nat, [("NONE", 0%nat)]))%string). pose (e2 := ("Light", (1%nat, [("NONE", 1%nat)]))%string).
  exists (mkD [] [] [] [] [e1; e2] [] [] []), (mkD [] [] [] [] [e2; e1] [] [] []), "NONE"%string.
  split; [|split].
  - repeat split; try constructor; cbn; [intuition discriminate|repeat constructor; intros []].
  - repeat split; try constructor. 
  - discriminate.
Qed.
Print Assumptions C57_items_refuted.

Example C57_applies : keyed ex_decls /\ NoDup (map fst (all_items ex_decls)) /\
  get "GREEN" (p_others (CollectSymbols "p" [] ex_decls)) = Some (SyEnumItem 2) /\
  get "Color" (p_types (CollectSymbols "p" [] ex_decls)) = Some (SyEnum 0).
Proof. repeat split; repeat constructor; cbn; intuition discriminate. Qed.

(** ** C58 *)

(** Arrays of a subtype are arrays of the type it stands for. *)
Theorem C58_array_kind : forall f w p, distinct w -> In p w -> acyclic w p -> (length w <= f)%nat ->
  forall t k e traits packable, chain w p t k e -> array_kind w p e traits packable -> forall d, (k < d)%nat ->
  PackageGoArrayTraits d f w p t = Found traits /\ PackageIsDeltaPackable d f w p t = Found packable.
Proof. exact array_chain. Qed.
Print Assumptions C58_array_kind.

(** A chain without an end is followed for ever. *)
Theorem C58_cycle : forall f w p, distinct w -> In p w -> acyclic w p -> (length w <= f)%nat ->
  forall d t, (forall k, exists e, chain w p t k e) ->
  PackageGoArrayTraits d f w p t = Runs /\ PackageIsDeltaPackable d f w p t = Runs.
Proof. exact array_endless. Qed.
Print Assumptions C58_cycle.

Example C58_applies :
  PackageGoArrayTraits 4 6 ex_world (ex_pkg "a") (ex_ref "b" "Tiny") = Found "ztype.BitFieldArrayTraits"%string /\
  PackageIsDeltaPackable 4 6 ex_world (ex_pkg "a") (ex_ref "b" "Tiny") = Found true /\
  PackageIsDeltaPackable 4 6 ex_world (ex_pkg "a") (ex_ref "c" "Color") = Found true /\
  PackageIsDeltaPackable 4 6 ex_world (ex_pkg "a") (ex_ref "c" "Thing") = Found false /\
  PackageGoArrayTraits 1000 6 ex_world (ex_pkg "a") (ex_ref "c" "Loop") = Runs.
Proof. vm_compute. repeat split. Qed.
