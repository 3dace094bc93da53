(** Properties of whole runs of the generator. *)

Require Import ZArith String Ascii List Bool Permutation.
From Verif Require Import Files FilesSpec FilesFacts Generate GenerateSpec GenerateFacts.
Import ListNotations.
Open Scope Z_scope.

(** ** C90 *)

(** Two runs from the same state agree on whether there is an error, and if there
    is none they leave the same files behind. *)
Theorem C90_files : forall c m fs st r1 r2, packages_differ m -> Forall plain_names m -> Forall names_differ m ->
  Generate c m fs st r1 -> Generate c m fs st r2 ->
  ok r1 = ok r2 /\ (ok r1 = true -> forall path, disk r1 path = disk r2 path).
Proof. exact reproducible. Qed.
Print Assumptions C90_files.

(** The same for what is printed, whatever the order of the packages. *)
Theorem C90_stdout : forall c name m m' r1 r2, NoDup (map p_name m) -> Permutation m m' -> Forall names_differ m ->
  GenerateStdout c name m r1 -> GenerateStdout c name m' r2 -> r1 = r2.
Proof.
  intros c name m m' r1 r2 Hd Hp Hn H1 H2. apply (stdout_reproducible c name m r1 r2 Hn H1).
  unfold GenerateStdout in *. now rewrite (find_perm m m' name Hd Hp).
Qed.
Print Assumptions C90_stdout.

(** There is always a run. *)
Theorem C90_run : forall c m fs st, exists r, Generate c m fs st r.
Proof. exact run_exists. Qed.
Print Assumptions C90_run.

Definition ex_config : config :=
  {| c_root := str "out"; c_root_package := str "example.com/out"; c_max := 260; c_source := fun code => Some (str "// formatted " ++ code) |}.
Definition ex_decl (name code : string) : decl := {| d_name := str name; d_templated := false; d_code := Some (str code) |}.
Definition ex_pkg (name : string) (enums structs : list decl) : package :=
  {| p_name := str name; p_preamble := Some (str "package p "); p_code := Some (str "const C = 1"); p_enums := enums; p_unions := [];
     p_bitmasks := []; p_choices := []; p_structs := structs |}.
Definition nothing : files := fun _ => None.

Definition ex_model : list package :=
  [ex_pkg "geo.base" [ex_decl "color" "type Color"] [ex_decl "point" "type Point"; ex_decl "line" "type Line";
     {| d_name := str "pair"; d_templated := true; d_code := None |}];
   ex_pkg "geo" [] [ex_decl "map" "type Map"]].

Lemma ex_differ : forall a b, lower a <> lower b -> ~ same_up_to_case a b.
Proof. intros a b H Hs. apply H. now apply same_lower. Qed.
Example C90_applies : packages_differ ex_model /\ Forall plain_names ex_model /\ Forall names_differ ex_model /\
  exists r, Generate ex_config ex_model nothing [] r /\ ok r = true /\
    disk r (str "out/geo/base/point.go") = Some (str "// formatted package p type Point") /\
    disk r (str "out/geo/pkg.go") = Some (str "// formatted package p const C = 1") /\ disk r (str "out/geo/base/pair.go") = None.
Proof.
  assert (Hs : ~ In "/"%char (str "geo") /\ ~ In "/"%char (str "geo.base")) by (split; intro H; cbn in H; intuition discriminate).
  refine (conj _ (conj _ (conj _ _))).
  - repeat first [apply FOP_nil|apply FOP_cons|apply Forall_nil|apply Forall_cons|apply ex_differ; vm_compute; discriminate].
  - repeat constructor; try apply Hs; intros [] d Hd; cbn in Hd; repeat (destruct Hd as [<-|Hd]; [intro H; cbn in H; intuition discriminate|]); destruct Hd.
  - repeat constructor; intros []; repeat constructor; cbn; intuition discriminate.
  - destruct (run_exists ex_config ex_model nothing []) as (r0 & _).
    exists (generate_packages ex_config [
      (nth 1 ex_model (ex_pkg "" [] []), [out_of false (nth 1 ex_model (ex_pkg "" [] [])) Main; newTypeOutput false KStruct (ex_decl "map" "type Map")]);
      (nth 0 ex_model (ex_pkg "" [] []), [out_of false (nth 0 ex_model (ex_pkg "" [] [])) Main; newTypeOutput false KStruct (ex_decl "point" "type Point");
         newTypeOutput false KStruct (ex_decl "line" "type Line"); newTypeOutput false KEnum (ex_decl "color" "type Color")])] nothing []).
    split; [|vm_compute; repeat split].
    eexists. split; [|split; [|reflexivity]].
    + cbn [map fst nth ex_model]. apply perm_swap.
    + repeat constructor; cbn [fst snd nth ex_model].
      * eexists. split; [|split; [|reflexivity]]; [reflexivity|]. repeat constructor.
      * eexists. split; [|split; [|reflexivity]].
        -- cbn. apply (Permutation_trans (l' := [newTypeOutput false KStruct (ex_decl "point" "type Point"); newTypeOutput false KEnum (ex_decl "color" "type Color"); newTypeOutput false KStruct (ex_decl "line" "type Line")])); [apply perm_swap|]. constructor. apply perm_swap.
        -- repeat constructor.
Qed.

(** Two structs whose names are the same in snake case, as FooBar and Foo_bar: it
    depends on the order which of them is in foo_bar.go. *)
Definition ex_twins : list package := [ex_pkg "p" [] [ex_decl "foo_bar" "type FooBar"; ex_decl "foo_bar" "type Foo_bar"]].
Theorem C90_names_refuted : exists c m fs r1 r2 path, packages_differ m /\ Forall plain_names m /\
  Generate c m fs [] r1 /\ Generate c m fs [] r2 /\ ok r1 = true /\ ok r2 = true /\ disk r1 path <> disk r2 path.
Proof.
  set (p := ex_pkg "p" [] [ex_decl "foo_bar" "type FooBar"; ex_decl "foo_bar" "type Foo_bar"]).
  set (a := newTypeOutput false KStruct (ex_decl "foo_bar" "type FooBar")). set (b := newTypeOutput false KStruct (ex_decl "foo_bar" "type Foo_bar")).
  exists ex_config, ex_twins, nothing, (generate_packages ex_config [(p, [out_of false p Main; a; b])] nothing []),
    (generate_packages ex_config [(p, [out_of false p Main; b; a])] nothing []), (str "out/p/foo_bar.go").
  refine (conj _ (conj _ (conj _ (conj _ (conj _ (conj _ _)))))).
  - repeat first [apply FOP_nil|apply FOP_cons|apply Forall_nil|apply Forall_cons|apply ex_differ; vm_compute; discriminate].
  - repeat constructor; try (intro H; cbn in H; intuition discriminate). intros [] d Hd; cbn in Hd; repeat (destruct Hd as [<-|Hd]; [intro H; cbn in H; intuition discriminate|]); destruct Hd.
  - exists [(p, [out_of false p Main; a; b])]. split; [reflexivity|]. split; [|reflexivity]. repeat constructor. exists [a; b]. repeat constructor.
  - exists [(p, [out_of false p Main; b; a])]. split; [reflexivity|]. split; [|reflexivity]. repeat constructor. exists [b; a]. repeat constructor.
  - vm_compute. reflexivity.
  - vm_compute. reflexivity.
  - vm_compute. discriminate.
Qed.
Print Assumptions C90_names_refuted.

(** The same for the packages a and A, which share a directory. *)
Definition ex_case : list package := [ex_pkg "a" [] [ex_decl "one" "type One"]; ex_pkg "A" [] [ex_decl "one" "type Two"]].
Theorem C90_packages_refuted : exists c m fs r1 r2 path, NoDup (map p_name m) /\ Forall plain_names m /\ Forall names_differ m /\
  Generate c m fs [] r1 /\ Generate c m fs [] r2 /\ ok r1 = true /\ ok r2 = true /\ disk r1 path <> disk r2 path.
Proof.
  set (p := ex_pkg "a" [] [ex_decl "one" "type One"]). set (q := ex_pkg "A" [] [ex_decl "one" "type Two"]).
  set (a := newTypeOutput false KStruct (ex_decl "one" "type One")). set (b := newTypeOutput false KStruct (ex_decl "one" "type Two")).
  exists ex_config, ex_case, nothing, (generate_packages ex_config [(p, [out_of false p Main; a]); (q, [out_of false q Main; b])] nothing []),
    (generate_packages ex_config [(q, [out_of false q Main; b]); (p, [out_of false p Main; a])] nothing []), (str "out/a/one.go").
  refine (conj _ (conj _ (conj _ (conj _ (conj _ (conj _ (conj _ _))))))).
  - repeat constructor; cbn; intuition discriminate.
  - repeat constructor; try (intro H; cbn in H; intuition discriminate); intros [] d Hd; cbn in Hd; repeat (destruct Hd as [<-|Hd]; [intro H; cbn in H; intuition discriminate|]); destruct Hd.
  - repeat constructor; intros []; repeat constructor; cbn; intuition discriminate.
  - exists [(p, [out_of false p Main; a]); (q, [out_of false q Main; b])]. split; [reflexivity|]. split; [|reflexivity].
    constructor; [exists [a]; repeat constructor|]. constructor; [exists [b]; repeat constructor|constructor].
  - exists [(q, [out_of false q Main; b]); (p, [out_of false p Main; a])]. split; [apply perm_swap|]. split; [|reflexivity].
    constructor; [exists [b]; repeat constructor|]. constructor; [exists [a]; repeat constructor|constructor].
  - vm_compute. reflexivity.
  - vm_compute. reflexivity.
  - vm_compute. discriminate.
Qed.
Print Assumptions C90_packages_refuted.

(** If there is an error, it depends on the order which files are there. *)
Definition ex_broken : list package :=
  [ex_pkg "a" [] []; {| p_name := str "b"; p_preamble := Some []; p_code := None; p_enums := []; p_unions := []; p_bitmasks := []; p_choices := []; p_structs := [] |}].
Theorem C90_error_refuted : exists c m fs r1 r2 path, packages_differ m /\ Forall plain_names m /\ Forall names_differ m /\
  Generate c m fs [] r1 /\ Generate c m fs [] r2 /\ ok r1 = false /\ ok r2 = false /\ disk r1 path <> disk r2 path.
Proof.
  set (p := ex_pkg "a" [] []).
  set (q := {| p_name := str "b"; p_preamble := Some []; p_code := None; p_enums := []; p_unions := []; p_bitmasks := []; p_choices := []; p_structs := [] |}).
  exists ex_config, ex_broken, nothing, (generate_packages ex_config [(p, [out_of false p Main]); (q, [out_of false q Main])] nothing []),
    (generate_packages ex_config [(q, [out_of false q Main]); (p, [out_of false p Main])] nothing []), (str "out/a/pkg.go").
  refine (conj _ (conj _ (conj _ (conj _ (conj _ (conj _ (conj _ _))))))).
  - repeat first [apply FOP_nil|apply FOP_cons|apply Forall_nil|apply Forall_cons|apply ex_differ; vm_compute; discriminate].
  - repeat constructor; try (intro H; cbn in H; intuition discriminate); intros [] d Hd; destruct Hd.
  - repeat constructor; intros []; constructor.
  - exists [(p, [out_of false p Main]); (q, [out_of false q Main])]. split; [reflexivity|]. split; [|reflexivity].
    constructor; [exists []; repeat constructor|]. constructor; [exists []; repeat constructor|constructor].
  - exists [(q, [out_of false q Main]); (p, [out_of false p Main])]. split; [apply perm_swap|]. split; [|reflexivity].
    constructor; [exists []; repeat constructor|]. constructor; [exists []; repeat constructor|constructor].
  - vm_compute. reflexivity.
  - vm_compute. reflexivity.
  - vm_compute. discriminate.
Qed.
Print Assumptions C90_error_refuted.

(** ** C91 *)

(** After a run without error in a new process every package and every type of it
    without template parameters has a file of its own, in the directory of the
    package, with its code; and no other path is changed. *)
Theorem C91_written : forall c m fs r, Forall plain_names m -> Forall no_numbers m ->
  Generate c m fs [] r -> ok r = true ->
  exists ws : list (package * item * text),
    Permutation (map fst ws) (flat_map (fun p => map (pair p) (items p)) m) /\ NoDup (map snd ws) /\
    (forall p i path, In (p, i, path) ws -> belongs c p path /\ contents c p i <> None /\ disk r path = contents c p i) /\
    (forall path, ~ In path (map snd ws) -> disk r path = fs path).
Proof. exact all_written. Qed.
Print Assumptions C91_written.

(** There is no error exactly if the root package is given, the limit leaves room
    for the directory and seven more characters, and all code can be generated and
    formatted. *)
Theorem C91_ok : forall c m fs st r, Generate c m fs st r ->
  ok r = true <-> forall p, In p m -> c_root_package c <> [] /\ len (c_root c) + len (p_name p) + 8 <= c_max c /\ forall i, In i (items p) -> contents c p i <> None.
Proof. exact run_ok. Qed.
Print Assumptions C91_ok.

(** In all cases: a path has what it had before or the whole code of a type or a
    package it belongs to, except that after an error one file can be gone. *)
Theorem C91_whole : forall c m fs st r, Forall plain_names m -> Generate c m fs st r -> exists gone, forall path,
  disk r path = fs path \/
  (exists p i, In p m /\ In i (items p) /\ belongs c p path /\ contents c p i <> None /\ disk r path = contents c p i) \/
  (ok r = false /\ path = gone /\ disk r path = None /\ exists p, In p m /\ belongs c p path).
Proof. exact run_any. Qed.
Print Assumptions C91_whole.

Example C91_applies : Forall plain_names ex_model /\ Forall no_numbers ex_model /\
  forall r, Generate ex_config ex_model nothing [] r -> ok r = true.
Proof.
  split; [apply C90_applies|]. split.
  - assert (H : forall s, ~ In "_"%char (str s) -> ~ has_number (str s)) by (intros s H (a & x & b & E & _); apply H; rewrite E; apply in_or_app; right; now left).
    apply Forall_forall. intros p [<-|[<-|[]]] [] d Hd; cbn in Hd; repeat (destruct Hd as [<-|Hd]; [cbn [d_name ex_decl]; apply H; intro Hi; cbn in Hi; intuition discriminate|]); destruct Hd.
  - intros r Hr. apply (run_ok _ _ _ _ _ Hr). intros p [<-|[<-|[]]]; (split; [discriminate|]); (split; [vm_compute; discriminate|]);
      intros i Hi; cbn in Hi; repeat (destruct Hi as [<-|Hi]; [vm_compute; discriminate|]); destruct Hi.
Qed.

(** An error loses a file of an earlier run: it was emptied to write the new one. *)
Definition ex_bad : config := {| c_root := str "out"; c_root_package := str "r"; c_max := 260; c_source := fun _ => None |}.
Theorem C91_old_file_refuted : exists c m fs r path, Generate c m fs [] r /\ ok r = false /\ fs path <> None /\ disk r path = None.
Proof.
  exists ex_bad, [ex_pkg "a" [] []], (fun _ => Some (str "old")), (generate_packages ex_bad [(ex_pkg "a" [] [], [out_of false (ex_pkg "a" [] []) Main])] (fun _ => Some (str "old")) []), (str "out/a/pkg.go").
  refine (conj _ (conj _ (conj _ _))).
  - exists [(ex_pkg "a" [] [], [out_of false (ex_pkg "a" [] []) Main])]. split; [reflexivity|]. split; [|reflexivity]. repeat constructor. exists []. repeat constructor.
  - vm_compute. reflexivity.
  - discriminate.
  - vm_compute. reflexivity.
Qed.
Print Assumptions C91_old_file_refuted.
