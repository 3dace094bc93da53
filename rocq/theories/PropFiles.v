(** Properties of generated files, enums and bitmasks. *)

Require Import ZArith String Ascii List Bool.
From Verif Require Import Bits Stream Spec Scalars Files FilesSpec FilesFacts EnumText EnumTextSpec EnumTextFacts.
Import ListNotations.
Open Scope Z_scope.

(** ** C34 *)

(** The name of an item and its value, there and back. *)
Theorem C34_item : forall e n v, NoDup (map fst e) -> NoDup (map snd e) -> In (n, v) e ->
  EnumString e n = Some v /\ ToString e v = n.
Proof. exact item_text. Qed.
Print Assumptions C34_item.

(** Any other text is an error. *)
Theorem C34_unknown_name : forall e s, EnumString e s = None <-> ~ In s (map fst e).
Proof. exact value_none. Qed.
Print Assumptions C34_unknown_name.

(** Any other value is printed as unknown, in a way that tells it from all others,
    and cannot be converted back. *)
Theorem C34_unknown_value : forall e v, proper e -> ~ In v (EnumValues e) ->
  ToString e v = str "unknown(" ++ show v ++ str ")" /\ ~ In (ToString e v) (EnumStrings e) /\
  EnumString e (ToString e v) = None /\
  forall w, ~ In w (EnumValues e) -> ToString e w = ToString e v -> w = v.
Proof. exact unknown_text. Qed.
Print Assumptions C34_unknown_value.

(** A value stored in a database comes back if it is known, and is an error when
    it is read otherwise. *)
Theorem C34_sql : forall e v old, NoDup (map fst e) -> NoDup (map snd e) -> proper e ->
  (In v (EnumValues e) -> Scan e old (SrcString (SqlValue e v)) = Some v /\ Scan e old (SrcBytes (SqlValue e v)) = Some v) /\
  (~ In v (EnumValues e) -> Scan e old (SrcString (SqlValue e v)) = None /\ Scan e old (SrcBytes (SqlValue e v)) = None).
Proof. exact sql_roundtrip. Qed.
Print Assumptions C34_sql.

Example C34_applies :
  let e := [(str "RED", -3); (str "BLUE", 7)] in
  NoDup (map fst e) /\ NoDup (map snd e) /\ proper e /\ In (str "BLUE", 7) e /\ ~ In 5 (EnumValues e) /\
  ToString e (-12) = str "unknown(-12)" /\ EnumString e (str "BLUE") = Some 7 /\ EnumString e (str "blue") = None.
Proof.
  cbn zeta. refine (conj _ (conj _ (conj _ (conj _ (conj _ (conj eq_refl (conj eq_refl eq_refl))))))).
  - repeat constructor; cbn; intuition discriminate.
  - repeat constructor; cbn; intuition discriminate.
  - intros n v [H|[H|[]]]; injection H as <- _; cbn; intuition discriminate.
  - cbn. tauto.
  - cbn. intuition discriminate.
Qed.

(** ** C36 *)

(** Of the imports those stay whose name occurs with a dot after it; nothing else
    is changed, except empty lines of the section, and doing it again changes
    nothing. *)
Theorem C36_exact : forall header l body, no_section header -> Forall well_formed l ->
  exists kept, StripImports (file header l body) = Ok (stripped header kept body) /\
    (exists keep : imp -> bool, kept = filter keep l /\ forall i, In i l -> keep i = true <-> mentioned (name_of i) body) /\
    StripImports (stripped header kept body) = Ok (stripped header kept body).
Proof. exact strip_exact. Qed.
Print Assumptions C36_exact.

(** So what is used stays. *)
Theorem C36_used : forall n body, used n body -> mentioned n body.
Proof. exact used_mentioned. Qed.
Print Assumptions C36_used.

(** But what is not used can stay as well: a_b because of x_a_b. *)
Definition ex_imports : list imp := [
  Path None (str "fmt"); Path (Some (str "github.com/icza")) (str "bitio");
  Alias (str "a_b") (str "root/a/b"); Alias (str "x_a_b") (str "root/x/a/b")].
Definition ex_body : text := str " type T struct { F x_a_b.Thing }".
Theorem C36_unused_refuted : exists l body header i,
  no_section header /\ Forall well_formed l /\ In i l /\ ~ used (name_of i) body /\
  exists kept, StripImports (file header l body) = Ok (stripped header kept body) /\ In i kept.
Proof.
  exists ex_imports, ex_body, (str "package p "), (Alias (str "a_b") (str "root/a/b")).
  refine (conj _ (conj _ (conj _ (conj _ _)))).
  - intros a b H. apply (f_equal (cut (str "import ("))) in H.
    destruct (cut (str "import (") (a ++ str "import (" ++ b)) as [[x y]|] eqn:E; [discriminate|]. exact (cut_none _ _ E a b eq_refl).
  - repeat constructor; cbn; try discriminate; intuition discriminate.
  - cbn. tauto.
  - intros (a & b & H & Hc). cbn in H.
    do 21 (destruct a as [|? a]; [discriminate H|injection H as <- H; cbn in H]).
    destruct a as [|? a]; [|injection H as <- H; cbn in H; do 10 (destruct a as [|? a]; [discriminate H|injection H as <- H; cbn in H]); destruct a; discriminate H].
    eapply (Hc (firstn 20 (str " type T struct { F x_a_b")) _); [reflexivity|]. unfold ident_char. cbn. tauto.
  - exists [Alias (str "a_b") (str "root/a/b"); Alias (str "x_a_b") (str "root/x/a/b")]. split; [vm_compute; reflexivity|cbn; tauto].
Qed.
Print Assumptions C36_unused_refuted.

(** ** C37 *)

(** The files of a process, with the same limit: all paths are different, if no
    name has an underscore followed by a digit. *)
Theorem C37_distinct : forall max l ps st, fine l -> requests [] max l = Some (ps, st) -> NoDup ps.
Proof. exact requests_distinct. Qed.
Print Assumptions C37_distinct.

(** They are .go files in their directories. *)
Theorem C37_directory : forall max l st ps st', (forall dir fn, In (dir, fn) l -> is_name fn) -> requests st max l = Some (ps, st') ->
  Forall2 (fun r p => exists x, p = fst r ++ "/"%char :: x ++ str ".go") l ps.
Proof. exact requests_dir. Qed.
Print Assumptions C37_directory.

(** Up to ten files the limit is kept. *)
Theorem C37_limit : forall max l ps st, (length l <= 10)%nat -> requests [] max l = Some (ps, st) -> Forall (fun p => len p <= max) ps.
Proof. exact requests_limit. Qed.
Print Assumptions C37_limit.

(** With eleven files of the same stem it is not. *)
Theorem C37_limit_refuted : exists max l ps st, fine l /\ requests [] max l = Some (ps, st) /\ exists p, In p ps /\ max < len p.
Proof.
  exists 12, (repeat (str "out", str "longname") 11).
  eexists. eexists. split; [|split; [vm_compute; reflexivity|]].
  - intros dir fn H. apply repeat_spec in H. assert (Hfn : fn = str "longname") by congruence. subst fn. clear H. split; [intro H; cbn in H; intuition discriminate|].
    intros (a & c & b & H & _). assert (Hin : In "_"%char (str "longname")) by (rewrite H; apply in_or_app; right; now left).
    cbn in Hin. intuition discriminate.
  - eexists. split; [do 10 right; left; reflexivity|]. reflexivity.
Qed.
Print Assumptions C37_limit_refuted.

(** There is an error exactly if the limit is too short for a directory: also for
    the limit 0, which should mean no limit. *)
Theorem C37_error : forall max l st, requests st max l = None <-> exists dir fn, In (dir, fn) l /\ max < len dir + 7.
Proof. exact requests_error. Qed.
Print Assumptions C37_error.

(** The names a, a_1 and a: the last file overwrites the second one. *)
Theorem C37_collision : forall dir a max, len dir + 7 <= max -> len (join_path dir a) + 7 <= max ->
  exists p q st, requests [] max [(dir, a); (dir, a ++ str "_1"); (dir, a)] = Some ([p; q; q], st).
Proof. exact requests_collide. Qed.
Print Assumptions C37_collision.

(** A second generation in the same process uses none of the paths of the first. *)
Theorem C37_again : forall max l l' ps st ps' st', fine l -> fine l' -> requests [] max l = Some (ps, st) ->
  requests st max l' = Some (ps', st') -> forall p, In p ps -> ~ In p ps'.
Proof. exact requests_again. Qed.
Print Assumptions C37_again.

Example C37_applies :
  let l := [(str "out", str "pkg"); (str "out", str "thing"); (str "out", str "pkg")] in
  fine l /\
  option_map fst (requests [] 260 l) = Some [str "out/pkg.go"; str "out/thing.go"; str "out/pkg_1.go"] /\
  option_map fst (requests [] 20 [(str "out", str "a_rather_long_name")]) = Some [str "out/a_rather.go"] /\
  option_map fst (requests [] 0 l) = None.
Proof.
  cbn zeta. split; [|vm_compute; repeat split].
  assert (Hn : forall fn, ~ In "_"%char fn -> ~ has_number fn).
  { intros fn H (a & c & b & -> & _). apply H, in_or_app. right. now left. }
  intros dir fn [H|[H|[H|[]]]]; injection H as <- <-; (split; [intro H; cbn in H; intuition discriminate|apply Hn; cbn; intuition discriminate]).
Qed.

(** ** C59 *)

(** The path by which a package is imported is the directory it is written to, if
    and only if its name has no capital letters. *)
Theorem C59_import_path : forall pkg, package_dir pkg = import_path pkg <-> forall c, In c pkg -> ~ is_capital c.
Proof. exact dir_is_path. Qed.
Print Assumptions C59_import_path.

(** Packages without underscores in their names have different aliases. *)
Theorem C59_alias : forall a b, ~ In "_"%char a -> ~ In "_"%char b -> GoPackageAlias a = GoPackageAlias b -> a = b.
Proof. exact alias_inj. Qed.
Print Assumptions C59_alias.
Theorem C59_alias_refuted : exists a b, a <> b /\ GoPackageAlias a = GoPackageAlias b.
Proof. exists (str "a.b"), (str "a_b"). split; [discriminate|reflexivity]. Qed.
Print Assumptions C59_alias_refuted.

Example C59_applies :
  package_dir (str "nds.core") = str "nds/core" /\ import_path (str "nds.core") = str "nds/core" /\
  package_dir (str "nds.Core") = str "nds/core" /\ import_path (str "nds.Core") = str "nds/Core" /\
  GoPackageAlias (str "nds.core") = str "nds_core".
Proof. vm_compute. repeat split. Qed.

(** ** C60 *)

(** A bitmask over bit:n. *)
Theorem C60_bitmask : forall n v, 1 <= n <= 64 -> 0 <= v < 2 ^ n ->
  roundtrips (BitmaskMarshal n n v) (BitmaskUnmarshal n) (bits_of (Z.to_nat n) v) v /\
  BitmaskBitSize n v = Z.of_nat (length (bits_of (Z.to_nat n) v)).
Proof. exact bitmask_direct. Qed.
Print Assumptions C60_bitmask.

(** A bitmask over a subtype of bit:n: 0 is written as no bits at all, though its
    size is n, and everything else is rejected. *)
Theorem C60_bitmask_subtype : forall n v, 1 <= n <= 64 -> 0 <= v < 2 ^ n ->
  (v = 0 -> encodes (BitmaskMarshal 0 n v) [] /\ BitmaskBitSize n v = n) /\
  (v <> 0 -> rejects (BitmaskMarshal 0 n v) ErrValueOutOfBitRange).
Proof. exact bitmask_subtype. Qed.
Print Assumptions C60_bitmask_subtype.

Example C60_applies : 1 <= 5 <= 64 /\ 0 <= 17 < 2 ^ 5 /\ bits_of (Z.to_nat 5) 17 = [true; false; false; false; true].
Proof. vm_compute. repeat split; discriminate. Qed.
