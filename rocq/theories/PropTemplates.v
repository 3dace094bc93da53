(** Properties of template instantiation. *)

Require Import ZArith String Ascii List Bool Lia.
From Verif Require Import Files Templates TemplatesSpec TemplatesFacts.
Import ListNotations.
Open Scope Z_scope.

(** ** C40 *)

(** If different instances have different names, then a successful instantiation
    leaves all structs as they are, adds the right instances, and all instances
    these refer to, and returns a reference to the right one. *)
Theorem C40_instances : forall U pkg sc fuel t args t' sc', flat U sc -> distinct U sc -> Forall U args -> args <> [] ->
  instantiateType fuel pkg sc t args = Done t' sc' ->
  exists s, use U sc t args s /\ right U pkg sc sc' /\ t' = reference pkg t args /\
    find_struct (ty_name t') sc' = Some (instance pkg s args).
Proof. exact instances_right. Qed.
Print Assumptions C40_instances.

(** They have different names if all names are words with one capital letter, at the
    beginning, and different types have different names. *)
Theorem C40_words : forall (U : ty -> Prop) sc,
  (forall t, U t -> word (Title (ty_name t))) ->
  (forall t u, U t -> U u -> Title (ty_name t) = Title (ty_name u) -> t = u) ->
  (forall n s, find_struct n sc = Some s -> word n) ->
  distinct U sc.
Proof. exact words_distinct. Qed.
Print Assumptions C40_words.

(** Otherwise a struct that has the name already is taken, whatever it is. *)
Theorem C40_reuse : forall pkg sc fuel t args s s', find_struct (ty_name t) sc = Some s -> length (s_params s) = length args ->
  args <> [] -> Forall (fun a => ty_args a = []) args -> find_struct (generateInstantiatedName t args) sc = Some s' ->
  instantiateType (S (S fuel)) pkg sc t args = Done (reference pkg t args) sc.
Proof. exact reuse. Qed.
Print Assumptions C40_reuse.

(** This happens for types of the same name but of different width or package, or
    with different template arguments, ... *)
Theorem C40_same_names : forall t args args', map ty_name args = map ty_name args' ->
  generateInstantiatedName t args = generateInstantiatedName t args'.
Proof. exact same_names. Qed.
Print Assumptions C40_same_names.

(** ... and for names composed of the same capitalised parts: T<X, YZ> and T<XY, Z>. *)
Theorem C40_same_parts : forall t a b c d x y z, ty_name a = x -> ty_name b = y ++ z -> ty_name c = x ++ y -> ty_name d = z ->
  Title x = x -> Title y = y -> Title z = z -> x <> [] -> y <> [] ->
  generateInstantiatedName t [a; b] = generateInstantiatedName t [c; d].
Proof. exact same_parts. Qed.
Print Assumptions C40_same_parts.

(** struct Pair<A, B> { A a; Box<B> b; }; struct Box<T> { T x; int:5 y; } *)
Definition builtin (n : string) (bits : Z) : ty := Ty true [] (str n) bits [].
Definition param (n : string) : ty := Ty false [] (str n) 0 [].
Definition named (n : string) (args : list ty) : ty := Ty false (str "p") (str n) 0 args.
Definition ex_scope : structs := [
  (str "Pair", mkS [str "A"; str "B"] [(str "a", param "A"); (str "b", named "Box" [param "B"])]);
  (str "Box", mkS [str "T"] [(str "x", param "T"); (str "y", builtin "int" 5)])].
Definition ex_types (t : ty) : Prop := t = builtin "bool" 0 \/ t = builtin "uint32" 0.

Example C40_applies :
  flat ex_types ex_scope /\ distinct ex_types ex_scope /\
  instantiateType 3 (str "p") ex_scope (named "Pair" []) [builtin "bool" 0; builtin "uint32" 0] =
    Done (named "PairBoolUint32" [])
      ((str "PairBoolUint32", mkS [] [(str "a", builtin "bool" 0); (str "b", named "BoxUint32" [])]) ::
       (str "BoxUint32", mkS [] [(str "x", builtin "uint32" 0); (str "y", builtin "int" 5)]) :: ex_scope).
Proof.
  assert (Hfind : forall n s, find_struct n ex_scope = Some s ->
    (n = str "Pair" /\ s = mkS [str "A"; str "B"] [(str "a", param "A"); (str "b", named "Box" [param "B"])]) \/
    (n = str "Box" /\ s = mkS [str "T"] [(str "x", param "T"); (str "y", builtin "int" 5)])).
  { intros n s H. unfold ex_scope in H. cbn [find_struct] in H. destruct (eq_text (str "Pair") n) eqn:E1.
    - apply eq_text_spec in E1. left. split; congruence.
    - destruct (eq_text (str "Box") n) eqn:E2; [|discriminate]. apply eq_text_spec in E2. right. split; congruence. }
  refine (conj _ (conj _ _)).
  - split; [intros t [-> | ->]; reflexivity|]. intros n s H. destruct (Hfind _ _ H) as [[-> ->]|[-> ->]].
    + split; [cbn; repeat constructor; cbn; intuition discriminate|]. intros f t a [Hf|[Hf|[]]] Ha; assert (t = snd (f, t)) by reflexivity; injection Hf as <- <-.
      * destruct Ha.
      * destruct Ha as [<-|[]]. split; [reflexivity|left]. cbn. tauto.
    + split; [cbn; repeat constructor; cbn; intuition discriminate|]. intros f t a [Hf|[Hf|[]]] Ha; injection Hf as <- <-; destruct Ha.
  - apply C40_words.
    + intros t [-> | ->]; cbn; [exists "B"%char, (str "ool")|exists "U"%char, (str "int32")]; (split; [reflexivity|split; [unfold capital; cbn; lia|]]);
        repeat constructor; unfold capital; cbn; lia.
    + intros t u [-> | ->] [-> | ->] H; try reflexivity; discriminate.
    + intros n s H. destruct (Hfind _ _ H) as [[-> _]|[-> _]]; [exists "P"%char, (str "air")|exists "B"%char, (str "ox")];
        (split; [reflexivity|split; [unfold capital; cbn; lia|]]); repeat constructor; unfold capital; cbn; lia.
  - vm_compute. reflexivity.
Qed.

(** Box<int:6> after Box<int:5> is Box<int:5>. *)
Theorem C40_refuted : exists pkg sc t a b r sc1 sc2 s, a <> b /\
  instantiateType 3 pkg sc t [a] = Done r sc1 /\ instantiateType 3 pkg sc1 t [b] = Done r sc2 /\
  find_struct (ty_name t) sc = Some s /\ find_struct (ty_name r) sc2 = Some (instance pkg s [a]) /\
  instance pkg s [a] <> instance pkg s [b].
Proof.
  exists (str "p"), ex_scope, (named "Box" []), (builtin "int" 5), (builtin "int" 6).
  do 4 eexists. split; [discriminate|]. split; [vm_compute; reflexivity|]. split; [vm_compute; reflexivity|].
  split; [vm_compute; reflexivity|]. split; [vm_compute; reflexivity|]. discriminate.
Qed.
Print Assumptions C40_refuted.

(** ** C61 *)

(** Instantiation ends if the templates do not use each other in a cycle ... *)
Theorem C61_ends : forall pkg rank sc t args fuel, ranked rank sc ->
  (forall n s x u, find_struct n sc = Some s -> In (x, u) (s_fields s) -> Forall (fun a => ty_args a = []) (ty_args u)) ->
  Forall (fun a => ty_args a = []) args -> args <> [] -> (rank (ty_name t) + 1 < fuel)%nat ->
  instantiateType fuel pkg sc t args <> Deep.
Proof. exact ranked_ends. Qed.
Print Assumptions C61_ends.

(** ... and does not end for a template that uses itself. *)
Theorem C61_recursive : forall pkg sc t n, recursive sc t n ->
  (forall args, args <> [] -> Forall ground args -> find_struct (generateInstantiatedName t args) sc = None) ->
  forall fuel args, n <> 0%nat -> length args = n -> Forall ground args -> instantiateType fuel pkg sc t args = Deep.
Proof. exact recursive_deep. Qed.
Print Assumptions C61_recursive.

(** struct List<T> { T x; optional List<T> next; } *)
Definition ex_list : structs := [(str "List", mkS [str "T"] [(str "x", param "T"); (str "next", named "List" [param "T"])])].
Example C61_applies :
  ranked (fun n => if eq_text n (str "Pair") then 1 else 0)%nat ex_scope /\
  recursive ex_list (named "List" []) 1 /\
  (forall args, args <> [] -> Forall ground args -> find_struct (generateInstantiatedName (named "List" []) args) ex_list = None).
Proof.
  refine (conj _ (conj _ _)).
  - intros n s f t H Hin Hne. unfold ex_scope in H. cbn [find_struct] in H. destruct (eq_text (str "Pair") n) eqn:E1.
    + apply eq_text_spec in E1. injection H as <-. subst n. destruct Hin as [Hin|[Hin|[]]]; injection Hin as <- <-; [easy|]. vm_compute. lia.
    + destruct (eq_text (str "Box") n); [|discriminate]. injection H as <-. destruct Hin as [Hin|[Hin|[]]]; injection Hin as <- <-; easy.
  - exists (mkS [str "T"] [(str "x", param "T"); (str "next", named "List" [param "T"])]), [(str "x", param "T")], (str "next"), (named "List" [param "T"]), [].
    repeat split; try reflexivity; repeat constructor. discriminate.
  - intros args Hne Hn. unfold ex_list. cbn [find_struct]. destruct (eq_text _ _) eqn:E; [|reflexivity]. apply eq_text_spec in E. exfalso.
    destruct args as [|a args]; [easy|]. inversion Hn as [|? ? [_ Hg] _]; subst. destruct (ty_name a) as [|c r] eqn:Ea; [easy|].
    cbn in E. rewrite Ea in E. discriminate E.
Qed.

(** ** C62 *)

(** A field that uses a template without passing one of the parameters itself becomes
    the same in all instances, even if a parameter occurs deeper. *)
Theorem C62_ignored : forall inst ps sc x t ts ts', ty_args t <> [] -> (forall a, In a (ty_args t) -> ~ In (ty_name a) ps) ->
  instantiateField inst ps ts sc (x, t) = instantiateField inst ps ts' sc (x, t).
Proof. exact nested_ignored. Qed.
Print Assumptions C62_ignored.

(** So template parameters within arguments of arguments are not replaced: for
    struct Foo<T> { Box<Box<T>> x; }, Foo<bool> leads to a struct with a field of
    the unknown type T. *)
Theorem C62_nested_refuted : exists pkg sc t args t' sc' n s f u, args <> [] /\
  instantiateType 5 pkg sc t args = Done t' sc' /\
  find_struct n sc' = Some s /\ s_params s = [] /\ In (f, u) (s_fields s) /\
  u = param "T" /\ find_struct (ty_name u) sc' = None.
Proof.
  exists (str "p"), ((str "Foo", mkS [str "T"] [(str "x", named "Box" [named "Box" [param "T"]])]) :: ex_scope), (named "Foo" []), [builtin "bool" 0].
  do 2 eexists. exists (str "BoxT"). do 3 eexists. split; [discriminate|]. split; [vm_compute; reflexivity|].
  split; [vm_compute; reflexivity|]. split; [reflexivity|]. split; [left; reflexivity|]. split; vm_compute; reflexivity.
Qed.
Print Assumptions C62_nested_refuted.

(** ** C63 *)

(** All fields whose type is a template parameter pass the arguments of the last
    of them. *)
Theorem C63_last : forall (E : Type) p (fields : list (text * (text * list E))) initial a x es b,
  fields = a ++ (x, (p, es)) :: b -> (forall y, In y b -> fst (snd y) <> p) ->
  forall f, In f fields -> instance_arguments p fields initial f = if eq_text (fst (snd f)) p then es else snd (snd f).
Proof. exact @last_arguments. Qed.
Print Assumptions C63_last.

(** T(1) x; int y; T(2) z; *)
Example C63_applies :
  let fields := [(str "x", (str "T", [1])); (str "y", (str "int", [])); (str "z", (str "T", [2]))] in
  map (instance_arguments (str "T") fields []) fields = [[2]; []; [2]].
Proof. reflexivity. Qed.
