(** What template instantiation should do. *)

Require Import ZArith String Ascii List Bool.
From Verif Require Import Files Templates.
Import ListNotations.
Open Scope Z_scope.

(** The type that stands for a template parameter. *)
Fixpoint argument (n : text) (ps : list text) (ts : list ty) : option ty :=
  match ps, ts with
  | p :: ps', t :: ts' => if list_eq_dec ascii_dec p n then Some t else argument n ps' ts'
  | _, _ => None
  end.

(** A type without template arguments, with the parameters replaced. *)
Definition substituted (ps : list text) (ts : list ty) (t : ty) : ty :=
  match ty_package t, argument (ty_name t) ps ts with
  | [], Some x => x
  | _, _ => t
  end.

(** The reference to an instance. *)
Definition reference (pkg : text) (t : ty) (args : list ty) : ty := Ty false pkg (generateInstantiatedName t args) 0 [].

(** The instance of a template for given types: each parameter is replaced, each
    use of a template is a reference to its instance. *)
Definition instance (pkg : text) (s : struct_def) (ts : list ty) : struct_def :=
  mkS [] (map (fun f => (fst f,
    match ty_args (snd f) with
    | [] => substituted (s_params s) ts (snd f)
    | args => reference pkg (snd f) (map (substituted (s_params s) ts) args)
    end)) (s_fields s)).

(** Templates whose parameters are distinct and whose fields use templates only
    with arguments of [U], which have no template arguments themselves, or with
    their own parameters. *)
Definition flat (U : ty -> Prop) (sc : structs) : Prop :=
  (forall t, U t -> ty_args t = []) /\
  forall n s, find_struct n sc = Some s -> NoDup (s_params s) /\
    forall f t a, In (f, t) (s_fields s) -> In a (ty_args t) ->
      (In (ty_name a) (s_params s) -> ty_package a = []) /\ (In (ty_name a) (s_params s) \/ U a).

(** A use of a template of the scope with the right number of arguments. *)
Definition use (U : ty -> Prop) (sc : structs) (t : ty) (args : list ty) (s : struct_def) : Prop :=
  find_struct (ty_name t) sc = Some s /\ length (s_params s) = length args /\ args <> [] /\ Forall U args.

(** Different instances have different names, which are not those of other structs. *)
Definition distinct (U : ty -> Prop) (sc : structs) : Prop :=
  (forall t1 l1 s1 t2 l2 s2, use U sc t1 l1 s1 -> use U sc t2 l2 s2 ->
    generateInstantiatedName t1 l1 = generateInstantiatedName t2 l2 -> ty_name t1 = ty_name t2 /\ l1 = l2) /\
  (forall t l s, use U sc t l s -> find_struct (generateInstantiatedName t l) sc = None).

(** [sc] is [sc0] and right instances, with all instances that these refer to. *)
Definition right (U : ty -> Prop) (pkg : text) (sc0 sc : structs) : Prop :=
  (forall n s, find_struct n sc0 = Some s -> find_struct n sc = Some s) /\
  (forall n s, find_struct n sc = Some s -> find_struct n sc0 = Some s \/
    exists t l s0, use U sc0 t l s0 /\ n = generateInstantiatedName t l /\ s = instance pkg s0 l /\
      forall f t', In (f, t') (s_fields s0) -> ty_args t' <> [] ->
        exists s1, use U sc0 t' (map (substituted (s_params s0) l) (ty_args t')) s1 /\
          find_struct (generateInstantiatedName t' (map (substituted (s_params s0) l) (ty_args t'))) sc =
            Some (instance pkg s1 (map (substituted (s_params s0) l) (ty_args t')))).

(** A word with one capital letter, at its beginning. *)
Definition capital (c : ascii) : Prop := (65 <= nat_of_ascii c <= 90)%nat.
Definition word (w : text) : Prop := exists c r, w = c :: r /\ capital c /\ Forall (fun x => ~ capital x) r.

(** ** Recursion *)

(** A type without template arguments; names are not empty. *)
Definition ground (a : ty) : Prop := ty_args a = [] /\ ty_name a <> [].
(** [t] is a template of the scope that uses itself with types that are not
    templates; the fields before do not use templates. *)
Definition recursive (sc : structs) (t : ty) (n : nat) : Prop :=
  exists s before f t' after, find_struct (ty_name t) sc = Some s /\ length (s_params s) = n /\
    s_fields s = before ++ (f, t') :: after /\
    Forall (fun x => ty_args (snd x) = []) before /\
    ty_name t' = ty_name t /\ length (ty_args t') = n /\ Forall ground (ty_args t').

(** No template uses another one of the same or a higher rank. *)
Definition ranked (rank : text -> nat) (sc : structs) : Prop :=
  forall n s f t, find_struct n sc = Some s -> In (f, t) (s_fields s) -> ty_args t <> [] -> (rank (ty_name t) < rank n)%nat.
