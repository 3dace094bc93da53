(** Which codecs the declarations of a schema file stand for.  The spec reads the file
    as it is written (the parse tree) and knows nothing of the generator. *)

Require Import ZArith String Ascii List Bool.
From Verif Require Import Bits Traits Schema.
From Verif Require Literals LiteralsSpec CodecChoiceSpec.
From Verif Require Import Visitor Compile.
From Verif Require VisitorSpec.
Import ListNotations.
Open Scope string_scope.
Open Scope list_scope.

(** What the expressions of the file mean, each in the declaration of a type. *)
Definition reading := meaning cexpr cparam.

(** ** Names *)

(** The name that a directive declares. *)
Definition declares (d : cdirective) : list string :=
  match d with
  | CConst _ n _ | CSubtype _ n | CInstantiate _ n => [n]
  | CStruct s => [cs_name s] | CChoice c => [cc_name c] | CUnion u => [cu_name u]
  | CEnum e => [ce_name e] | CBitmask b => [cb_name b]
  | CRules _ | COther _ => []
  end.
Definition declared_once (ds : list cdirective) : Prop := NoDup (flat_map declares ds).
(** The types for which there is code. *)
Definition type_name (d : cdirective) : list string :=
  match d with CStruct _ | CChoice _ | CUnion _ | CEnum _ | CBitmask _ => declares d | _ => [] end.

(** ** Types *)

(** [t'] is what [t] stands for after [k] subtypes. *)
Inductive stands_for (ds : list cdirective) : nat -> ctype -> ctype -> Prop :=
| SF_self : forall t, stands_for ds 0 t t
| SF_subtype : forall k n t t', In (CSubtype t n) ds -> stands_for ds k t t' -> stands_for ds (Datatypes.S k) (CNamed [n] []) t'.

(** The builtin types: a keyword; bit:N and int:N; bit<e> and int<e>. *)
Inductive builtin_means (I : reading) (scope : string) : ctype -> cparams -> basic -> Prop :=
| BM_keyword : forall n b g, In (n, (b, g)) CodecChoiceSpec.named_types -> builtin_means I scope (CKeyword n) CNone (Std b)
| BM_standard : forall (signed : bool) w, In w [8; 16; 32; 64]%nat ->
    builtin_means I scope (CBitField signed (Some w)) CNone
      (Std (if signed then BSBits (GS (Z.of_nat w)) (Z.of_nat w) else BBits (GU (Z.of_nat w)) (Z.of_nat w)))
| BM_width : forall signed w g, (1 <= w <= 64)%nat -> ~ In w [8; 16; 32; 64]%nat -> CodecChoiceSpec.smallest (Z.of_nat w) g ->
    builtin_means I scope (CBitField signed (Some w)) CNone (Bits signed (CodecChoiceSpec.gint signed g) (fun _ => Some (Z.of_nat w)))
| BM_length : forall signed e,
    builtin_means I scope (CBitField signed None) (CLength e) (Bits signed (CodecChoiceSpec.gint signed 64) (m_int I scope e)).

(** The declared types and their parameters. *)
Inductive has_params (ds : list cdirective) : string -> list cparam -> Prop :=
| HP_struct : forall s, In (CStruct s) ds -> cs_templates s = [] -> has_params ds (cs_name s) (cs_params s)
| HP_union : forall u, In (CUnion u) ds -> cu_templates u = [] -> has_params ds (cu_name u) (cu_params u)
| HP_choice : forall c, In (CChoice c) ds -> cc_templates c = [] -> has_params ds (cc_name c) (cc_params c)
| HP_enum : forall e, In (CEnum e) ds -> has_params ds (ce_name e) []
| HP_bitmask : forall b, In (CBitmask b) ds -> has_params ds (cb_name b) [].

(** The values of the parameters: those of the arguments, in order. *)
Fixpoint all_of {A} (l : list (option A)) : option (list A) :=
  match l with
  | [] => Some []
  | None :: _ => None
  | Some x :: l' => option_map (cons x) (all_of l')
  end.
Definition values_of (fs : list (env -> nat -> option value)) : arguments := fun E i => all_of (map (fun f => f E i) fs).
Inductive args_mean (I : reading) (scope : string) : list cparam -> cparams -> list (env -> nat -> option value) -> Prop :=
| AM_none : args_mean I scope [] CNone []
| AM_args : forall params es fs, es <> [] -> Forall2 (fun pe f => f = m_arg I scope (fst pe) (snd pe)) (combine params es) fs ->
    length params = length es -> args_mean I scope params (CArgs (map CArg es)) fs.

(** A type where it is used, and whether it is named by a subtype.  The number of a
    declared type is its place in [names]. *)
Inductive type_means (I : reading) (ds : list cdirective) (names : list string) (scope : string) : cinst -> ftype -> bool -> Prop :=
| TM_builtin : forall t ps b, builtin_means I scope t ps b -> type_means I ds names scope (mkCI t ps) (TBasic b) false
| TM_subtype : forall k t t' b, (1 <= k <= 100)%nat -> stands_for ds k t t' -> builtin_means I scope t' CNone b ->
    type_means I ds names scope (mkCI t CNone) (TBasic b) true
| TM_declared : forall k t n ps i params fs, (k <= 100)%nat -> stands_for ds k t (CNamed [n] []) ->
    has_params ds n params -> nth_error names i = Some n -> args_mean I scope params ps fs ->
    type_means I ds names scope (mkCI t ps) (Schema.TRef i (values_of fs)) (0 <? k)%nat.

(** ** Fields *)

(** An array: its length, none for one with an automatic length, and whether it is
    packed. *)
Inductive array_means (I : reading) (scope : string) : cfieldtype -> option (option Schema.expr * bool) -> Prop :=
| RM_none : forall p i t n, array_means I scope (mkCFT p i t n None) None
| RM_auto : forall p t n, array_means I scope (mkCFT p false t n (Some None)) (Some (None, p))
| RM_length : forall p t n e, array_means I scope (mkCFT p false t n (Some (Some e))) (Some (Some (m_int I scope e), p)).
Inductive align_means : option cexpr -> nat -> Prop :=
| LM_none : align_means None 0
| LM_literal : forall t a, LiteralsSpec.int_literal Literals.TDecimal (list_ascii_of_string t) (Z.of_nat a) -> (a <= 255)%nat ->
    align_means (Some (CLiteral Literals.TDecimal t)) a.
Definition condition_means (I : reading) (scope : string) (e : option cexpr) : option Schema.cond :=
  match e with Some c => Some (m_cond I scope c) | None => None end.

Inductive field_means (I : reading) (ds : list cdirective) (names : list string) (scope : string) : cfield -> Schema.field -> Prop :=
| FM : forall f t a al cast, type_means I ds names scope (ft_inst (cf_type f)) t cast -> array_means I scope (cf_type f) a -> align_means (cf_align f) al ->
    field_means I ds names scope f (mkF t a (cf_optional f) (condition_means I scope (cf_if f)) al cast).
(** A member of a union or a choice. *)
Inductive member_means (I : reading) (ds : list cdirective) (names : list string) (scope : string) : cchoicefield -> Schema.field -> Prop :=
| MM : forall f t a cast, type_means I ds names scope (ft_inst (ccf_type f)) t cast -> array_means I scope (ccf_type f) a ->
    member_means I ds names scope f (mkF t a false None 0 cast).
Inductive slot_means (I : reading) (ds : list cdirective) (names : list string) (scope : string) : option cchoicefield -> option Schema.field -> Prop :=
| SM_none : slot_means I ds names scope None None
| SM_field : forall f f', member_means I ds names scope f f' -> slot_means I ds names scope (Some f) (Some f').

(** ** Declarations *)

(** The integer that the parameter number [i] is. *)
Definition parameter (i : nat) : list value -> option Z :=
  fun ps => match nth_error ps i with Some (VInt z) => Some z | _ => None end.

Inductive def_means (I : reading) (ds : list cdirective) (names : list string) : string -> def -> Prop :=
| DM_struct : forall s fs, In (CStruct s) ds -> cs_templates s = [] -> Forall2 (field_means I ds names (cs_name s)) (cs_fields s) fs ->
    def_means I ds names (cs_name s) (DStruct fs)
| DM_union : forall u fs, In (CUnion u) ds -> cu_templates u = [] -> Forall2 (member_means I ds names (cu_name u)) (cu_fields u) fs ->
    def_means I ds names (cu_name u) (DUnion fs)
| DM_choice : forall c x i cases d, In (CChoice c) ds -> cc_templates c = [] ->
    cc_on c = CId x -> NoDup (map snd (cc_params c)) -> nth_error (map snd (cc_params c)) i = Some x -> ~ In x (flat_map declares ds) ->
    Forall2 (fun a b => fst b = map (m_label I (cc_name c)) (fst a) /\ slot_means I ds names (cc_name c) (snd a) (snd b)) (cc_cases c) cases ->
    slot_means I ds names (cc_name c) (match cc_default c with Some f => f | None => None end) d ->
    def_means I ds names (cc_name c) (DChoice (parameter i) cases d)
| DM_enum : forall e k t b, In (CEnum e) ds -> ci_params (ce_type e) = CNone -> (k <= 100)%nat -> stands_for ds k (ci_type (ce_type e)) t ->
    builtin_means I (ce_name e) t CNone b -> def_means I ds names (ce_name e) (DScalar b)
| DM_bitmask : forall m b, In (CBitmask m) ds -> ci_params (cb_type m) = CNone ->
    builtin_means I (cb_name m) (ci_type (cb_type m)) CNone b -> def_means I ds names (cb_name m) (DScalar b).

(** A file: [names] are its types, in any order, and the schema has their definitions
    in that order. *)
Definition file_means (I : reading) (f : cfile) (names : list string) (sch : schema) : Prop :=
  cfl_package f <> None /\ declared_once (cfl_directives f) /\ Forall VisitorSpec.ident (flat_map declares (cfl_directives f)) /\
  NoDup names /\ (forall n, In n names <-> In n (flat_map type_name (cfl_directives f))) /\
  Forall2 (def_means I (cfl_directives f) names) names sch.

(** The generated code and the spec agree on what expressions mean. *)
Definition agree (I : reading) (M : meaning Visitor.expr param) : Prop :=
  (forall scope e, m_int M scope (visit_expr e) = m_int I scope e) /\
  (forall scope e, m_cond M scope (visit_expr e) = m_cond I scope e) /\
  (forall scope p e, m_arg M scope (visit_param p) (visit_expr e) = m_arg I scope p e) /\
  (forall scope e, m_label M scope (visit_expr e) = m_label I scope e).
