(** What a schema file says that matters, and what of it the visitor drops. *)

Require Import ZArith String Ascii List Bool.
From Verif Require Literals LiteralsSpec.
From Verif Require Import Packages Visitor.
Import ListNotations.
Open Scope string_scope.

(** ** Schema files *)

(** ID, ZserioLexer.g4:154. *)
Definition id_char (c : ascii) : bool :=
  let n := nat_of_ascii c in
  ((65 <=? n) && (n <=? 90) || (97 <=? n) && (n <=? 122) || (n =? 95) || (48 <=? n) && (n <=? 57))%nat.
Definition ident (s : string) : Prop := s <> "" /\ forallb id_char (list_ascii_of_string s) = true.

(** The keywords of intType, varintType, boolType, stringType, floatType, externType
    and bytesType. *)
Definition keywords : list string :=
  ["int8"; "int16"; "int32"; "int64"; "uint8"; "uint16"; "uint32"; "uint64";
   "varint"; "varint16"; "varint32"; "varint64"; "varsize"; "varuint"; "varuint16"; "varuint32"; "varuint64";
   "bool"; "string"; "float16"; "float32"; "float64"; "extern"; "bytes"].

(** A type as it can be written: bit fields have 1 to 64 bits. *)
Fixpoint proper_type (t : ctype) : Prop :=
  match t with
  | CKeyword n => In n keywords
  | CBitField _ None => True
  | CBitField _ (Some w) => (1 <= w <= 64)%nat
  | CNamed names args => names <> [] /\ Forall ident names /\ fold_right (fun a P => proper_type a /\ P) True args
  end.
(** An argument list is not empty. *)
Definition proper_inst (i : cinst) : Prop := proper_type (ci_type i) /\ ci_params i <> CArgs [].
(** A decimal literal as it can be written. *)
Definition proper_align (e : option cexpr) : Prop :=
  forall t, e = Some (CLiteral Literals.TDecimal t) -> exists z, LiteralsSpec.int_literal Literals.TDecimal (list_ascii_of_string t) z.
Definition proper_field (f : cfield) : Prop := proper_inst (ft_inst (cf_type f)) /\ proper_align (cf_align f).
Definition proper_choice_field (f : cchoicefield) : Prop := proper_inst (ft_inst (ccf_type f)).
Definition proper_param (p : cparam) : Prop := proper_type (fst p).
Definition proper_function (f : cfunction) : Prop := proper_type (cfn_type f).
Definition proper_struct (s : cstruct) : Prop :=
  Forall proper_param (cs_params s) /\ Forall proper_field (cs_fields s) /\ Forall proper_function (cs_functions s).
Definition proper_union (u : cunion) : Prop :=
  Forall proper_param (cu_params u) /\ Forall proper_choice_field (cu_fields u) /\ Forall proper_function (cu_functions u).
Definition proper_slot (f : option cchoicefield) : Prop := match f with Some f => proper_choice_field f | None => True end.
Definition proper_choice (c : cchoice) : Prop :=
  Forall proper_param (cc_params c) /\ Forall (fun x => proper_slot (snd x)) (cc_cases c) /\
  match cc_default c with Some f => proper_slot f | None => True end /\ Forall proper_function (cc_functions c).

(** ** What is dropped *)

(** bit:8, bit:16, bit:32, bit:64 are uint8 to uint64, int:8 to int:64 are int8 to int64. *)
Definition same_as (signed : bool) (w : nat) : option string :=
  match signed, w with
  | false, 8 => Some "uint8" | false, 16 => Some "uint16" | false, 32 => Some "uint32" | false, 64 => Some "uint64"
  | true, 8 => Some "int8" | true, 16 => Some "int16" | true, 32 => Some "int32" | true, 64 => Some "int64"
  | _, _ => None
  end%nat.
Fixpoint strip_type (t : ctype) : ctype :=
  match t with
  | CKeyword n => CKeyword n
  | CBitField s None => CBitField s None
  | CBitField s (Some w) => match same_as s w with Some n => CKeyword n | None => CBitField s (Some w) end
  | CNamed names args => CNamed names (map strip_type args)
  end.
(** "explicit" before an argument. *)
Definition strip_arg (a : carg) : carg := match a with CExplicit n => CArg (CId n) | CArg e => CArg e end.
Definition strip_inst (i : cinst) : cinst :=
  mkCI (strip_type (ci_type i)) (match ci_params i with CArgs l => CArgs (map strip_arg l) | p => p end).
(** "packed" and "implicit" if there is no array. *)
Definition strip_field_type (t : cfieldtype) : cfieldtype :=
  match ft_range t with
  | None => mkCFT false false (strip_inst (ft_inst t)) (ft_name t) None
  | Some r => mkCFT (ft_packed t) (ft_implicit t) (strip_inst (ft_inst t)) (ft_name t) (Some r)
  end.
(** An alignment to 0 bits, offsets, "extend". *)
Definition strip_align (e : option cexpr) : option cexpr :=
  match e with
  | Some (CLiteral Literals.TDecimal "0") => None
  | e => e
  end.
Definition strip_field (f : cfield) : cfield :=
  mkCF (strip_align (cf_align f)) None false (cf_optional f) (strip_field_type (cf_type f)) (cf_init f) (cf_if f) (cf_constraint f).
(** The constraint of a field of a choice or union. *)
Definition strip_choice_field (f : cchoicefield) : cchoicefield := mkCCF (strip_field_type (ccf_type f)) None.
Definition strip_param (p : cparam) : cparam := (strip_type (fst p), snd p).
Definition strip_function (f : cfunction) : cfunction := mkCFn (strip_type (cfn_type f)) (cfn_name f) (cfn_body f).
Definition strip_struct (s : cstruct) : cstruct :=
  mkCS (cs_name s) (cs_templates s) (map strip_param (cs_params s)) (map strip_field (cs_fields s)) (map strip_function (cs_functions s)).
Definition strip_union (u : cunion) : cunion :=
  mkCU (cu_name u) (cu_templates u) (map strip_param (cu_params u)) (map strip_choice_field (cu_fields u)) (map strip_function (cu_functions u)).
Definition strip_choice (c : cchoice) : cchoice :=
  mkCC (cc_name c) (cc_templates c) (map strip_param (cc_params c)) (cc_on c)
    (map (fun x => (fst x, option_map strip_choice_field (snd x))) (cc_cases c))
    (option_map (option_map strip_choice_field) (cc_default c)) (map strip_function (cc_functions c)).
(** "deprecated" and "removed". *)
Definition strip_enum (e : cenum) : cenum :=
  mkCE (strip_inst (ce_type e)) (ce_name e) (map (fun '(_, n, v) => (None, n, v)) (ce_items e)).
Definition strip_bitmask (b : cbitmask) : cbitmask := mkCB (strip_inst (cb_type b)) (cb_name b) (cb_values b).
Definition strip_directive (d : cdirective) : list cdirective :=
  match d with
  | CConst t n e => [CConst (strip_inst t) n e]
  | CSubtype t n => [CSubtype (strip_type t) n]
  | CInstantiate t n => [CInstantiate (strip_type t) n]
  | CStruct s => [CStruct (strip_struct s)]
  | CChoice c => [CChoice (strip_choice c)]
  | CUnion u => [CUnion (strip_union u)]
  | CEnum e => [CEnum (strip_enum e)]
  | CBitmask b => [CBitmask (strip_bitmask b)]
  | CRules _ | COther _ => []
  end.
(** The compatibility version, rules, SQL, services and pubsub. *)
Definition strip_file (f : cfile) : cfile :=
  mkCFile None (cfl_package f) (cfl_imports f) (flat_map strip_directive (cfl_directives f)).

(** ** Files that cannot be read *)

(** An alignment that is not a decimal literal up to 255. *)
Definition bad_align (f : cfield) : Prop :=
  exists e, cf_align f = Some e /\
  ~ exists t z, e = CLiteral Literals.TDecimal t /\ LiteralsSpec.int_literal Literals.TDecimal (list_ascii_of_string t) z /\ (z <= 255)%Z.
Definition implicit_array (t : cfieldtype) : Prop := ft_implicit t = true /\ ft_range t <> None.
Definition bad_slot (f : option cchoicefield) : Prop := exists g, f = Some g /\ implicit_array (ccf_type g).
Definition bad_directive (d : cdirective) : Prop :=
  match d with
  | CStruct s => exists f, In f (cs_fields s) /\ (bad_align f \/ implicit_array (cf_type f))
  | CUnion u => exists f, In f (cu_fields u) /\ implicit_array (ccf_type f)
  | CChoice c => (exists x, In x (cc_cases c) /\ bad_slot (snd x)) \/ (exists f, cc_default c = Some f /\ bad_slot f)
  | _ => False
  end.
Definition proper_aligns (d : cdirective) : Prop :=
  match d with CStruct s => Forall (fun f => proper_align (cf_align f)) (cs_fields s) | _ => True end.

(** ** Declarations with the same name *)

(** [x] is the last directive of the list that [get] takes for a declaration of the
    name. *)
Definition last_such {A} (pick : cdirective -> option A) (name : A -> string) (n : string) (l : list cdirective) (x : A) : Prop :=
  exists l1 d l2, l = (l1 ++ d :: l2)%list /\ pick d = Some x /\ name x = n /\
    forall d' y, In d' l2 -> pick d' = Some y -> name y <> n.
Definition no_such {A} (pick : cdirective -> option A) (name : A -> string) (n : string) (l : list cdirective) : Prop :=
  forall d y, In d l -> pick d = Some y -> name y <> n.
(** The declarations of each kind. *)
Definition pick_struct (d : cdirective) : option cstruct := match d with CStruct s => Some s | _ => None end.
Definition pick_choice (d : cdirective) : option cchoice := match d with CChoice s => Some s | _ => None end.
Definition pick_union (d : cdirective) : option cunion := match d with CUnion s => Some s | _ => None end.
Definition pick_enum (d : cdirective) : option cenum := match d with CEnum s => Some s | _ => None end.
Definition pick_bitmask (d : cdirective) : option cbitmask := match d with CBitmask s => Some s | _ => None end.
Definition pick_const (d : cdirective) : option (cinst * string * cexpr) := match d with CConst t n e => Some (t, n, e) | _ => None end.
Definition pick_subtype (d : cdirective) : option (ctype * string) := match d with CSubtype t n => Some (t, n) | _ => None end.
Definition pick_instantiate (d : cdirective) : option (ctype * string) := match d with CInstantiate t n => Some (t, n) | _ => None end.
