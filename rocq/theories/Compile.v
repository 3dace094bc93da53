(** From the text of a schema file to the code that is generated for it: what the
    templates read from the syntax tree of a package, as a schema of Schema.v.

    Left out, and answered by None: names with a package, templates, parameterised
    types that are used without arguments, choices whose selector is not a parameter,
    bitmasks over subtypes (C73).  What expressions compute is a parameter of the model
    ([meaning]); it is the subject of C66 to C76. *)

Require Import ZArith String Ascii List Bool.
From Verif Require Import Bits Stream Scalars Traits Schema.
From Verif Require AstExpr AstTypes CodecChoice.
From Verif Require Import Packages Visitor Parser FileParser.
Import ListNotations.
Open Scope string_scope.
Open Scope list_scope.

(** What generated code computes for an expression [X] that stands in the declaration
    of a type: goExpression, internal/generator/expression.go, of a length or a
    condition; the conversion of an argument to the type of a parameter [P],
    encode_compound_parameters.go.tmpl:14; the number after "case", choice.go.tmpl:43
    (ResultIntValue). *)
Record meaning (X P : Type) := mkM {
  m_int : string -> X -> Schema.expr;
  m_cond : string -> X -> Schema.cond;
  m_arg : string -> P -> X -> env -> nat -> option value;
  m_label : string -> X -> Z
}.
Arguments m_int {X P}. Arguments m_cond {X P}. Arguments m_arg {X P}. Arguments m_label {X P}.

(** ** Types *)

(** The kinds of symbols of the type scope that GetOriginalType tells apart. *)
Inductive symbol := SyMarshaler | SySubtype (t : Visitor.tref) | SyOther.
Definition has {A} (n : string) (l : list (string * A)) : bool := match get n l with Some _ => true | None => false end.
(** CollectSymbols, internal/ast/package.go:63-108: a later loop overwrites the entries
    of the ones before. *)
Definition find_symbol (p : pkg) (n : string) : option symbol :=
  if has n (vp_choices p) || has n (vp_bitmasks p) || has n (vp_unions p) || has n (vp_enums p) || has n (vp_structs p) then Some SyMarshaler
  else if has n (vp_consts p) || has n (vp_instantiated p) then Some SyOther
  else option_map SySubtype (get n (vp_subtypes p)).

(** GetOriginalType, package.go:352-419, of a reference in the same package; the last
    component is RequiresCast.  [fuel] is 101 minus the counter. *)
Fixpoint GetOriginalType (fuel : nat) (p : pkg) (t : Visitor.tref) (cast : bool) : option (Visitor.tref * bool) :=
  match fuel with
  | O => None
  | Datatypes.S fuel' =>
      match t with
      | Visitor.TRef true _ _ _ _ => Some (t, cast)
      | Visitor.TRef false package n _ targs =>
          match package, targs with
          | EmptyString, [] =>
              match find_symbol p n with
              | Some SyMarshaler => Some (t, cast)
              | Some (SySubtype t') => GetOriginalType fuel' p t' true
              | Some SyOther | None => None
              end
          | _, _ => None
          end
      end
  end.

(** The codecs of the types with a name of their own: what Write{{ title Name }} and
    Read{{ title Name }} do ([C105_codec]). *)
Definition codecs : list (string * Traits.builtin) := [
  ("uint8", BUint8); ("uint16", BUint16); ("uint32", BUint32); ("uint64", BUint64);
  ("int8", BInt8); ("int16", BInt16); ("int32", BInt32); ("int64", BInt64);
  ("varint", BVarint); ("varint16", BVarint16); ("varint32", BVarint32); ("varint64", BVarint64);
  ("varuint", BVaruint); ("varuint16", BVaruint16); ("varuint32", BVaruint32); ("varuint64", BVaruint64); ("varsize", BVarsize);
  ("bool", BBool); ("string", BString); ("float16", BFloat16); ("float32", BFloat32); ("float64", BFloat64);
  ("bytes", BBytes); ("extern", BExtern)]%string.
(** encode.go.tmpl:4-7,65-76: the code for a builtin type; None is text that does not
    compile. *)
Definition builtin_basic (t : AstExpr.tref) (w : Schema.expr) : option basic :=
  if ((0 <? AstExpr.t_bits t)%Z || AstExpr.t_dynamic t)%bool then
    match AstTypes.GoType t with
    | Some go => option_map (fun g => Bits (AstExpr.t_name t =? "int")%string g (CodecChoice.bit_size t w)) (AstTypes.assoc go CodecChoice.go_ints)
    | None => None
    end
  else option_map Std (AstTypes.assoc (AstExpr.t_name t) codecs).
Definition basic_of (n : string) (bits : Z) (len : option Schema.expr) : option basic :=
  builtin_basic (AstExpr.mkT n bits (match len with Some _ => true | None => false end)) (CodecChoice.length_of len).

(** The number of a type: the place of its name in [names]. *)
Fixpoint place (n : string) (names : list string) : option nat :=
  match names with
  | [] => None
  | m :: l => if (m =? n)%string then Some O else option_map Datatypes.S (place n l)
  end.
(** TypeParameters of a symbol, package.go:425-453, for a type without template
    parameters.  Enums and bitmasks have none. *)
Definition params_of (p : pkg) (n : string) : option (list param) :=
  match get n (vp_choices p) with
  | Some c => match c_templates c with [] => Some (c_params c) | _ => None end
  | None => if has n (vp_bitmasks p) then Some [] else
  match get n (vp_unions p) with
  | Some u => match u_templates u with [] => Some (u_params u) | _ => None end
  | None => if has n (vp_enums p) then Some [] else
  match get n (vp_structs p) with
  | Some s => match s_templates s with [] => Some (s_params s) | _ => None end
  | None => None
  end end end.

(** encode_compound_parameters.go.tmpl: the parameters are set one after the other. *)
Fixpoint all_values {A} (l : list (option A)) : option (list A) :=
  match l with
  | [] => Some []
  | None :: _ => None
  | Some x :: l' => option_map (cons x) (all_values l')
  end.
Definition set_params (fs : list (env -> nat -> option value)) : arguments := fun E i => all_values (map (fun f => f E i) fs).
Fixpoint map2 {A B C} (f : A -> B -> C) (l : list A) (m : list B) : list C :=
  match l, m with x :: l', y :: m' => f x y :: map2 f l' m' | _, _ => [] end.

(** A type reference of a field: goNativeType of the field's type, the length
    expression being that of the native type, which a subtype does not have. *)
Definition compile_type (M : meaning Visitor.expr param) (p : pkg) (names : list string) (scope : string) (t : tinst) : option (ftype * bool) :=
  match GetOriginalType 101 p (ti_ref t) false with
  | None => None
  | Some (Visitor.TRef true _ n bits _, cast) =>
      match ti_args t with
      | [] => option_map (fun b => (TBasic b, cast)) (basic_of n bits (if cast then None else option_map (m_int M scope) (ti_length t)))
      | _ => None
      end
  | Some (Visitor.TRef false _ n _ _, cast) =>
      match place n names, params_of p n with
      | Some i, Some params =>
          if (length params =? length (ti_args t))%nat then
            Some (Schema.TRef i (set_params (map2 (m_arg M scope) params (ti_args t))), cast)
          else None
      | _, _ => None
      end
  end.

(** ** Fields *)

(** encode.go.tmpl and decode.go.tmpl: OptionalClause, Alignment, IsOptional, and
    array_init.go.tmpl: Array.Length and Array.IsPacked. *)
Definition compile_field (M : meaning Visitor.expr param) (p : pkg) (names : list string) (scope : string) (f : Visitor.field) : option Schema.field :=
  match compile_type M p names scope (Visitor.f_type f) with
  | None => None
  | Some (ft, cast) =>
      Some (mkF ft (option_map (fun a => (option_map (m_int M scope) (a_length a), a_packed a)) (Visitor.f_array f))
              (Visitor.f_optional f) (option_map (m_cond M scope) (f_if f)) (Z.to_nat (f_alignment f)) cast)
  end.

(** ** Declarations *)

(** enum.go.tmpl:114-126, bitmask.go.tmpl:24-36: the length expression is not looked
    at. *)
Definition compile_scalar (p : pkg) (t : tinst) (bitmask : bool) : option def :=
  match GetOriginalType 101 p (ti_ref t) false with
  | Some (Visitor.TRef true _ n bits _, cast) => if bitmask && cast then None else option_map DScalar (basic_of n bits None)
  | _ => None
  end.
(** choice.go.tmpl: "switch (v.{{ ResultSymbol.Symbol.Name }})".  A type of the same name
    would be found first (package.go: GetSymbol). *)
Definition compile_selector (p : pkg) (params : list param) (e : Visitor.expr) : option nat :=
  match e with
  | Visitor.Expr TkId n None None None => match find_symbol p n with None => place n (map fst params) | Some _ => None end
  | _ => None
  end.
Definition switch (i : nat) : list value -> option Z :=
  fun ps => match nth_error ps i with Some (VInt z) => Some z | _ => None end.
Definition compile_case (M : meaning Visitor.expr param) (p : pkg) (names : list string) (scope : string) (c : case) : option (list Z * option Schema.field) :=
  let labels := map (m_label M scope) (fst c) in
  match snd c with
  | None => Some (labels, None)
  | Some f => option_map (fun f' => (labels, Some f')) (compile_field M p names scope f)
  end.
Definition compile_default (M : meaning Visitor.expr param) (p : pkg) (names : list string) (scope : string) (c : option case) : option (option Schema.field) :=
  match c with
  | Some (_, Some f) => option_map Some (compile_field M p names scope f)
  | _ => Some None
  end.
(** struct.go.tmpl, union.go.tmpl, choice.go.tmpl, enum.go.tmpl and bitmask.go.tmpl.
    Nothing is generated for types with template parameters (gen.go:266-292). *)
Definition compile_def (M : meaning Visitor.expr param) (p : pkg) (names : list string) (n : string) : option def :=
  match get n (vp_choices p) with
  | Some c =>
      match c_templates c, compile_selector p (c_params c) (c_selector c), visit_all (compile_case M p names n) (c_cases c),
            compile_default M p names n (c_default c) with
      | [], Some i, Some cases, Some d => Some (DChoice (switch i) cases d)
      | _, _, _, _ => None
      end
  | None => match get n (vp_bitmasks p) with
  | Some b => compile_scalar p (b_type b) true
  | None => match get n (vp_unions p) with
  | Some u => match u_templates u with [] => option_map DUnion (visit_all (compile_field M p names n) (u_fields u)) | _ => None end
  | None => match get n (vp_enums p) with
  | Some e => compile_scalar p (e_type e) false
  | None => match get n (vp_structs p) with
  | Some s => match s_templates s with [] => option_map DStruct (visit_all (compile_field M p names n) (s_fields s)) | _ => None end
  | None => None
  end end end end end.
Definition compile (M : meaning Visitor.expr param) (p : pkg) (names : list string) : option schema := visit_all (compile_def M p names) names.

(** From a text: PackageFromFile, internal/model/package.go:10-31 (parse, then visit), and the
    templates. *)
Definition generate (M : meaning Visitor.expr param) (names : list string) (s : list ascii) : option schema :=
  match parse_file (stream s) with
  | Some f => match visit_file f with Some p => compile M p names | None => None end
  | None => None
  end.
