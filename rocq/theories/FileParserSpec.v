(** How schema files are written: the tokens of the declarations, and which files can be
    written without another reading. *)

Require Import ZArith String Ascii List Bool.
From Verif Require Files Literals.
From Verif Require Import Visitor Parser ParserSpec.
Import ListNotations.
Open Scope nat_scope.
Open Scope string_scope.
Open Scope list_scope.

Definition tok_id (n : string) : ptok := ("ID", n).
Definition COMMA : ptok := ("COMMA", ",").
Definition COLON : ptok := ("COLON", ":").
Definition SEMI : ptok := ("SEMICOLON", ";").
Definition DOT : ptok := ("DOT", ".").
Definition LT : ptok := ("LT", "<").
Definition GT : ptok := ("GT", ">").
Definition LBRACE : ptok := ("LBRACE", "{").
Definition RBRACE : ptok := ("RBRACE", "}").
Definition LBRACKET : ptok := ("LBRACKET", "[").
Definition RBRACKET : ptok := ("RBRACKET", "]").

Fixpoint sep_by (s : ptok) (l : list (list ptok)) : list ptok :=
  match l with [] => [] | [x] => x | x :: l' => x ++ s :: sep_by s l' end.
(** Nothing, or something between brackets. *)
Definition bracket (a b : ptok) (l : list (list ptok)) : list ptok := match l with [] => [] | _ => a :: sep_by COMMA l ++ [b] end.
Definition when {A} (o : option A) (f : A -> list ptok) : list ptok := match o with Some x => f x | None => [] end.
Definition flag (b : bool) (n t : string) : list ptok := if b then [(n, t)] else [].

(** ** Types *)

Definition type_names : list (string * string) :=
  [("int8", "INT8"); ("int16", "INT16"); ("int32", "INT32"); ("int64", "INT64");
   ("uint8", "UINT8"); ("uint16", "UINT16"); ("uint32", "UINT32"); ("uint64", "UINT64");
   ("varint", "VARINT"); ("varint16", "VARINT16"); ("varint32", "VARINT32"); ("varint64", "VARINT64"); ("varsize", "VARSIZE");
   ("varuint", "VARUINT"); ("varuint16", "VARUINT16"); ("varuint32", "VARUINT32"); ("varuint64", "VARUINT64");
   ("bool", "BOOL"); ("string", "STRING"); ("float16", "FLOAT16"); ("float32", "FLOAT32"); ("float64", "FLOAT64");
   ("extern", "EXTERN"); ("bytes", "BYTES")].
Definition keyword_token (n : string) : ptok := (match lookup n type_names with Some k => k | None => "" end, n).
Definition name_tokens (l : list string) : list ptok := sep_by DOT (map (fun n => [tok_id n]) l).
Definition number (n : nat) : string := string_of_list_ascii (Files.decimal n).
Fixpoint type_tokens (t : ctype) : list ptok :=
  match t with
  | CKeyword n => [keyword_token n]
  | CBitField s w => (if s then ("INT_FIELD", "int") else ("BIT_FIELD", "bit")) :: when w (fun w => [COLON; ("DECIMAL_LITERAL", number w)])
  | CNamed names args => name_tokens names ++ bracket LT GT (map type_tokens args)
  end.
Definition arg_tokens (a : carg) : list ptok := match a with CExplicit n => [("EXPLICIT", "explicit"); tok_id n] | CArg e => expr_tokens e end.
Definition inst_tokens (i : cinst) : list ptok :=
  type_tokens (ci_type i) ++
  match ci_params i with CNone => [] | CArgs l => LP :: sep_by COMMA (map arg_tokens l) ++ [RP] | CLength e => LT :: expr_tokens e ++ [GT] end.

(** ** Fields *)

Definition range_tokens (r : option cexpr) : list ptok := LBRACKET :: when r expr_tokens ++ [RBRACKET].
Definition field_type_tokens (t : cfieldtype) : list ptok :=
  flag (ft_packed t) "PACKED" "packed" ++ flag (ft_implicit t) "IMPLICIT" "implicit" ++ inst_tokens (ft_inst t) ++ tok_id (ft_name t) ::
  when (ft_range t) range_tokens.
Definition constraint_tokens (c : option cexpr) : list ptok := when c (fun e => COLON :: expr_tokens e).
Definition field_tokens (f : cfield) : list ptok :=
  when (cf_align f) (fun e => ("ALIGN", "align") :: LP :: expr_tokens e ++ [RP; COLON]) ++
  when (cf_offset f) (fun e => expr_tokens e ++ [COLON]) ++
  flag (cf_extend f) "EXTEND" "extend" ++ flag (cf_optional f) "OPTIONAL" "optional" ++ field_type_tokens (cf_type f) ++
  when (cf_init f) (fun e => ("ASSIGN", "=") :: expr_tokens e) ++ when (cf_if f) (fun e => ("IF", "if") :: expr_tokens e) ++
  constraint_tokens (cf_constraint f) ++ [SEMI].
Definition choice_field_tokens (f : cchoicefield) : list ptok := field_type_tokens (ccf_type f) ++ constraint_tokens (ccf_constraint f).

(** ** Declarations *)

Definition template_tokens (l : list string) : list ptok := bracket LT GT (map (fun n => [tok_id n]) l).
Definition param_tokens (p : cparam) : list ptok := type_tokens (fst p) ++ [tok_id (snd p)].
Definition params_tokens (l : list cparam) : list ptok := bracket LP RP (map param_tokens l).
Definition function_tokens (f : cfunction) : list ptok :=
  ("FUNCTION", "function") :: type_tokens (cfn_type f) ++ tok_id (cfn_name f) :: LP :: RP :: LBRACE :: ("RETURN", "return") ::
  expr_tokens (cfn_body f) ++ [SEMI; RBRACE].
Definition struct_tokens (s : cstruct) : list ptok :=
  ("STRUCTURE", "struct") :: tok_id (cs_name s) :: template_tokens (cs_templates s) ++ params_tokens (cs_params s) ++ LBRACE ::
  flat_map field_tokens (cs_fields s) ++ flat_map function_tokens (cs_functions s) ++ [RBRACE; SEMI].
Definition union_tokens (u : cunion) : list ptok :=
  ("UNION", "union") :: tok_id (cu_name u) :: template_tokens (cu_templates u) ++ params_tokens (cu_params u) ++ LBRACE ::
  flat_map (fun f => choice_field_tokens f ++ [SEMI]) (cu_fields u) ++ flat_map function_tokens (cu_functions u) ++ [RBRACE; SEMI].
Definition label_tokens (e : cexpr) : list ptok := ("CASE", "case") :: expr_tokens e ++ [COLON].
Definition case_tokens (c : list cexpr * option cchoicefield) : list ptok :=
  flat_map label_tokens (fst c) ++ when (snd c) choice_field_tokens ++ [SEMI].
Definition choice_tokens (c : cchoice) : list ptok :=
  ("CHOICE", "choice") :: tok_id (cc_name c) :: template_tokens (cc_templates c) ++ params_tokens (cc_params c) ++
  ("ON", "on") :: expr_tokens (cc_on c) ++ LBRACE :: flat_map case_tokens (cc_cases c) ++
  when (cc_default c) (fun f => ("DEFAULT", "default") :: COLON :: when f choice_field_tokens ++ [SEMI]) ++
  flat_map function_tokens (cc_functions c) ++ [RBRACE; SEMI].
Definition value_tokens (e : option cexpr) : list ptok := when e (fun e => ("ASSIGN", "=") :: expr_tokens e).
Definition item_tokens (x : option mark * string * option cexpr) : list ptok :=
  when (fst (fst x)) (fun m => [match m with Deprecated => ("DEPRECATED", "@deprecated") | Removed => ("REMOVED", "@removed") end]) ++
  tok_id (snd (fst x)) :: value_tokens (snd x).
(** [comma]: whether there is one after the last item. *)
Definition enum_tokens (comma : bool) (e : cenum) : list ptok :=
  ("ENUM", "enum") :: inst_tokens (ce_type e) ++ tok_id (ce_name e) :: LBRACE :: sep_by COMMA (map item_tokens (ce_items e)) ++
  flag comma "COMMA" "," ++ [RBRACE; SEMI].
Definition bit_tokens (x : string * option cexpr) : list ptok := tok_id (fst x) :: value_tokens (snd x).
Definition bitmask_tokens (comma : bool) (b : cbitmask) : list ptok :=
  ("BITMASK", "bitmask") :: inst_tokens (cb_type b) ++ tok_id (cb_name b) :: LBRACE :: sep_by COMMA (map bit_tokens (cb_values b)) ++
  flag comma "COMMA" "," ++ [RBRACE; SEMI].
Definition directive_tokens (comma : bool) (d : cdirective) : list ptok :=
  match d with
  | CConst t n e => ("CONST", "const") :: inst_tokens t ++ tok_id n :: ("ASSIGN", "=") :: expr_tokens e ++ [SEMI]
  | CSubtype t n => ("SUBTYPE", "subtype") :: type_tokens t ++ [tok_id n; SEMI]
  | CInstantiate t n => ("INSTANTIATE", "instantiate") :: type_tokens t ++ [tok_id n; SEMI]
  | CStruct s => struct_tokens s
  | CChoice c => choice_tokens c
  | CUnion u => union_tokens u
  | CEnum e => enum_tokens comma e
  | CBitmask b => bitmask_tokens comma b
  | CRules _ | COther _ => []
  end.

(** ** Files *)

Definition import_tokens (i : cimport) : list ptok :=
  ("IMPORT", "import") :: flat_map (fun n => [tok_id n; DOT]) (cim_names i) ++
  [match cim_symbol i with Some n => tok_id n | None => ("MULTIPLY", "*") end; SEMI].
Definition head_tokens (f : cfile) : list ptok :=
  when (cfl_compat f) (fun t => [("COMPAT_VERSION", "zserio_compatibility_version"); LP; ("STRING_LITERAL", t); RP; SEMI]) ++
  when (cfl_package f) (fun l => ("PACKAGE", "package") :: name_tokens l ++ [SEMI]) ++ flat_map import_tokens (cfl_imports f).
Inductive directives_written : list cdirective -> list ptok -> Prop :=
| DWNone : directives_written [] []
| DWCons : forall comma d ds ts, directives_written ds ts -> directives_written (d :: ds) (directive_tokens comma d ++ ts).
(** These are the tokens of the file. *)
Definition file_written (f : cfile) (ts : list ptok) : Prop :=
  exists body, directives_written (cfl_directives f) body /\ ts = head_tokens f ++ body.

(** ** What can be written *)

Fixpoint all {A} (P : A -> Prop) (l : list A) : Prop := match l with [] => True | x :: l' => P x /\ all P l' end.
Definition opt_ok {A} (P : A -> Prop) (o : option A) : Prop := match o with Some x => P x | None => True end.
Fixpoint type_ok (t : ctype) : Prop :=
  match t with
  | CKeyword n => lookup n type_names <> None
  | CBitField _ _ => True
  | CNamed names args => names <> [] /\ fold_right (fun a P => type_ok a /\ P) True args
  end.
Definition arg_ok (a : carg) : Prop := match a with CExplicit _ => True | CArg e => proper e end.
(** [one = true]: there is only one way to read it.  A name with a length could be a
    template with its argument. *)
Definition inst_ok (one : bool) (i : cinst) : Prop :=
  type_ok (ci_type i) /\
  match ci_params i with
  | CNone => True
  | CArgs l => l <> [] /\ all arg_ok l
  | CLength e => proper e /\ (one = true -> match ci_type i with CNamed _ [] => False | _ => True end)
  end.
Definition field_type_ok (one : bool) (t : cfieldtype) : Prop := inst_ok one (ft_inst t) /\ opt_ok (opt_ok proper) (ft_range t).
(** A constraint whose tokens are of the same kinds as those of a type and a name:
    a < b && c > d. *)
Definition like_field (c : cexpr) : Prop :=
  exists i n r, inst_ok false i /\ map fst (expr_tokens c ++ [SEMI]) = map fst (inst_tokens i ++ tok_id n :: r).
(** The tokens that types end with, and whether a name comes right after one of them: no
    other constraint is like a field. *)
Definition type_ends : list string := ["ID"; "GT"; "RPAREN"; "DECIMAL_LITERAL"; "BIT_FIELD"; "INT_FIELD"] ++ map snd type_names.
Fixpoint name_after_type (l : list string) : bool :=
  match l with
  | a :: l' => match l' with b :: _ => existsb (String.eqb a) type_ends && String.eqb b "ID" | [] => false end || name_after_type l'
  | [] => false
  end.
(** Template arguments and such a constraint: C<D> f : a < b && c > d; could as well
    be the field d of type a<b && c> at the offset (C < D) > f. *)
Definition template_type (i : cinst) : Prop := match ci_type i with CNamed _ (_ :: _) => True | _ => False end.
Definition field_ok (one : bool) (f : cfield) : Prop :=
  opt_ok proper (cf_align f) /\ opt_ok proper (cf_offset f) /\ field_type_ok one (cf_type f) /\ opt_ok proper (cf_init f) /\ opt_ok proper (cf_if f) /\
  opt_ok proper (cf_constraint f) /\
  (one = true -> cf_offset f = None -> template_type (ft_inst (cf_type f)) -> opt_ok (fun c => ~ like_field c) (cf_constraint f)).
Definition choice_field_ok (one : bool) (f : cchoicefield) : Prop := field_type_ok one (ccf_type f) /\ opt_ok proper (ccf_constraint f).
Definition function_ok (f : cfunction) : Prop := type_ok (cfn_type f) /\ proper (cfn_body f).
Definition params_ok (l : list cparam) : Prop := all (fun p => type_ok (fst p)) l.
Definition struct_ok (one : bool) (s : cstruct) : Prop := params_ok (cs_params s) /\ all (field_ok one) (cs_fields s) /\ all function_ok (cs_functions s).
Definition union_ok (one : bool) (u : cunion) : Prop := params_ok (cu_params u) /\ all (choice_field_ok one) (cu_fields u) /\ all function_ok (cu_functions u).
Definition case_ok (one : bool) (c : list cexpr * option cchoicefield) : Prop := fst c <> [] /\ all proper (fst c) /\ opt_ok (choice_field_ok one) (snd c).
Definition choice_ok (one : bool) (c : cchoice) : Prop :=
  cc_params c <> [] /\ params_ok (cc_params c) /\ proper (cc_on c) /\ all (case_ok one) (cc_cases c) /\
  opt_ok (opt_ok (choice_field_ok one)) (cc_default c) /\ all function_ok (cc_functions c).
Definition enum_ok (one : bool) (e : cenum) : Prop := inst_ok one (ce_type e) /\ ce_items e <> [] /\ all (fun x => opt_ok proper (snd x)) (ce_items e).
Definition bitmask_ok (one : bool) (b : cbitmask) : Prop := inst_ok one (cb_type b) /\ cb_values b <> [] /\ all (fun x => opt_ok proper (snd x)) (cb_values b).
Definition directive_ok (one : bool) (d : cdirective) : Prop :=
  match d with
  | CConst t _ e => inst_ok one t /\ proper e
  | CSubtype t _ | CInstantiate t _ => type_ok t
  | CStruct s => struct_ok one s
  | CChoice c => choice_ok one c
  | CUnion u => union_ok one u
  | CEnum e => enum_ok one e
  | CBitmask b => bitmask_ok one b
  | CRules _ | COther _ => False
  end.
Definition file_ok (one : bool) (f : cfile) : Prop :=
  opt_ok (fun l => l <> []) (cfl_package f) /\ all (fun i => cim_names i <> []) (cfl_imports f) /\ all (directive_ok one) (cfl_directives f).

(** ** Tokens from a text *)

(** More tokens with only one text. *)
Definition word_texts : list ptok :=
  [("SEMICOLON", ";"); ("LBRACE", "{"); ("RBRACE", "}"); ("ASSIGN", "="); ("BIT_FIELD", "bit"); ("INT_FIELD", "int"); ("EXPLICIT", "explicit");
   ("ALIGN", "align"); ("EXTEND", "extend"); ("OPTIONAL", "optional"); ("PACKED", "packed"); ("IMPLICIT", "implicit"); ("IF", "if");
   ("FUNCTION", "function"); ("RETURN", "return"); ("STRUCTURE", "struct"); ("UNION", "union"); ("CHOICE", "choice"); ("ON", "on"); ("CASE", "case");
   ("DEFAULT", "default"); ("DEPRECATED", "@deprecated"); ("REMOVED", "@removed"); ("ENUM", "enum"); ("BITMASK", "bitmask"); ("CONST", "const");
   ("SUBTYPE", "subtype"); ("INSTANTIATE", "instantiate"); ("IMPORT", "import"); ("PACKAGE", "package");
   ("COMPAT_VERSION", "zserio_compatibility_version")] ++ map (fun p => (snd p, fst p)) type_names.
(** The tokens are as a text gives them: those with only one text have it, and decimal
    numbers do not begin with 0. *)
Definition from_text (ts : list ptok) : Prop :=
  (forall n t w, In (n, t) ts -> In (n, w) (fixed_texts ++ word_texts) -> t = w) /\
  (forall t, In ("DECIMAL_LITERAL", t) ts -> t = "0" \/ exists c t', t = String c t' /\ c <> "0"%char).
