(** The words of a schema, read off the parse tree and off the syntax tree. *)

Require Import ZArith String Ascii List Bool.
From Verif Require Files Literals.
From Verif Require Import Visitor.
Import ListNotations.
Open Scope string_scope.
Open Scope list_scope.

(** The words of a list, with a separator. *)
Fixpoint sep_by (s : string) (l : list (list string)) : list string :=
  match l with [] => [] | [x] => x | x :: l' => x ++ s :: sep_by s l' end.
(** Nothing, or something between brackets. *)
Definition bracket (a b : string) (l : list (list string)) : list string :=
  match l with [] => [] | _ => a :: sep_by "," l ++ [b] end.
Definition when {A} (o : option A) (f : A -> list string) : list string := match o with Some x => f x | None => [] end.
Definition flag (b : bool) (s : string) : list string := if b then [s] else [].
Definition number (n : nat) : string := string_of_list_ascii (Files.decimal n).

(** ** Parse trees: the rules of ZserioParser.g4 *)

Definition uop_words (o : uop) : list string := match o with UPlus => ["+"] | UMinus => ["-"] | UBang => ["!"] | UTilde => ["~"] end.
Definition bop_words (o : bop) : list string :=
  match o with
  | BMul => ["*"] | BDiv => ["/"] | BMod => ["%"] | BPlus => ["+"] | BMinus => ["-"] | BShl => ["<<"] | BShr => [">"; ">"]
  | BLt => ["<"] | BLe => ["<="] | BGt => [">"] | BGe => [">="] | BEq => ["=="] | BNe => ["!="]
  | BAnd => ["&"] | BXor => ["^"] | BOr => ["|"] | BLogAnd => ["&&"] | BLogOr => ["||"]
  end.
Fixpoint expr_words (e : cexpr) : list string :=
  match e with
  | CParen a => ["("] ++ expr_words a ++ [")"]
  | CCall a => expr_words a ++ ["("; ")"]
  | CArray a b => expr_words a ++ ["["] ++ expr_words b ++ ["]"]
  | CDot a n => expr_words a ++ ["."; n]
  | CIsSet a b => ["isset"; "("] ++ expr_words a ++ [","] ++ expr_words b ++ [")"]
  | CLengthof a => ["lengthof"; "("] ++ expr_words a ++ [")"]
  | CValueof a => ["valueof"; "("] ++ expr_words a ++ [")"]
  | CNumbits a => ["numbits"; "("] ++ expr_words a ++ [")"]
  | CUnary o a => uop_words o ++ expr_words a
  | CBinary o a b => expr_words a ++ bop_words o ++ expr_words b
  | CTernary c a b => expr_words c ++ ["?"] ++ expr_words a ++ [":"] ++ expr_words b
  | CLiteral _ t => [t]
  | CIndex => ["@index"]
  | CId n => [n]
  end.
(** A qualified name is one word. *)
Fixpoint dotted_name (l : list string) : string := match l with [] => "" | [n] => n | n :: l' => (n ++ "." ++ dotted_name l')%string end.
Fixpoint type_words (t : ctype) : list string :=
  match t with
  | CKeyword n => [n]
  | CBitField s w => [if s then "int" else "bit"] ++ when w (fun w => [":"; number w])
  | CNamed names args => [dotted_name names] ++ bracket "<" ">" (map type_words args)
  end.
Definition arg_words (a : carg) : list string := match a with CExplicit n => ["explicit"; n] | CArg e => expr_words e end.
Definition inst_words (i : cinst) : list string :=
  type_words (ci_type i) ++
  match ci_params i with CNone => [] | CArgs l => bracket "(" ")" (map arg_words l) | CLength e => ["<"] ++ expr_words e ++ [">"] end.
Definition field_type_words (t : cfieldtype) : list string :=
  flag (ft_packed t) "packed" ++ flag (ft_implicit t) "implicit" ++ inst_words (ft_inst t) ++ [ft_name t] ++
  when (ft_range t) (fun r => ["["] ++ when r expr_words ++ ["]"]).
Definition field_words (f : cfield) : list string :=
  when (cf_align f) (fun e => ["align"; "("] ++ expr_words e ++ [")"; ":"]) ++
  when (cf_offset f) (fun e => expr_words e ++ [":"]) ++ flag (cf_extend f) "extend" ++ flag (cf_optional f) "optional" ++
  field_type_words (cf_type f) ++ when (cf_init f) (fun e => ["="] ++ expr_words e) ++
  when (cf_if f) (fun e => ["if"] ++ expr_words e) ++ when (cf_constraint f) (fun e => [":"] ++ expr_words e) ++ [";"].
Definition choice_field_words (f : cchoicefield) : list string :=
  field_type_words (ccf_type f) ++ when (ccf_constraint f) (fun e => [":"] ++ expr_words e).
Definition template_words (l : list string) : list string := bracket "<" ">" (map (fun n => [n]) l).
Definition param_words (p : cparam) : list string := type_words (fst p) ++ [snd p].
Definition function_words (f : cfunction) : list string :=
  ["function"] ++ type_words (cfn_type f) ++ [cfn_name f; "("; ")"; "{"; "return"] ++ expr_words (cfn_body f) ++ [";"; "}"].
Definition struct_words (s : cstruct) : list string :=
  ["struct"; cs_name s] ++ template_words (cs_templates s) ++ bracket "(" ")" (map param_words (cs_params s)) ++ ["{"] ++
  flat_map field_words (cs_fields s) ++ flat_map function_words (cs_functions s) ++ ["}"; ";"].
Definition union_words (u : cunion) : list string :=
  ["union"; cu_name u] ++ template_words (cu_templates u) ++ bracket "(" ")" (map param_words (cu_params u)) ++ ["{"] ++
  flat_map (fun f => choice_field_words f ++ [";"]) (cu_fields u) ++ flat_map function_words (cu_functions u) ++ ["}"; ";"].
Definition choice_words (c : cchoice) : list string :=
  ["choice"; cc_name c] ++ template_words (cc_templates c) ++ bracket "(" ")" (map param_words (cc_params c)) ++
  ["on"] ++ expr_words (cc_on c) ++ ["{"] ++
  flat_map (fun x => flat_map (fun e => ["case"] ++ expr_words e ++ [":"]) (fst x) ++ when (snd x) choice_field_words ++ [";"]) (cc_cases c) ++
  when (cc_default c) (fun f => ["default"; ":"] ++ when f choice_field_words ++ [";"]) ++
  flat_map function_words (cc_functions c) ++ ["}"; ";"].
Definition enum_words (e : cenum) : list string :=
  ["enum"] ++ inst_words (ce_type e) ++ [ce_name e; "{"] ++
  sep_by "," (map (fun x => when (fst (fst x)) (fun m => match m with Deprecated => ["deprecated"] | Removed => ["removed"] end) ++
    [snd (fst x)] ++ when (snd x) (fun e => ["="] ++ expr_words e)) (ce_items e)) ++ ["}"; ";"].
Definition bitmask_words (b : cbitmask) : list string :=
  ["bitmask"] ++ inst_words (cb_type b) ++ [cb_name b; "{"] ++
  sep_by "," (map (fun x => [fst x] ++ when (snd x) (fun e => ["="] ++ expr_words e)) (cb_values b)) ++ ["}"; ";"].
Definition const_words (t : cinst) (n : string) (e : cexpr) : list string :=
  ["const"] ++ inst_words t ++ [n; "="] ++ expr_words e ++ [";"].

(** ** Syntax trees: what the later passes take them for *)

Definition tok_words (t : tok) : list string :=
  match t with
  | TkPlus => ["+"] | TkMinus => ["-"] | TkBang => ["!"] | TkTilde => ["~"] | TkMultiply => ["*"] | TkDivide => ["/"] | TkModulo => ["%"]
  | TkLShift => ["<<"] | TkRShift => [">"; ">"] | TkLT => ["<"] | TkLE => ["<="] | TkGT => [">"] | TkGE => [">="] | TkEQ => ["=="] | TkNE => ["!="]
  | TkAnd => ["&"] | TkXor => ["^"] | TkOr => ["|"] | TkLogicalAnd => ["&&"] | TkLogicalOr => ["||"]
  | _ => ["???"]
  end.
Definition prefix_words (t : tok) : option string :=
  match t with TkLengthof => Some "lengthof" | TkValueof => Some "valueof" | TkNumbits => Some "numbits" | _ => None end.
Fixpoint show_expr (e : expr) : list string :=
  let '(Expr t s o1 o2 o3) := e in
  match o1, o2, o3 with
  | None, None, None => [s]
  | Some a, None, None =>
      match t with
      | TkLParen => ["("] ++ show_expr a ++ [")"]
      | TkRParen => show_expr a ++ ["("; ")"]
      | _ => match prefix_words t with Some w => [w; "("] ++ show_expr a ++ [")"] | None => tok_words t ++ show_expr a end
      end
  | Some a, Some b, None =>
      match t with
      | TkLBracket => show_expr a ++ ["["] ++ show_expr b ++ ["]"]
      | TkDot => show_expr a ++ ["."] ++ show_expr b
      | TkIsSet => ["isset"; "("] ++ show_expr a ++ [","] ++ show_expr b ++ [")"]
      | _ => show_expr a ++ tok_words t ++ show_expr b
      end
  | Some c, Some a, Some b => show_expr c ++ ["?"] ++ show_expr a ++ [":"] ++ show_expr b
  | _, _, _ => ["???"]
  end.
Fixpoint show_ref (r : tref) : list string :=
  let '(TRef builtin p n bits args) := r in
  if builtin then [n] ++ (if (bits =? 0)%Z then [] else [":"; number (Z.to_nat bits)])
  else [if (p =? "")%string then n else (p ++ "." ++ n)%string] ++ bracket "<" ">" (map show_ref args).
Definition show_inst (i : tinst) : list string :=
  show_ref (ti_ref i) ++ bracket "(" ")" (map show_expr (ti_args i)) ++ when (ti_length i) (fun e => ["<"] ++ show_expr e ++ [">"]).
Definition show_field (f : field) : list string :=
  (if (f_alignment f =? 0)%Z then [] else ["align"; "("; number (Z.to_nat (f_alignment f)); ")"; ":"]) ++
  flag (f_optional f) "optional" ++ when (f_array f) (fun a => flag (a_packed a) "packed") ++ show_inst (f_type f) ++ [f_name f] ++
  when (f_array f) (fun a => ["["] ++ when (a_length a) show_expr ++ ["]"]) ++
  when (f_init f) (fun e => ["="] ++ show_expr e) ++ when (f_if f) (fun e => ["if"] ++ show_expr e) ++
  when (f_constraint f) (fun e => [":"] ++ show_expr e).
Definition show_param (p : param) : list string := show_ref (snd p) ++ [fst p].
Definition show_function (f : function) : list string :=
  ["function"] ++ show_ref (fn_type f) ++ [fn_name f; "("; ")"; "{"; "return"] ++ show_expr (fn_result f) ++ [";"; "}"].
Definition show_struct (s : struct_decl) : list string :=
  ["struct"; s_name s] ++ template_words (s_templates s) ++ bracket "(" ")" (map show_param (s_params s)) ++ ["{"] ++
  flat_map (fun f => show_field f ++ [";"]) (s_fields s) ++ flat_map show_function (s_functions s) ++ ["}"; ";"].
Definition show_union (u : union_decl) : list string :=
  ["union"; u_name u] ++ template_words (u_templates u) ++ bracket "(" ")" (map show_param (u_params u)) ++ ["{"] ++
  flat_map (fun f => show_field f ++ [";"]) (u_fields u) ++ flat_map show_function (u_functions u) ++ ["}"; ";"].
Definition show_choice (c : choice_decl) : list string :=
  ["choice"; c_name c] ++ template_words (c_templates c) ++ bracket "(" ")" (map show_param (c_params c)) ++
  ["on"] ++ show_expr (c_selector c) ++ ["{"] ++
  flat_map (fun x => flat_map (fun e => ["case"] ++ show_expr e ++ [":"]) (fst x) ++ when (snd x) show_field ++ [";"]) (c_cases c) ++
  when (c_default c) (fun x => ["default"; ":"] ++ when (snd x) show_field ++ [";"]) ++
  flat_map show_function (c_functions c) ++ ["}"; ";"].
Definition show_item (x : string * option expr) : list string := [fst x] ++ when (snd x) (fun e => ["="] ++ show_expr e).
Definition show_enum (e : enum_decl) : list string :=
  ["enum"] ++ show_inst (e_type e) ++ [e_name e; "{"] ++ sep_by "," (map show_item (e_items e)) ++ ["}"; ";"].
Definition show_bitmask (b : bitmask_decl) : list string :=
  ["bitmask"] ++ show_inst (b_type b) ++ [b_name b; "{"] ++ sep_by "," (map show_item (b_values b)) ++ ["}"; ";"].
Definition show_const (c : const_decl) : list string :=
  ["const"] ++ show_inst (k_type c) ++ [k_name c; "="] ++ show_expr (k_value c) ++ [";"].
