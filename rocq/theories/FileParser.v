(** The parser of schema files: the other functions of internal/parser/zserio_parser.go,
    which ANTLR generated from ZserioParser.g4.  [None] is a syntax error.  Where a
    function asks AdaptivePredict which way to go, the choice is written out here.  Rule
    groups, SQL tables and databases, services and pubsubs, which the generator does not
    look at, are left out: they are syntax errors here. *)

Require Import ZArith String Ascii List Bool.
Require Import DecimalString.
From Verif Require Literals.
From Verif Require Import Visitor Parser.
Import ListNotations.
Open Scope nat_scope.
Open Scope string_scope.
Open Scope list_scope.

Notation "' p <- e ;; k" := (bind e (fun x => match x with p => k end)) (at level 100, p pattern, e at next level, right associativity).

(** id, g4:386-388 *)
Definition identifier (ts : list ptok) : option (string * list ptok) :=
  match ts with (n, t) :: r => if String.eqb n "ID" then Some (t, r) else None | [] => None end.
(** X? for a keyword *)
Definition keyword_opt (n : string) (ts : list ptok) : bool * list ptok := if next_is n ts then (true, tl ts) else (false, ts).
(** (n X)? *)
Definition clause {A} (n : string) (p : list ptok -> option (A * list ptok)) (ts : list ptok) : option (option A * list ptok) :=
  if next_is n ts then '(x, r) <- p (tl ts);; Some (Some x, r) else Some (None, ts).
(** X (COMMA X)* *)
Fixpoint items {A} (fuel : nat) (p : list ptok -> option (A * list ptok)) (ts : list ptok) : option (list A * list ptok) :=
  match fuel with
  | 0 => None
  | S f => '(x, r) <- p ts;; if next_is "COMMA" r then '(xs, r) <- items f p (tl r);; Some (x :: xs, r) else Some ([x], r)
  end.
(** X (COMMA X)* COMMA? before a brace *)
Fixpoint items_comma {A} (fuel : nat) (p : list ptok -> option (A * list ptok)) (ts : list ptok) : option (list A * list ptok) :=
  match fuel with
  | 0 => None
  | S f =>
      '(x, r) <- p ts;;
      if next_is "COMMA" r then
        if next_is "RBRACE" (tl r) then Some ([x], tl r) else '(xs, r) <- items_comma f p (tl r);; Some (x :: xs, r)
      else Some ([x], r)
  end.
(** X*, as long as none of these tokens comes *)
Fixpoint many {A} (fuel : nat) (stop : list string) (p : list ptok -> option (A * list ptok)) (ts : list ptok) : option (list A * list ptok) :=
  match fuel with
  | 0 => None
  | S f => if one_of_names stop ts then Some ([], ts) else '(x, r) <- p ts;; '(xs, r) <- many f stop p r;; Some (x :: xs, r)
  end.
(** (open X (COMMA X)* close)? *)
Definition bracketed {A} (fuel : nat) (a b : string) (p : list ptok -> option (A * list ptok)) (ts : list ptok) : option (list A * list ptok) :=
  if next_is a ts then '(xs, r) <- items fuel p (tl ts);; 'r <- expect b r;; Some (xs, r) else Some ([], ts).

(** ** Types, g4:393-483 *)

Definition type_keywords : list (string * string) :=
  [("INT8", "int8"); ("INT16", "int16"); ("INT32", "int32"); ("INT64", "int64");
   ("UINT8", "uint8"); ("UINT16", "uint16"); ("UINT32", "uint32"); ("UINT64", "uint64");
   ("VARINT", "varint"); ("VARINT16", "varint16"); ("VARINT32", "varint32"); ("VARINT64", "varint64"); ("VARSIZE", "varsize");
   ("VARUINT", "varuint"); ("VARUINT16", "varuint16"); ("VARUINT32", "varuint32"); ("VARUINT64", "varuint64");
   ("BOOL", "bool"); ("STRING", "string"); ("FLOAT16", "float16"); ("FLOAT32", "float32"); ("FLOAT64", "float64");
   ("EXTERN", "extern"); ("BYTES", "bytes")].
(** (DOT id)* *)
Fixpoint dots (ts : list ptok) : list string * list ptok :=
  match ts with
  | (d, _) :: (i, n) :: r =>
      if String.eqb d "DOT" && String.eqb i "ID" then let '(l, r) := dots r in (n :: l, r) else ([], ts)
  | _ => ([], ts)
  end.
(** The number of a DECIMAL_LITERAL. *)
Definition width_of (t : string) : option nat := option_map Nat.of_uint (NilEmpty.uint_of_string t).
Definition bit_width (signed : bool) (r : list ptok) : option (ctype * list ptok) :=
  if next_is "COLON" r then
    match tl r with
    | (n, t) :: r => if String.eqb n "DECIMAL_LITERAL" then 'w <- width_of t;; Some (CBitField signed (Some w), r) else None
    | [] => None
    end
  else Some (CBitField signed None, r).
(** typeReference.  After a name, < begins template arguments, if they can be read. *)
Fixpoint type_ref (fuel : nat) (ts : list ptok) : option (ctype * list ptok) :=
  match fuel, ts with
  | 0, _ | _, [] => None
  | S f, (n, t) :: r =>
      match lookup n type_keywords with
      | Some k => Some (CKeyword k, r)
      | None =>
          if String.eqb n "BIT_FIELD" then bit_width false r
          else if String.eqb n "INT_FIELD" then bit_width true r
          else if String.eqb n "ID" then
            let '(l, r) := dots r in
            match bracketed f "LT" "GT" (type_ref f) r with Some (args, r) => Some (CNamed (t :: l) args, r) | None => Some (CNamed (t :: l) [], r) end
          else None
      end
  end.
Definition parse_type (ts : list ptok) : option (ctype * list ptok) := type_ref (S (length ts)) ts.

(** typeArgument *)
Definition type_argument (ts : list ptok) : option (carg * list ptok) :=
  if next_is "EXPLICIT" ts then '(n, r) <- identifier (tl ts);; Some (CExplicit n, r)
  else '(e, r) <- parse_expression false ts;; Some (CArg e, r).
(** typeInstantiation *)
Definition type_inst (ts : list ptok) : option (cinst * list ptok) :=
  '(t, r) <- parse_type ts;;
  if next_is "LPAREN" r then
    '(l, r) <- items (length r) type_argument (tl r);; 'r <- expect "RPAREN" r;; Some (mkCI t (CArgs l), r)
  else if next_is "LT" r then
    '(e, r) <- parse_expression true (tl r);; 'r <- expect "GT" r;; Some (mkCI t (CLength e), r)
  else Some (mkCI t CNone, r).

(** ** Fields *)

(** fieldTypeId, g4:117-123 *)
Definition array_range (ts : list ptok) : option (option (option cexpr) * list ptok) :=
  if next_is "LBRACKET" ts then
    if next_is "RBRACKET" (tl ts) then Some (Some None, tl (tl ts))
    else '(e, r) <- parse_expression false (tl ts);; 'r <- expect "RBRACKET" r;; Some (Some (Some e), r)
  else Some (None, ts).
Definition field_type (ts : list ptok) : option (cfieldtype * list ptok) :=
  let '(packed, r) := keyword_opt "PACKED" ts in
  let '(implicit, r) := keyword_opt "IMPLICIT" r in
  '(i, r) <- type_inst r;; '(n, r) <- identifier r;; '(range, r) <- array_range r;;
  Some (mkCFT packed implicit i n range, r).
(** structureFieldDefinition from EXTEND on, g4:100-106 *)
Definition field_rest (align offset : option cexpr) (ts : list ptok) : option (cfield * list ptok) :=
  let '(ext, r) := keyword_opt "EXTEND" ts in
  let '(opt, r) := keyword_opt "OPTIONAL" r in
  '(t, r) <- field_type r;;
  '(init, r) <- clause "ASSIGN" (parse_expression false) r;;
  '(cond, r) <- clause "IF" (parse_expression false) r;;
  '(con, r) <- clause "COLON" (parse_expression false) r;;
  'r <- expect "SEMICOLON" r;;
  Some (mkCF align offset ext opt t init cond con, r).
Definition alignment (ts : list ptok) : option (option cexpr * list ptok) :=
  if next_is "ALIGN" ts then
    'r <- expect "LPAREN" (tl ts);; '(e, r) <- parse_expression false r;;
    'r <- expect "RPAREN" r;; 'r <- expect "COLON" r;; Some (Some e, r)
  else Some (None, ts).
(** structureFieldDefinition, g4:97-107.  Whether there is an offset is decided by
    whether the field can be read with one: of two possible readings AdaptivePredict
    prefers the first alternative, to enter fieldOffset. *)
Definition struct_field (ts : list ptok) : option (cfield * list ptok) :=
  '(align, r) <- alignment ts;;
  match ('(e, r) <- parse_expression false r;; 'r <- expect "COLON" r;; field_rest align (Some e) r) with
  | Some x => Some x
  | None => field_rest align None r
  end.
(** choiceFieldDefinition, g4:162-164; unionFieldDefinition, g4:178-180 *)
Definition choice_field (ts : list ptok) : option (cchoicefield * list ptok) :=
  '(t, r) <- field_type ts;; '(con, r) <- clause "COLON" (parse_expression false) r;; Some (mkCCF t con, r).
Definition union_field (ts : list ptok) : option (cchoicefield * list ptok) :=
  '(f, r) <- choice_field ts;; 'r <- expect "SEMICOLON" r;; Some (f, r).

(** ** Declarations *)

(** functionDefinition, g4:296-314 *)
Definition function_def (ts : list ptok) : option (cfunction * list ptok) :=
  'r <- expect "FUNCTION" ts;; '(t, r) <- parse_type r;; '(n, r) <- identifier r;;
  'r <- expect "LPAREN" r;; 'r <- expect "RPAREN" r;; 'r <- expect "LBRACE" r;; 'r <- expect "RETURN" r;;
  '(e, r) <- parse_expression false r;; 'r <- expect "SEMICOLON" r;; 'r <- expect "RBRACE" r;;
  Some (mkCFn t n e, r).
(** parameterDefinition, g4:323-325 *)
Definition parameter (ts : list ptok) : option (cparam * list ptok) :=
  '(t, r) <- parse_type ts;; '(n, r) <- identifier r;; Some ((t, n), r).
(** templateParameters? typeParameters? *)
Definition template_parameters (ts : list ptok) : option (list string * list ptok) := bracketed (length ts) "LT" "GT" identifier ts.
Definition type_parameters (ts : list ptok) : option (list cparam * list ptok) := bracketed (length ts) "LPAREN" "RPAREN" parameter ts.
Definition closing (ts : list ptok) : option (list ptok) := 'r <- expect "RBRACE" ts;; expect "SEMICOLON" r.
Definition functions (ts : list ptok) : option (list cfunction * list ptok) := many (S (length ts)) ["RBRACE"] function_def ts.

(** structureDeclaration, g4:88-95 *)
Definition structure (ts : list ptok) : option (cstruct * list ptok) :=
  '(n, r) <- identifier ts;; '(tp, r) <- template_parameters r;; '(ps, r) <- type_parameters r;; 'r <- expect "LBRACE" r;;
  '(fs, r) <- many (S (length r)) ["FUNCTION"; "RBRACE"] struct_field r;; '(fns, r) <- functions r;; 'r <- closing r;;
  Some (mkCS n tp ps fs fns, r).
(** unionDeclaration, g4:169-176 *)
Definition union (ts : list ptok) : option (cunion * list ptok) :=
  '(n, r) <- identifier ts;; '(tp, r) <- template_parameters r;; '(ps, r) <- type_parameters r;; 'r <- expect "LBRACE" r;;
  '(fs, r) <- many (S (length r)) ["FUNCTION"; "RBRACE"] union_field r;; '(fns, r) <- functions r;; 'r <- closing r;;
  Some (mkCU n tp ps fs fns, r).
(** choiceCases, g4:150-156: choiceCase+, as long as CASE comes *)
Definition choice_slot (ts : list ptok) : option (option cchoicefield * list ptok) :=
  if next_is "SEMICOLON" ts then Some (None, tl ts)
  else '(f, r) <- choice_field ts;; 'r <- expect "SEMICOLON" r;; Some (Some f, r).
Fixpoint case_labels (fuel : nat) (ts : list ptok) : option (list cexpr * list ptok) :=
  match fuel with
  | 0 => None
  | S f =>
      'r <- expect "CASE" ts;; '(e, r) <- parse_expression false r;; 'r <- expect "COLON" r;;
      if next_is "CASE" r then '(es, r) <- case_labels f r;; Some (e :: es, r) else Some ([e], r)
  end.
Definition choice_cases (ts : list ptok) : option ((list cexpr * option cchoicefield) * list ptok) :=
  '(es, r) <- case_labels (length ts) ts;; '(f, r) <- choice_slot r;; Some ((es, f), r).
(** choiceDefault, g4:158-160 *)
Definition choice_default (ts : list ptok) : option (option (option cchoicefield) * list ptok) :=
  if next_is "DEFAULT" ts then 'r <- expect "COLON" (tl ts);; '(f, r) <- choice_slot r;; Some (Some f, r) else Some (None, ts).
(** choiceDeclaration, g4:140-148 *)
Definition choice (ts : list ptok) : option (cchoice * list ptok) :=
  '(n, r) <- identifier ts;; '(tp, r) <- template_parameters r;;
  '(ps, r) <- type_parameters r;; if match ps with [] => true | _ => false end then None else
  'r <- expect "ON" r;; '(e, r) <- parse_expression false r;; 'r <- expect "LBRACE" r;;
  '(cs, r) <- many (S (length r)) ["DEFAULT"; "FUNCTION"; "RBRACE"] choice_cases r;; '(d, r) <- choice_default r;;
  '(fns, r) <- functions r;; 'r <- closing r;;
  Some (mkCC n tp ps e cs d fns, r).
(** enumDeclaration, g4:185-195 *)
Definition enum_item (ts : list ptok) : option ((option mark * string * option cexpr) * list ptok) :=
  let '(m, r) := if next_is "DEPRECATED" ts then (Some Deprecated, tl ts) else if next_is "REMOVED" ts then (Some Removed, tl ts) else (None, ts) in
  '(n, r) <- identifier r;; '(e, r) <- clause "ASSIGN" (parse_expression false) r;; Some ((m, n, e), r).
Definition enum (ts : list ptok) : option (cenum * list ptok) :=
  '(t, r) <- type_inst ts;; '(n, r) <- identifier r;; 'r <- expect "LBRACE" r;;
  '(l, r) <- items_comma (length r) enum_item r;; 'r <- closing r;; Some (mkCE t n l, r).
(** bitmaskDeclaration, g4:200-210 *)
Definition bitmask_value (ts : list ptok) : option ((string * option cexpr) * list ptok) :=
  '(n, r) <- identifier ts;; '(e, r) <- clause "ASSIGN" (parse_expression false) r;; Some ((n, e), r).
Definition bitmask (ts : list ptok) : option (cbitmask * list ptok) :=
  '(t, r) <- type_inst ts;; '(n, r) <- identifier r;; 'r <- expect "LBRACE" r;;
  '(l, r) <- items_comma (length r) bitmask_value r;; 'r <- closing r;; Some (mkCB t n l, r).

(** languageDirective, g4:33-60; subtypeDeclaration, g4:81-83; instantiateDeclaration,
    g4:342-344 *)
Definition directive (ts : list ptok) : option (cdirective * list ptok) :=
  match ts with
  | [] => None
  | (n, _) :: r =>
      if String.eqb n "CONST" then
        '(t, r) <- type_inst r;; '(n, r) <- identifier r;; 'r <- expect "ASSIGN" r;; '(e, r) <- parse_expression false r;;
        'r <- expect "SEMICOLON" r;; Some (CConst t n e, r)
      else if String.eqb n "SUBTYPE" then '(t, r) <- parse_type r;; '(n, r) <- identifier r;; 'r <- expect "SEMICOLON" r;; Some (CSubtype t n, r)
      else if String.eqb n "INSTANTIATE" then '(t, r) <- parse_type r;; '(n, r) <- identifier r;; 'r <- expect "SEMICOLON" r;; Some (CInstantiate t n, r)
      else if String.eqb n "STRUCTURE" then '(x, r) <- structure r;; Some (CStruct x, r)
      else if String.eqb n "CHOICE" then '(x, r) <- choice r;; Some (CChoice x, r)
      else if String.eqb n "UNION" then '(x, r) <- union r;; Some (CUnion x, r)
      else if String.eqb n "ENUM" then '(x, r) <- enum r;; Some (CEnum x, r)
      else if String.eqb n "BITMASK" then '(x, r) <- bitmask r;; Some (CBitmask x, r)
      else None
  end.

(** ** Files, g4:13-31 *)

Fixpoint all_directives (fuel : nat) (ts : list ptok) : option (list cdirective) :=
  match fuel, ts with
  | _, [] => Some []
  | 0, _ => None
  | S f, _ => '(d, r) <- directive ts;; 'ds <- all_directives f r;; Some (d :: ds)
  end.
(** importDeclaration: names with dots, of which the last is the symbol, or * *)
Definition import_decl (ts : list ptok) : option (cimport * list ptok) :=
  'r <- expect "IMPORT" ts;; '(n, r) <- identifier r;;
  let '(l, r) := dots r in
  if next_is "DOT" r && next_is "MULTIPLY" (tl r) then 'r <- expect "SEMICOLON" (tl (tl r));; Some (mkCIm (n :: l) None, r)
  else match l with
  | [] => None
  | _ => 'r <- expect "SEMICOLON" r;; Some (mkCIm (removelast (n :: l)) (Some (last l "")), r)
  end.
Fixpoint imports (fuel : nat) (ts : list ptok) : option (list cimport * list ptok) :=
  match fuel with
  | 0 => None
  | S f => if next_is "IMPORT" ts then '(i, r) <- import_decl ts;; '(l, r) <- imports f r;; Some (i :: l, r) else Some ([], ts)
  end.
Definition compat (ts : list ptok) : option (option string * list ptok) :=
  if next_is "COMPAT_VERSION" ts then
    'r <- expect "LPAREN" (tl ts);;
    match r with
    | (n, t) :: r => if String.eqb n "STRING_LITERAL" then 'r <- expect "RPAREN" r;; 'r <- expect "SEMICOLON" r;; Some (Some t, r) else None
    | [] => None
    end
  else Some (None, ts).
Definition package_name (ts : list ptok) : option (option (list string) * list ptok) :=
  if next_is "PACKAGE" ts then
    '(n, r) <- identifier (tl ts);; let '(l, r) := dots r in 'r <- expect "SEMICOLON" r;; Some (Some (n :: l), r)
  else Some (None, ts).
(** packageDeclaration: p.PackageDeclaration() in internal/model/package.go:10-31 *)
Definition parse_file (ts : list ptok) : option cfile :=
  '(c, r) <- compat ts;; '(p, r) <- package_name r;; '(is, r) <- imports (S (length r)) r;;
  'ds <- all_directives (length r) r;; Some (mkCFile c p is ds).
