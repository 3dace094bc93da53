(** Model of the code that the generator emits (internal/generator/templates).

    A schema is a list of type definitions; the functions below are what the
    templates expand to for a definition, as interpreters over schemas.  They
    recurse through the types of the fields, so they take a depth bound and
    answer [NoFuel] when it is exceeded: every theorem says for which bounds it
    holds. *)

Require Import ZArith List Bool.
From Verif Require Import Bits Stream Scalars Marshal Traits Delta Array.
Import ListNotations.
Open Scope Z_scope.
Open Scope io_scope.

(** ** Values *)

(** A Go value of a generated type.  Integers, floats (bit patterns), enums and
    bitmasks are numbers.  A struct, choice or union is the list of its fields in
    order of declaration; [None] is an absent field: a nil pointer for an
    optional field, and the Go zero value for a field that is not stored because
    its condition is false or because another branch is selected.  The first
    component of [VRec] is UnionChoice; it is 0 for structs and choices.  The
    parameters of a type are not part of the value. *)
Inductive value :=
| VInt (z : Z)
| VBool (b : bool)
| VStr (s : list Z)
| VBuf (p : bufptr)
| VRec (tag : Z) (slots : list (option value))
| VArr (l : list value).

(** What an expression of the schema can see: the parameters of the type and its
    fields. *)
Record env := mkE { e_params : list value; e_slots : list (option value) }.

(** Expressions are arbitrary functions of what they can see; [None] is a run-time
    panic (division by zero, index out of range). *)
Definition expr := env -> option Z.
Definition cond := env -> option bool.
(** Type arguments may also use the index of the array element. *)
Definition arguments := env -> nat -> option (list value).

(** ** Schemas *)

(** Builtin types of a field: [Std b] is a type read and written by the function
    of its name (uint8 is [Std BUint8]); [Bits signed g w] is bit:N, int:N,
    bit<expr> or int<expr>, held in the Go type [g]. *)
Inductive basic :=
| Std (b : builtin)
| Bits (signed : bool) (g : gotype) (w : expr).

(** [TRef id args]: the user-defined type number [id]. *)
Inductive ftype :=
| TBasic (t : basic)
| TRef (id : nat) (args : arguments).

(** A field (internal/ast/field.go).  [f_array]: None is no array; otherwise the
    length expression, None for an array with an automatic length, and whether
    it is declared packed.  [f_align] is 0 when there is no alignment.  [f_cast]:
    the type is a subtype of a builtin type (RequiresCast,
    internal/ast/package.go:352-419).  Not modelled: offsets and constraints, for
    which the templates generate no code. *)
Record field := mkF {
  f_type : ftype;
  f_array : option (option expr * bool);
  f_optional : bool;
  f_clause : option cond;
  f_align : nat;
  f_cast : bool
}.

(** A definition.  [DScalar t] is an enum or a bitmask over [t].  A choice has a
    selector, a list of cases (their conditions and their field) and the field of
    its default case. *)
Inductive def :=
| DScalar (t : basic)
| DStruct (fields : list field)
| DChoice (selector : list value -> option Z) (cases : list (list Z * option field)) (default : option field)
| DUnion (fields : list field).

Definition schema := list def.

(** ** Builtin fields *)

(** A value seen as an element of a builtin type.  The Go type system rules out
    the values of another shape; they panic in the model. *)
Definition inj (b : builtin) : elt b -> value :=
  match b as b return elt b -> value with
  | BBool => VBool
  | BString => VStr
  | BBytes | BExtern => VBuf
  | _ => VInt
  end.
Definition proj (b : builtin) (v : value) : option (elt b) :=
  match b as b return option (elt b) with
  | BBool => match v with VBool x => Some x | _ => None end
  | BString => match v with VStr x => Some x | _ => None end
  | BBytes | BExtern => match v with VBuf x => Some x | _ => None end
  | _ => match v with VInt x => Some x | _ => None end
  end.

(** The element codec of a builtin type, over values. *)
Definition vtraits (b : builtin) : traits value :=
  let T := traits_of b in
  mkTraits (t_const T) (inj b (t_zero T))
    (fun v => match proj b v with Some e => t_size T e | None => Panic end)
    (rbind (t_read T) (fun e => rret (inj b e)))
    (fun v => match proj b v with Some e => t_write T e | None => wpanic end)
    (fun v => match proj b v with Some e => t_as T e | None => 0 end)
    (fun z => inj b (t_from T z)).

(** Write{{Name}}: the same functions as the codecs use, except that the integers
    of fixed width are range-checked (encode.go.tmpl:65-76). *)
Definition std_write (b : builtin) : elt b -> writer unit :=
  match b as b return elt b -> writer unit with
  | BBits _ n => fun v => WriteUnsignedBits v n
  | BSBits _ n => fun v => WriteSignedBits v n
  | b => t_write (traits_of b)
  end.
Definition std_read (b : builtin) : reader (elt b) :=
  match b as b return reader (elt b) with
  | BBits g n => v <-r ReadUnsignedBits n; rret (gconv g v)
  | BSBits g n => v <-r ReadSignedBits n; rret (gconv g v)
  | b => t_read (traits_of b)
  end.

(** encode.go.tmpl:65-76, enum.go.tmpl:114-126, bitmask.go.tmpl:24-36.  The width
    is converted to uint8, the value to uint64 or int64. *)
Definition write_basic (E : env) (t : basic) (v : value) : writer unit :=
  match t with
  | Std b => match proj b v with Some e => std_write b e | None => wpanic end
  | Bits signed g w =>
      match w E, v with
      | Some n, VInt z =>
          if signed then WriteSignedBits (i64 z) (to_u 8 n) else WriteUnsignedBits (u64 z) (to_u 8 n)
      | _, _ => wpanic
      end
  end.

(** decode.go.tmpl:49-58, enum.go.tmpl:129-146, bitmask.go.tmpl:39-56. *)
Definition read_basic (E : env) (t : basic) : reader value :=
  match t with
  | Std b => e <-r std_read b; rret (inj b e)
  | Bits signed g w =>
      match w E with
      | Some n =>
          z <-r (if signed then ReadSignedBits (to_u 8 n) else ReadUnsignedBits (to_u 8 n));
          rret (VInt (gconv g z))
      | None => rpanic
      end
  end.

(** builtin_bitsizeof.go.tmpl:7-45. *)
Definition std_size (b : builtin) : elt b -> outcome Z :=
  match b as b return elt b -> outcome Z with
  | BBits _ n | BSBits _ n => fun _ => Ok n
  | BBool => fun _ => Ok 1
  | BFloat16 => fun _ => Ok 16
  | BFloat32 => fun _ => Ok 32
  | BFloat64 => fun _ => Ok 64
  | BExtern => fun p => match p with Some (n, _) => Ok n | None => Panic end
  | BBytes => fun p => match p with Some (n, _) => Ok (8 * n) | None => Panic end
  | BVaruint => fun v => UnsignedBitSize v 9
  | BVaruint16 => fun v => UnsignedBitSize v 2
  | BVaruint32 => fun v => UnsignedBitSize v 4
  | BVaruint64 => fun v => UnsignedBitSize v 8
  | BVarsize => fun v => UnsignedBitSize v 5
  | BVarint => fun v => SignedBitSize v 9
  | BVarint16 => fun v => SignedBitSize v 2
  | BVarint32 => fun v => SignedBitSize v 4
  | BVarint64 => fun v => SignedBitSize v 8
  | BString => BitSizeOfString
  end.
Definition size_basic (E : env) (t : basic) (v : value) : outcome Z :=
  match t with
  | Std b => match proj b v with Some e => std_size b e | None => Panic end
  | Bits _ _ w => match w E with Some n => Ok (i64 n) | None => Panic end
  end.

(** The element codec (instantiate_array_traits.go.tmpl): bit fields come from a
    cache with 64 entries, so that a width of 64 or more panics
    (ztype/array_traits.go:105-128, see [C45_cache]).  Not modelled here: the
    panic when the same width was cached with another Go type. *)
Definition codec_of (E : env) (t : basic) : outcome (traits value) :=
  match t with
  | Std b => Ok (vtraits b)
  | Bits signed g w =>
      match w E with
      | Some n => let n := to_u 8 n in
          if 64 <=? n then Panic
          else Ok (vtraits (if signed then BSBits g n else BBits g n))
      | None => Panic
      end
  end.

(** isDeltaPackable of a builtin type (internal/ast/scope.go:78-102). *)
Definition packable (t : basic) : bool :=
  match t with
  | Std BBool | Std BString | Std BFloat16 | Std BFloat32 | Std BFloat64 | Std BBytes | Std BExtern => false
  | _ => true
  end.

(** ** Packing contexts *)

(** zserio.PackingContextNode (packing_context_node.go): a delta context, or nil,
    and the nodes of the fields. *)
Inductive node := Node (ctx : option dctx) (children : list node).

(** childrenNodes[i], out of range panics.  Simplification: the templates index
    the slice only when the field needs its node; here every field does. *)
Fixpoint update {A} (i : nat) (x : A) (l : list A) : list A :=
  match i, l with
  | O, _ :: l' => x :: l'
  | S i', y :: l' => y :: update i' x l'
  | _, [] => []
  end.
Definition on_child {S A} (i : nat) (m : prog (node * S) A) : prog (node * S) A := fun ns =>
  match ns with
  | (Node c ch, s) =>
      match nth_error ch i with
      | None => (ns, Panic)
      | Some n => match m (n, s) with ((n', s'), o) => ((Node c (update i n' ch), s'), o) end
      end
  end.

(** Use node.Context as a delta context; nil is an error. *)
Definition on_delta {S A} (m : prog (dctx * S) A) : prog (node * S) A := fun ns =>
  match ns with
  | (Node None _, _) => (ns, Err ErrContextType)
  | (Node (Some c) ch, s) => match m (c, s) with ((c', s'), o) => ((Node (Some c') ch, s'), o) end
  end.

(** A Go call whose result is [o], whatever the state. *)
Definition lift {S A} (o : outcome A) : prog S A := fun s => (s, o).

(** ** The methods of the generated types *)

(** The methods a type calls on the types of its fields. *)
Record methods := mkM {
  m_marshal : nat -> list value -> value -> writer unit;
  m_unmarshal : nat -> list value -> reader value;
  m_size : nat -> list value -> value -> Z -> outcome Z;
  m_create : nat -> prog node unit;
  m_init : nat -> list value -> value -> prog node unit;
  m_pmarshal : nat -> list value -> value -> prog (node * wst) unit;
  m_punmarshal : nat -> list value -> prog (node * rst) value
}.

Definition nth_slot (i : nat) (slots : list (option value)) : option value := nth i slots None.

(** Whether the field is stored (encode.go.tmpl:24-26 and the like). *)
Definition included (E : env) (f : field) : option bool :=
  match f_clause f with None => Some true | Some c => c E end.

(** Type arguments of all the elements of an array are computed before it is
    written (encode_compound_parameters.go.tmpl:6-19). *)
Definition arguments_ok (E : env) (args : arguments) (n : nat) : bool :=
  forallb (fun i => match args E i with Some _ => true | None => false end) (seq 0 n).

(** The configuration of an array (array_init.go.tmpl:15-22); [pk]: the enclosing
    object is packed, which makes the array packed
    (packing_context_encode.go.tmpl:52-55). *)
Definition array_config (E : env) (len : option expr) (packed : bool) : option acfg :=
  match len with
  | None => Some (mkA true packed 0 false false)
  | Some l => match l E with Some n => Some (mkA false packed (i64 n) false false) | None => None end
  end.

(** Arrays of objects (ztype/object_array_traits.go:15-101). *)
Definition object_ops (M : methods) (E : env) (id : nat) (args : arguments) : elemops value node :=
  mkOps
    (fun i v => match args E i with Some ps => m_marshal M id ps v | None => wpanic end)
    (fun i => match args E i with Some ps => m_unmarshal M id ps | None => rpanic end)
    (match m_create M id (Node None []) with
     | (n, Ok _) => Ok n
     | (_, Err e) => Err e
     | (_, Panic) => Panic
     | (_, NoFuel) => NoFuel
     end)
    (fun i v n => match args E i with Some ps => m_init M id ps v n | None => (n, Panic) end)
    (fun i v => match args E i with Some ps => m_pmarshal M id ps v | None => lift Panic end)
    (fun i => match args E i with Some ps => m_punmarshal M id ps | None => lift Panic end).

(** Writing the array of a field (encode.go.tmpl:38-63 and 77-87,
    packing_context_encode.go.tmpl:41-76). *)
Definition write_field_array (M : methods) (E : env) (f : field) (len : option expr) (packed : bool)
    (es : list value) : writer unit :=
  match array_config E len packed with
  | None => wpanic
  | Some cfg =>
      let checked (m : writer unit) : writer unit :=
        if negb (a_auto cfg) && negb (a_fixed cfg =? Z.of_nat (length es)) then werr ErrArraySize else m in
      match f_type f with
      | TBasic t =>
          match codec_of E t with
          | Ok T => checked (write_array (trait_ops T) cfg es)
          | _ => wpanic
          end
      | TRef id args =>
          if arguments_ok E args (length es)
          then checked (write_array (object_ops M E id args) cfg es)
          else wpanic
      end
  end.

(** encode.go.tmpl:38-92. *)
Definition write_content (M : methods) (E : env) (f : field) (v : value) : writer unit :=
  match f_array f with
  | Some (len, packed) =>
      match v with VArr es => write_field_array M E f len packed es | _ => wpanic end
  | None =>
      match f_type f with
      | TBasic t => write_basic E t v
      | TRef id args => match args E 0%nat with Some ps => m_marshal M id ps v | None => wpanic end
      end
  end.

(** encode.go.tmpl:27-31: r.Align and w.Align are called only for a nonzero
    alignment. *)
Definition walign_opt (n : nat) : writer unit := if (n =? 0)%nat then wret tt else (walign n ;;w wret tt).
Definition ralign_opt (n : nat) : reader unit := if (n =? 0)%nat then rret tt else (ralign n ;;r rret tt).

Definition is_some {A} (o : option A) : bool := match o with Some _ => true | None => false end.

(** encode.go.tmpl. *)
Definition write_field (M : methods) (E : env) (f : field) (slot : option value) : writer unit :=
  match included E f with
  | None => wpanic
  | Some false => wret tt
  | Some true =>
      walign_opt (f_align f) ;;w
      if f_optional f then
        WriteBool (is_some slot) ;;w
        match slot with Some v => write_content M E f v | None => wret tt end
      else match slot with Some v => write_content M E f v | None => wpanic end
  end.

(** decode.go.tmpl:60-87, packing_context_decode.go.tmpl:51-84. *)
Definition read_field_array (M : methods) (E : env) (f : field) (len : option expr) (packed : bool)
  : reader (list value) :=
  match f_type f with
  | TBasic t =>
      match codec_of E t, array_config E len packed with
      | Ok T, Some cfg => read_array (trait_ops T) cfg
      | _, _ => rpanic
      end
  | TRef id args =>
      match array_config E len packed with
      | Some cfg => read_array (object_ops M E id args) cfg
      | None => rpanic
      end
  end.

(** decode.go.tmpl:49-93. *)
Definition read_content (M : methods) (E : env) (f : field) : reader value :=
  match f_array f with
  | Some (len, packed) => es <-r read_field_array M E f len packed; rret (VArr es)
  | None =>
      match f_type f with
      | TBasic t => read_basic E t
      | TRef id args => match args E 0%nat with Some ps => m_unmarshal M id ps | None => rpanic end
      end
  end.

(** decode.go.tmpl. *)
Definition read_field (M : methods) (E : env) (f : field) : reader (option value) :=
  match included E f with
  | None => rpanic
  | Some false => rret None
  | Some true =>
      ralign_opt (f_align f) ;;r
      if f_optional f then
        present <-r ReadBool;
        if (present : bool) then v <-r read_content M E f; rret (Some v) else rret None
      else v <-r read_content M E f; rret (Some v)
  end.

(** MarshalZserio of a struct (struct.go.tmpl:22-31). *)
Fixpoint write_fields (M : methods) (E : env) (i : nat) (fs : list field) : writer unit :=
  match fs with
  | [] => wret tt
  | f :: fs' => write_field M E f (nth_slot i (e_slots E)) ;;w write_fields M E (S i) fs'
  end.

(** UnmarshalZserio of a struct into a new object (struct.go.tmpl:34-43): [done]
    are the fields read so far. *)
Fixpoint read_fields (M : methods) (ps : list value) (done : list (option value)) (fs : list field)
  : reader (list (option value)) :=
  match fs with
  | [] => rret done
  | f :: fs' =>
      s <-r read_field M (mkE ps (done ++ repeat None (length fs))) f;
      read_fields M ps (done ++ [s]) fs'
  end.

(** The branch of a choice (choice.go.tmpl:37-55): cases without a field generate
    no code, only the first condition of a case is tested, and what is not
    matched goes to the default case.  The result is the index of the field and
    the field. *)
Fixpoint select (sel : Z) (i : nat) (cases : list (list Z * option field)) (default : option field)
  : option (nat * field) :=
  match cases with
  | [] => match default with Some f => Some (i, f) | None => None end
  | (conds, None) :: cs => select sel i cs default
  | (conds, Some f) :: cs =>
      if match conds with c :: _ => sel =? c | [] => false end
      then Some (i, f) else select sel (S i) cs default
  end.

(** The fields of the Go struct of a choice (choice.go.tmpl:10-19). *)
Definition choice_fields (cases : list (list Z * option field)) (default : option field) : list field :=
  flat_map (fun c => match snd c with Some f => [f] | None => [] end) cases ++
  match default with Some f => [f] | None => [] end.

(** The fields of a union or choice object of which only field [i] is set. *)
Definition only (n i : nat) (s : option value) : list (option value) := update i s (repeat None n).

(** CountAlignBits before a field, bitsizeof.go.tmpl:22-24; boundary 0 is not
    passed. *)
Definition align_size (pos : Z) (n : nat) : outcome Z :=
  if (n =? 0)%nat then Ok pos
  else match CountAlignBits pos (Z.of_nat n) with Some d => Ok (pos + d) | None => Panic end.

Definition obind {A B} (o : outcome A) (f : A -> outcome B) : outcome B :=
  match o with Ok a => f a | Err e => Err e | Panic => Panic | NoFuel => NoFuel end.

(** bitsizeof.go.tmpl:31-48, builtin_bitsizeof.go.tmpl:46-57: the size of an array
    of objects or of a builtin type.  RawArray is only filled when the elements
    need a conversion (36-44). *)
Definition size_field_array (M : methods) (E : env) (f : field) (len : option expr) (packed : bool)
    (es : list value) (pos : Z) : outcome Z :=
  match array_config E len packed with
  | None => Panic
  | Some cfg =>
      match f_type f with
      | TBasic t =>
          obind (codec_of E t) (fun T => array_bitsize T cfg (if f_cast f then es else []) pos)
      | TRef id args =>
          if arguments_ok E args (length es)
          then object_array_bitsize
                 (fun i v p => match args E i with Some ps => m_size M id ps v p | None => Panic end) cfg es pos
          else Panic
      end
  end.

Definition size_content (M : methods) (E : env) (f : field) (v : value) (pos : Z) : outcome Z :=
  match f_array f with
  | Some (len, packed) =>
      match v with VArr es => size_field_array M E f len packed es pos | _ => Panic end
  | None =>
      match f_type f with
      | TBasic t => size_basic E t v
      | TRef id args => match args E 0%nat with Some ps => m_size M id ps v pos | None => Panic end
      end
  end.

(** bitsizeof.go.tmpl: the new endBitPosition. *)
Definition size_field (M : methods) (E : env) (f : field) (slot : option value) (pos : Z) : outcome Z :=
  match included E f with
  | None => Panic
  | Some false => Ok pos
  | Some true =>
      obind (align_size pos (f_align f)) (fun pos =>
      if f_optional f then
        match slot with
        | Some v => obind (size_content M E f v (pos + 1)) (fun d => Ok (pos + 1 + d))
        | None => Ok (pos + 1)
        end
      else match slot with
           | Some v => obind (size_content M E f v pos) (fun d => Ok (pos + d))
           | None => Panic
           end)
  end.

Fixpoint size_fields (M : methods) (E : env) (i : nat) (fs : list field) (pos : Z) : outcome Z :=
  match fs with
  | [] => Ok pos
  | f :: fs' => obind (size_field M E f (nth_slot i (e_slots E)) pos) (size_fields M E (S i) fs')
  end.

(** *** Packed methods *)

(** packing_context_create.go.tmpl. *)
Definition create_field (M : methods) (f : field) : prog node unit := fun n =>
  match n with
  | Node c ch =>
      match f_array f with
      | Some _ => (Node c (ch ++ [Node None []]), Ok tt)
      | None =>
          match f_type f with
          | TBasic t => (Node c (ch ++ [Node (if packable t then Some d_empty else None) []]), Ok tt)
          | TRef id _ => let (n', o) := m_create M id (Node None []) in (Node c (ch ++ [n']), o)
          end
      end
  end.
Fixpoint create_fields (M : methods) (fs : list field) : prog node unit :=
  match fs with
  | [] => sret tt
  | f :: fs' => create_field M f ;;s create_fields M fs'
  end%prog.

(** Init of a delta context, enum.go.tmpl:164-176, packing_context_init.go.tmpl:35-40. *)
Definition init_delta (E : env) (t : basic) (v : value) : prog node unit := fun n =>
  match n with
  | Node None _ => (n, Err ErrContextType)
  | Node (Some c) ch =>
      match obind (codec_of E t) (fun T => d_init T v c) with
      | Ok c' => (Node (Some c') ch, Ok tt)
      | Err e => (n, Err e)
      | Panic => (n, Panic)
      | NoFuel => (n, NoFuel)
      end
  end.

(** Init acts on the nodes only. *)
Definition at_node {A} (m : prog node A) : prog (node * unit) A := fun ns =>
  let (n', o) := m (fst ns) in ((n', tt), o).
Definition run_node {A} (m : prog (node * unit) A) : prog node A := fun n =>
  let (ns, o) := m (n, tt) in (fst ns, o).
Definition child {A} (i : nat) (m : prog node A) : prog node A := run_node (on_child i (at_node m)).

(** packing_context_init.go.tmpl, on the node of the field. *)
Definition init_field (M : methods) (E : env) (f : field) (slot : option value) : prog node unit :=
  match f_array f, f_type f with
  | Some _, _ => sret tt
  | None, TBasic t =>
      if packable t then
        match included E f with
        | None => lift Panic
        | Some false => sret tt
        | Some true =>
            match slot with
            | Some v => init_delta E t v
            | None => if f_optional f then sret tt else lift Panic
            end
        end
      else sret tt
  | None, TRef id args =>
      match included E f with
      | None => lift Panic
      | Some false => sret tt
      | Some true =>
          match slot with
          | Some v => match args E 0%nat with Some ps => m_init M id ps v | None => lift Panic end
          | None => if f_optional f then sret tt else lift Panic
          end
      end
  end.
Fixpoint init_fields (M : methods) (E : env) (i : nat) (fs : list field) : prog node unit :=
  match fs with
  | [] => sret tt
  | f :: fs' => child i (init_field M E f (nth_slot i (e_slots E))) ;;s init_fields M E (S i) fs'
  end%prog.

(** packing_context_encode.go.tmpl:35-98, on the node of the field. *)
Definition pwrite_content (M : methods) (E : env) (f : field) (v : value) : prog (node * wst) unit :=
  match f_array f with
  | Some (len, _) =>
      match v with VArr es => on_stream (write_field_array M E f len true es) | _ => lift Panic end
  | None =>
      match f_type f with
      | TRef id args => match args E 0%nat with Some ps => m_pmarshal M id ps v | None => lift Panic end
      | TBasic t =>
          if packable t then
            match codec_of E t with Ok T => on_delta (d_write T v) | _ => lift Panic end
          else on_stream (write_basic E t v)
      end
  end.

(** packing_context_encode.go.tmpl.  Here the alignment comes after the marker of
    an optional field. *)
Definition pwrite_field (M : methods) (E : env) (f : field) (slot : option value) : prog (node * wst) unit :=
  (match included E f with
  | None => lift Panic
  | Some false => sret tt
  | Some true =>
      if f_optional f then
        on_stream (WriteBool (is_some slot)) ;;s
        match slot with
        | Some v => on_stream (walign_opt (f_align f)) ;;s pwrite_content M E f v
        | None => sret tt
        end
      else
        on_stream (walign_opt (f_align f)) ;;s
        match slot with Some v => pwrite_content M E f v | None => lift Panic end
  end)%prog.
Fixpoint pwrite_fields (M : methods) (E : env) (i : nat) (fs : list field) : prog (node * wst) unit :=
  match fs with
  | [] => sret tt
  | f :: fs' => on_child i (pwrite_field M E f (nth_slot i (e_slots E))) ;;s pwrite_fields M E (S i) fs'
  end%prog.

(** packing_context_decode.go.tmpl:45-111. *)
Definition pread_content (M : methods) (E : env) (f : field) : prog (node * rst) value :=
  match f_array f with
  | Some (len, _) => es <-s on_stream (read_field_array M E f len true); sret (VArr es)
  | None =>
      match f_type f with
      | TRef id args => match args E 0%nat with Some ps => m_punmarshal M id ps | None => lift Panic end
      | TBasic t =>
          if packable t then
            match codec_of E t with Ok T => on_delta (d_read T) | _ => lift Panic end
          else on_stream (read_basic E t)
      end
  end%prog.
Definition pread_field (M : methods) (E : env) (f : field) : prog (node * rst) (option value) :=
  (match included E f with
  | None => lift Panic
  | Some false => sret None
  | Some true =>
      if f_optional f then
        present <-s on_stream ReadBool;
        if (present : bool)
        then on_stream (ralign_opt (f_align f)) ;;s v <-s pread_content M E f; sret (Some v)
        else sret None
      else
        on_stream (ralign_opt (f_align f)) ;;s v <-s pread_content M E f; sret (Some v)
  end)%prog.
Fixpoint pread_fields (M : methods) (ps : list value) (done : list (option value)) (fs : list field)
  : prog (node * rst) (list (option value)) :=
  match fs with
  | [] => sret done
  | f :: fs' =>
      s <-s on_child (length done) (pread_field M (mkE ps (done ++ repeat None (length fs))) f);
      pread_fields M ps (done ++ [s]) fs'
  end%prog.

(** *** The methods of a definition, given those of the other types *)

Definition has_cases (cases : list (list Z * option field)) : bool :=
  match cases with [] => false | _ => true end.

(** MarshalZserio: struct.go.tmpl:22-31, choice.go.tmpl:37-55, union.go.tmpl:35-46
    (UnionChoice is counted from 1). *)
Definition marshal_def (M : methods) (d : def) (ps : list value) (v : value) : writer unit :=
  match d, v with
  | DScalar t, _ => write_basic (mkE [] []) t v
  | DStruct fs, VRec _ slots => write_fields M (mkE ps slots) 0 fs
  | DChoice selector cases default, VRec _ slots =>
      match selector ps with
      | None => wpanic
      | Some sel =>
          match select sel 0 cases default with
          | Some (i, f) => write_field M (mkE ps slots) f (nth_slot i slots)
          | None => wret tt
          end
      end
  | DUnion fs, VRec tag slots =>
      WriteVarsize tag ;;w
      match (if tag <? 1 then None else nth_error fs (Z.to_nat (tag - 1))) with
      | Some f => write_field M (mkE ps slots) f (nth_slot (Z.to_nat (tag - 1)) slots)
      | None => wret tt
      end
  | _, _ => wpanic
  end.

(** UnmarshalZserio into a new object: struct.go.tmpl:34-43, choice.go.tmpl:58-76,
    union.go.tmpl:49-62. *)
Definition unmarshal_def (M : methods) (d : def) (ps : list value) : reader value :=
  match d with
  | DScalar t => read_basic (mkE [] []) t
  | DStruct fs => slots <-r read_fields M ps [] fs; rret (VRec 0 slots)
  | DChoice selector cases default =>
      let n := length (choice_fields cases default) in
      match selector ps with
      | None => rpanic
      | Some sel =>
          match select sel 0 cases default with
          | Some (i, f) => s <-r read_field M (mkE ps (repeat None n)) f; rret (VRec 0 (only n i s))
          | None => rret (VRec 0 (repeat None n))
          end
      end
  | DUnion fs =>
      let n := length fs in
      tag <-r ReadVarsize;
      match (if tag <? 1 then None else nth_error fs (Z.to_nat (tag - 1))) with
      | Some f =>
          s <-r read_field M (mkE ps (repeat None n)) f;
          rret (VRec tag (only n (Z.to_nat (tag - 1)) s))
      | None => rret (VRec tag (repeat None n))
      end
  end.

(** ZserioBitSize: struct.go.tmpl:48-54, choice.go.tmpl:79-94, union.go.tmpl:67-80,
    enum.go.tmpl:149-157. *)
Definition size_def (M : methods) (d : def) (ps : list value) (v : value) (pos : Z) : outcome Z :=
  match d, v with
  | DScalar t, _ => size_basic (mkE [] []) t v
  | DStruct fs, VRec _ slots => obind (size_fields M (mkE ps slots) 0 fs pos) (fun e => Ok (e - pos))
  | DChoice selector cases default, VRec _ slots =>
      match selector ps with
      | None => Panic
      | Some sel =>
          match select sel 0 cases default with
          | Some (i, f) => obind (size_field M (mkE ps slots) f (nth_slot i slots) pos) (fun e => Ok (e - pos))
          | None => Ok 0
          end
      end
  | DUnion fs, VRec tag slots =>
      obind (UnsignedBitSize tag 5) (fun d =>
      match (if tag <? 1 then None else nth_error fs (Z.to_nat (tag - 1))) with
      | Some f => obind (size_field M (mkE ps slots) f (nth_slot (Z.to_nat (tag - 1)) slots) (pos + d))
                    (fun e => Ok (e - pos))
      | None => Ok d
      end)
  | _, _ => Panic
  end.

(** ZserioCreatePackingContext: struct.go.tmpl:57-62, choice.go.tmpl:96-106,
    union.go.tmpl:83-88, enum.go.tmpl:159-162, bitmask.go.tmpl:69-72. *)
Definition create_def (M : methods) (d : def) : prog node unit :=
  match d with
  | DScalar _ => fun n => match n with Node _ ch => (Node (Some d_empty) ch, Ok tt) end
  | DStruct fs => create_fields M fs
  | DChoice _ cases default => create_fields M (choice_fields cases default)
  | DUnion fs => create_fields M fs
  end.

(** ZserioInitPackingContext: struct.go.tmpl:64-71, choice.go.tmpl:108-128 (the
    default case creates contexts once more), enum.go.tmpl:164-176.  Simplification:
    union.go.tmpl:90-97 initialises the contexts of all the fields, which nobody
    uses; here it does nothing. *)
Definition init_def (M : methods) (d : def) (ps : list value) (v : value) : prog node unit :=
  match d, v with
  | DScalar t, _ => init_delta (mkE [] []) t v
  | DStruct fs, VRec _ slots => init_fields M (mkE ps slots) 0 fs
  | DChoice selector cases default, VRec _ slots =>
      if has_cases cases then
        match selector ps with
        | None => lift Panic
        | Some sel =>
            match select sel 0 cases default with
            | Some (i, f) =>
                if (i <? length (choice_fields cases None))%nat
                then child i (init_field M (mkE ps slots) f (nth_slot i slots))
                else create_field M f
            | None => sret tt
            end
        end
      else sret tt
  | DUnion _, VRec _ _ => sret tt
  | _, _ => lift Panic
  end.

(** MarshalZserioPacked: struct.go.tmpl:88-99, choice.go.tmpl:154-176,
    union.go.tmpl:104-106, enum.go.tmpl:194-202, bitmask.go.tmpl:104-112. *)
Definition pmarshal_def (M : methods) (d : def) (ps : list value) (v : value) : prog (node * wst) unit :=
  match d, v with
  | DScalar t, _ => match codec_of (mkE [] []) t with Ok T => on_delta (d_write T v) | _ => lift Panic end
  | DStruct fs, VRec _ slots => pwrite_fields M (mkE ps slots) 0 fs
  | DChoice selector cases default, VRec _ slots =>
      if has_cases cases then
        match selector ps with
        | None => lift Panic
        | Some sel =>
            match select sel 0 cases default with
            | Some (i, f) => on_child i (pwrite_field M (mkE ps slots) f (nth_slot i slots))
            | None => sret tt
            end
        end
      else sret tt
  | DUnion _, VRec _ _ => sret tt
  | _, _ => lift Panic
  end.

(** UnmarshalZserioPacked: struct.go.tmpl:74-85, choice.go.tmpl:130-152,
    union.go.tmpl:99-101, enum.go.tmpl:179-192, bitmask.go.tmpl:89-102. *)
Definition punmarshal_def (M : methods) (d : def) (ps : list value) : prog (node * rst) value :=
  match d with
  | DScalar t => match codec_of (mkE [] []) t with Ok T => on_delta (d_read T) | _ => lift Panic end
  | DStruct fs => slots <-s pread_fields M ps [] fs; sret (VRec 0 slots)
  | DChoice selector cases default =>
      let n := length (choice_fields cases default) in
      if has_cases cases then
        match selector ps with
        | None => lift Panic
        | Some sel =>
            match select sel 0 cases default with
            | Some (i, f) =>
                s <-s on_child i (pread_field M (mkE ps (repeat None n)) f); sret (VRec 0 (only n i s))
            | None => sret (VRec 0 (repeat None n))
            end
        end
      else sret (VRec 0 (repeat None n))
  | DUnion fs => sret (VRec 0 (repeat None (length fs)))
  end%prog.

(** *** All the methods of a schema, to a given depth

    A reference to a type that does not exist panics; a schema that compiles has
    none. *)
Definition no_methods : methods :=
  mkM (fun _ _ _ w => (w, NoFuel)) (fun _ _ r => (r, NoFuel)) (fun _ _ _ _ => NoFuel)
    (fun _ n => (n, NoFuel)) (fun _ _ _ n => (n, NoFuel))
    (fun _ _ _ s => (s, NoFuel)) (fun _ _ s => (s, NoFuel)).

Definition of_def {A} (S : schema) (id : nat) (f : def -> A) (bad : A) : A :=
  match nth_error S id with Some d => f d | None => bad end.

Fixpoint run (S : schema) (fuel : nat) : methods :=
  match fuel with
  | O => no_methods
  | Datatypes.S fuel' =>
      let M := run S fuel' in
      mkM (fun id ps v => of_def S id (fun d => marshal_def M d ps v) wpanic)
          (fun id ps => of_def S id (fun d => unmarshal_def M d ps) rpanic)
          (fun id ps v pos => of_def S id (fun d => size_def M d ps v pos) Panic)
          (fun id => of_def S id (create_def M) (lift Panic))
          (fun id ps v => of_def S id (fun d => init_def M d ps v) (lift Panic))
          (fun id ps v => of_def S id (fun d => pmarshal_def M d ps v) (lift Panic))
          (fun id ps => of_def S id (fun d => punmarshal_def M d ps) (lift Panic))
  end.

Definition MarshalZserio (S : schema) (fuel : nat) := m_marshal (run S fuel).
Definition UnmarshalZserio (S : schema) (fuel : nat) := m_unmarshal (run S fuel).
Definition ZserioBitSize (S : schema) (fuel : nat) := m_size (run S fuel).
