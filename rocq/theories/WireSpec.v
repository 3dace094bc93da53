(** The wire format: the bits of every value of every type of a schema.

    A specification that does not use the codecs: numbers, strings and buffers as
    bit strings, and objects as sequences of those.  [None] means that the value
    is not one of the type. *)

Require Import ZArith List Bool.
From Verif Require Import Bits Spec PosSpec DeltaSpec Traits Schema.
Import ListNotations.
Open Scope Z_scope.

(** ** Numbers *)

(** The number of bytes of the shortest variable-length encoding, among 1 to [m]. *)
Definition byte_counts (m : Z) : list Z := map Z.of_nat (seq 1 (Z.to_nat m)).
Definition ulength (m v : Z) : option Z := find (fun k => v <? 2 ^ ucap k m) (byte_counts m).
Definition slength (m v : Z) : option Z := find (fun k => Z.abs v <? 2 ^ scap k m) (byte_counts m).

Definition varuint_bits (m v : Z) : option (list bool) := option_map (fun k => uwire v k m) (ulength m v).
Definition varint_bits (m v : Z) : option (list bool) := option_map (fun k => swire v k m) (slength m v).

(** The half-precision pattern of a single-precision pattern that is the value of
    one: sign, exponent, fraction. *)
Definition half (f : Z) : Z :=
  let sign := f / 2 ^ 31 in let e := (f / 2 ^ 23) mod 256 in let m := f mod 2 ^ 23 in
  sign * 2 ^ 15 +
  (if e =? 255 then 31 * 2 ^ 10 + m / 2 ^ 13                (* infinities and NaNs *)
   else if 113 <=? e then (e - 112) * 2 ^ 10 + m / 2 ^ 13   (* normal numbers *)
   else if e =? 0 then 0                                    (* zero *)
   else (2 ^ 23 + m) / 2 ^ (126 - e)).                      (* multiples of 2^-24 *)

(** A sequence of bits with its length before it. *)
Definition counted (n : Z) (bs : list bool) : option (list bool) :=
  option_map (fun c => c ++ bs) (varuint_bits 5 n).

(** Fixed-width numbers are in two's complement, most significant bit first. *)
Definition scalar_bits (b : builtin) (v : value) : option (list bool) :=
  match b, v with
  | BBool, VBool x => Some [x]
  | BString, VStr s => counted (Z.of_nat (length s)) (bytes_bits s)
  | BBytes, VBuf (Some (n, buf)) => counted n (bytes_bits buf)
  | BExtern, VBuf (Some (n, buf)) => counted n (firstn (Z.to_nat n) (bytes_bits buf))
  | BFloat16, VInt z => Some (bits_of 16 (half z))
  | BFloat32, VInt z => Some (bits_of 32 z)
  | BFloat64, VInt z => Some (bits_of 64 z)
  | BBits _ n, VInt z | BSBits _ n, VInt z => Some (bits_of (Z.to_nat n) z)
  | BVaruint, VInt z => varuint_bits 9 z
  | BVaruint16, VInt z => varuint_bits 2 z
  | BVaruint32, VInt z => varuint_bits 4 z
  | BVaruint64, VInt z => varuint_bits 8 z
  | BVarsize, VInt z => varuint_bits 5 z
  | BVarint, VInt z => if z =? - 2 ^ 63 then Some (bits_of 8 128) else varint_bits 9 z
  | BVarint16, VInt z => varint_bits 2 z
  | BVarint32, VInt z => varint_bits 4 z
  | BVarint64, VInt z => varint_bits 8 z
  | _, _ => None
  end.

(** The builtin type of a field; the width of bit<expr> is a uint8. *)
Definition type_in (E : env) (t : basic) : option builtin :=
  match t with
  | Std b => Some b
  | Bits true g w => option_map (fun n => BSBits g (n mod 256)) (w E)
  | Bits false g w => option_map (fun n => BBits g (n mod 256)) (w E)
  end.
Definition basic_bits (E : env) (t : basic) (v : value) : option (list bool) :=
  match type_in E t with Some b => scalar_bits b v | None => None end.

(** ** Columns

    In a packed array the numbers at the same place of all the elements form a
    column, which is delta packed as a whole; the rest is stored as it is. *)

(** A number in a column: its plain encoding, what the writer takes for the length
    of it, and the number modulo 2^64.  [c_counted]: the writer has seen the column
    beforehand. *)
Record cell := mkCell { c_bits : list bool; c_size : Z; c_num : Z; c_counted : bool }.

(** The places of an element: the indices of fields that lead there. *)
Definition path := list nat.

Inductive item :=
| Raw (e : pbits)
| Cell (p : path) (c : cell).

Definition under (i : nat) (it : item) : item :=
  match it with Raw e => Raw e | Cell p c => Cell (i :: p) c end.

Definition path_eqb (p q : path) : bool := if list_eq_dec Nat.eq_dec p q then true else false.

(** A column, in order. *)
Definition column (p : path) (l : list item) : list cell :=
  flat_map (fun it => match it with Raw _ => [] | Cell q c => if path_eqb p q then [c] else [] end) l.

(** The least number of bits for all the differences of neighbours. *)
Definition magnitude (d : Z) : Z := if d =? 0 then 0 else Z.log2 (Z.abs d) + 1.
Definition delta_bits (us : list Z) : Z := fold_right Z.max 0 (map (fun q => magnitude (snd q - fst q)) (neighbours us)).

(** The bits of the cells of a column, one by one: a descriptor, the first number
    plainly and then differences, or a 0 and all numbers plainly. *)
Definition pieces (col : list cell) : list (list bool) :=
  let us := map c_num col in let m := delta_bits us in
  if forallb c_counted col && packs (map c_size col) m
  then (true :: bits_of 6 m ++ hd [] (map c_bits col)) ::
       map (fun q => bits_of (Z.to_nat (delta_cost m)) (snd q - fst q)) (neighbours us)
  else match col with
       | [] => []
       | c :: col' => (false :: c_bits c) :: map c_bits col'
       end.

(** The bits of a packed array with the items [all], of which [todo] remain. *)
Fixpoint items_bits (all done todo : list item) : pbits :=
  match todo with
  | [] => pnil
  | it :: todo' =>
      papp (match it with
            | Raw e => e
            | Cell p _ => pfix (nth (length (column p done)) (pieces (column p all)) [])
            end)
        (items_bits all (done ++ [it]) todo')
  end.

(** Types whose fields have a column. *)
Definition has_column (t : basic) : bool :=
  match t with
  | Std (BBool | BString | BFloat16 | BFloat32 | BFloat64 | BBytes | BExtern) => false
  | Std _ | Bits _ _ _ => true
  end.

(** What the writer takes for the length of an element (C25): the byte limit is 8
    for varint and varuint instead of 9, and 4 for varuint16 instead of 2; beyond
    it the length is taken for 0. *)
Definition bytes_or_0 (k : option Z) : Z := match k with Some k => 8 * k | None => 0 end.
Definition reckoned (b : builtin) (v : value) : option Z :=
  match b, v with
  | BBool, VBool _ => Some 1
  | BBits _ n, VInt _ | BSBits _ n, VInt _ => Some n
  | BVaruint, VInt z | BVaruint64, VInt z => Some (bytes_or_0 (ulength 8 z))
  | BVaruint16, VInt z | BVaruint32, VInt z => Some (bytes_or_0 (ulength 4 z))
  | BVarsize, VInt z => Some (bytes_or_0 (ulength 5 z))
  | BVarint, VInt z => Some (if z =? - 2 ^ 63 then 8 else bytes_or_0 (slength 8 z))
  | BVarint64, VInt z => Some (bytes_or_0 (slength 8 z))
  | BVarint32, VInt z => Some (bytes_or_0 (slength 4 z))
  | BVarint16, VInt z => Some (bytes_or_0 (slength 2 z))
  | _, _ => None
  end.
Definition number (v : value) : option Z :=
  match v with
  | VInt z => Some (z mod 2 ^ 64)
  | VBool x => Some (if x then 1 else 0)
  | _ => None
  end.
Definition cell_of (counted : bool) (E : env) (t : basic) (v : value) : option cell :=
  match type_in E t with
  | Some b =>
      match scalar_bits b v, reckoned b v, number v with
      | Some bs, Some s, Some u => Some (mkCell bs s u counted)
      | _, _, _ => None
      end
  | None => None
  end.

(** ** Objects *)

Fixpoint all_some {A} (l : list (option A)) : option (list A) :=
  match l with
  | [] => Some []
  | Some a :: l' => option_map (cons a) (all_some l')
  | None :: _ => None
  end.
Definition indexed {A} (l : list A) : list (nat * A) := combine (seq 0 (length l)) l.

Definition slot_of (i : nat) (slots : list (option value)) : option value :=
  match nth_error slots i with Some s => s | None => None end.

(** The formats of the types that fields refer to: on their own, and as part of a
    packed array. *)
Record formats := mkFm {
  plain : nat -> list value -> value -> option pbits;
  parts : bool -> nat -> list value -> value -> option (list item)
}.

(** The number of elements is stored before them unless the schema gives it. *)
Definition count_bits (len : option expr) (n : nat) : option (list bool) :=
  match len with None => varuint_bits 5 (Z.of_nat n) | Some _ => Some [] end.

Definition array_format (F : formats) (E : env) (f : field) (len : option expr) (packed : bool) (es : list value)
  : option pbits :=
  match count_bits len (length es) with
  | None => None
  | Some c => option_map (papp (pfix c))
      match f_type f, packed with
      | TBasic t, false => option_map (fun l => pfix (concat l)) (all_some (map (basic_bits E t) es))
      | TBasic t, true =>
          option_map (fun l => let items := map (Cell []) l in items_bits items [] items)
            (all_some (map (cell_of true E t) es))
      | TRef id args, false =>
          option_map pconcat (all_some (map (fun ie =>
            match args E (fst ie) with Some ps => plain F id ps (snd ie) | None => None end) (indexed es)))
      | TRef id args, true =>
          option_map (fun l => let items := concat l in items_bits items [] items) (all_some (map (fun ie =>
            match args E (fst ie) with Some ps => parts F true id ps (snd ie) | None => None end) (indexed es)))
      end
  end.

Definition content_format (F : formats) (E : env) (f : field) (v : value) : option pbits :=
  match f_array f, v with
  | Some (len, packed), VArr es => array_format F E f len packed es
  | Some _, _ => None
  | None, _ =>
      match f_type f with
      | TBasic t => option_map pfix (basic_bits E t v)
      | TRef id args => match args E 0%nat with Some ps => plain F id ps v | None => None end
      end
  end.

(** Zero bits up to a multiple of the alignment, if there is one. *)
Definition align_format (n : nat) : pbits := if (n =? 0)%nat then pnil else padding n.

(** Whether the field is present in the stream. *)
Definition present (E : env) (f : field) : option bool :=
  match f_clause f with None => Some true | Some c => c E end.

(** Nothing if the condition of the field is false; otherwise padding, a marker if
    it is optional, and the value if there is one. *)
Definition field_format (F : formats) (E : env) (f : field) (slot : option value) : option pbits :=
  match present E f with
  | None => None
  | Some false => Some pnil
  | Some true =>
      option_map (papp (align_format (f_align f)))
      match f_optional f, slot with
      | true, None => Some (pfix [false])
      | true, Some v => option_map (papp (pfix [true])) (content_format F E f v)
      | false, Some v => content_format F E f v
      | false, None => None
      end
  end.

(** As part of a packed array: the padding comes after the marker. *)
Definition content_parts (F : formats) (counted : bool) (E : env) (f : field) (v : value) : option (list item) :=
  match f_array f, v with
  | Some (len, _), VArr es => option_map (fun e => [Raw e]) (array_format F E f len true es)
  | Some _, _ => None
  | None, _ =>
      match f_type f with
      | TBasic t =>
          if has_column t then option_map (fun c => [Cell [] c]) (cell_of counted E t v)
          else option_map (fun bs => [Raw (pfix bs)]) (basic_bits E t v)
      | TRef id args => match args E 0%nat with Some ps => parts F counted id ps v | None => None end
      end
  end.
Definition field_parts (F : formats) (counted : bool) (E : env) (f : field) (slot : option value) : option (list item) :=
  match present E f with
  | None => None
  | Some false => Some []
  | Some true =>
      let padded := option_map (cons (Raw (align_format (f_align f)))) in
      match f_optional f, slot with
      | true, None => Some [Raw (pfix [false])]
      | true, Some v => option_map (cons (Raw (pfix [true]))) (padded (content_parts F counted E f v))
      | false, Some v => padded (content_parts F counted E f v)
      | false, None => None
      end
  end.

(** The branch of a choice: among the cases with a field, the first whose first
    label is the selector, else the default; with the index of the field. *)
Definition branches (cases : list (list Z * option field)) : list (option Z * field) :=
  flat_map (fun c => match snd c with Some f => [(hd_error (fst c), f)] | None => [] end) cases.
Definition branch (sel : Z) (cases : list (list Z * option field)) (default : option field) : option (nat * field) :=
  match find (fun x => match fst (snd x) with Some l => l =? sel | None => false end) (indexed (branches cases)) with
  | Some (i, (_, f)) => Some (i, f)
  | None => option_map (fun f => (length (branches cases), f)) default
  end.
Definition is_default (i : nat) (cases : list (list Z * option field)) : bool := (i =? length (branches cases))%nat.

(** The member of a union, counted from 1. *)
Definition member (tag : Z) (fs : list field) : option (nat * field) :=
  if tag <=? 0 then None else let i := Z.to_nat (tag - 1) in option_map (fun f => (i, f)) (nth_error fs i).

Definition def_format (F : formats) (d : def) (ps : list value) (v : value) : option pbits :=
  match d, v with
  | DScalar t, _ => option_map pfix (basic_bits (mkE [] []) t v)
  | DStruct fs, VRec _ slots =>
      option_map pconcat (all_some (map (fun x =>
        field_format F (mkE ps slots) (snd x) (slot_of (fst x) slots)) (indexed fs)))
  | DChoice selector cases default, VRec _ slots =>
      match selector ps with
      | None => None
      | Some sel =>
          match branch sel cases default with
          | Some (i, f) => field_format F (mkE ps slots) f (slot_of i slots)
          | None => Some pnil
          end
      end
  | DUnion fs, VRec tag slots =>
      match varuint_bits 5 tag with
      | None => None
      | Some t => option_map (papp (pfix t))
          match member tag fs with
          | Some (i, f) => field_format F (mkE ps slots) f (slot_of i slots)
          | None => Some pnil
          end
      end
  | _, _ => None
  end.

(** As part of a packed array; the columns of a default branch are not counted
    beforehand.  Unions are not supported (C27). *)
Definition def_parts (F : formats) (counted : bool) (d : def) (ps : list value) (v : value) : option (list item) :=
  match d, v with
  | DScalar t, _ => option_map (fun c => [Cell [] c]) (cell_of counted (mkE [] []) t v)
  | DStruct fs, VRec _ slots =>
      option_map (@concat _) (all_some (map (fun x =>
        option_map (map (under (fst x))) (field_parts F counted (mkE ps slots) (snd x) (slot_of (fst x) slots)))
        (indexed fs)))
  | DChoice selector cases default, VRec _ slots =>
      match selector ps with
      | None => None
      | Some sel =>
          match branch sel cases default with
          | Some (i, f) =>
              option_map (map (under i))
                (field_parts F (counted && negb (is_default i cases)) (mkE ps slots) f (slot_of i slots))
          | None => Some []
          end
      end
  | _, _ => None
  end.

(** All types, for values nested at most [n] deep. *)
Fixpoint formats_of (S : schema) (n : nat) : formats :=
  match n with
  | O => mkFm (fun _ _ _ => None) (fun _ _ _ _ => None)
  | Datatypes.S n' =>
      let F := formats_of S n' in
      mkFm (fun id ps v => match nth_error S id with Some d => def_format F d ps v | None => None end)
           (fun counted id ps v => match nth_error S id with Some d => def_parts F counted d ps v | None => None end)
  end.

Definition wire_format (S : schema) (n : nat) (id : nat) (ps : list value) (v : value) : option pbits :=
  plain (formats_of S n) id ps v.
