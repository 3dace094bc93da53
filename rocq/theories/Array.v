(** Model of arrays: ztype/array.go, array_encode.go, array_decode.go and
    object_array.go, object_array_encode.go, object_array_decode.go.

    Array and ObjectArray are the same code over different element operations
    (Array calls the element codec, ObjectArray the methods of the element), so
    they are modelled once, over a record of element operations. *)

Require Import ZArith List Bool.
From Verif Require Import Bits Stream Scalars Traits Delta.
Import ListNotations.
Open Scope Z_scope.
Open Scope prog_scope.

(** What an array does with its elements; [N] is the type of packing contexts.
    The natural number is the index of the element: ObjectArray sets the
    parameters of the element, which may depend on the index, before reading it
    (object_array_decode.go:36-38), and the generated code sets them before
    writing (encode_compound_parameters.go.tmpl:5-19). *)
Record elemops (A N : Type) := mkOps {
  k_write : nat -> A -> writer unit;              (* Write *)
  k_read : nat -> reader A;                       (* Read *)
  k_create : outcome N;                           (* CreateContext *)
  k_init : nat -> A -> N -> N * outcome unit;     (* InitContext *)
  k_pwrite : nat -> A -> prog (N * wst) unit;     (* packed Write *)
  k_pread : nat -> prog (N * rst) A               (* packed Read *)
}.
Arguments mkOps {A N} _ _ _ _ _ _.
Arguments k_write {A N} e _ _.
Arguments k_read {A N} e _.
Arguments k_create {A N} e.
Arguments k_init {A N} e _ _ _.
Arguments k_pwrite {A N} e _ _.
Arguments k_pread {A N} e _.

(** The element operations of Array: the codec, and for packed arrays
    PackedArrayTraits (ztype/packed_array_traits.go:19-56). *)
Definition trait_ops {A} (T : traits A) : elemops A dctx :=
  mkOps (fun _ => t_write T) (fun _ => t_read T) (Ok d_empty)
    (fun _ e c => match d_init T e c with
                  | Ok c' => (c', Ok tt)
                  | Err x => (c, Err x)
                  | Panic => (c, Panic)
                  | NoFuel => (c, NoFuel)
                  end)
    (fun _ => d_write T) (fun _ => d_read T).

(** Configuration of an array (ztype/array.go:11-33).  The offset methods are
    modelled by their presence only: [a_check] aligns before each element;
    the callbacks are assumed to return without touching the stream. *)
Record acfg := mkA {
  a_auto : bool;      (* IsAuto *)
  a_packed : bool;    (* IsPacked *)
  a_fixed : Z;        (* FixedSize *)
  a_check : bool;     (* checkOffsetMethod != nil *)
  a_set : bool        (* setOffsetMethod != nil *)
}.

(** Use array.PackedContext; a nil context is dereferenced. *)
Definition on_packed {N S A} (m : prog (N * S) A) : prog (option N * S) A := fun cs =>
  match cs with
  | (None, s) => ((None, s), Panic)
  | (Some n, s) => match m (n, s) with ((n', s'), o) => ((Some n', s'), o) end
  end.

(** array.PackedContext, err = packedTraits.CreateContext().  On an error the Go
    code also stores the context, which nobody uses then. *)
Definition new_context {A N S} (K : elemops A N) : prog (option N * S) unit := fun cs =>
  match k_create K with
  | Ok n => ((Some n, snd cs), Ok tt)
  | Err e => (cs, Err e)
  | Panic => (cs, Panic)
  | NoFuel => (cs, NoFuel)
  end.

(** One iteration of the loop over the elements (array_encode.go:31-44,
    object_array_encode.go:34-49): the result of Write is dropped. *)
Definition write_elem {A N} (K : elemops A N) (cfg : acfg) (i : nat) (e : A) : prog (option N * wst) unit :=
  (if a_check cfg then on_stream (wbind (walign 8) (fun _ => wret tt)) else sret tt) ;;s
  signore (if a_packed cfg then on_packed (k_pwrite K i e) else on_stream (k_write K i e)).

Fixpoint write_elems {A N} (K : elemops A N) (cfg : acfg) (i : nat) (es : list A) : prog (option N * wst) unit :=
  match es with
  | [] => sret tt
  | e :: es' => write_elem K cfg i e ;;s write_elems K cfg (S i) es'
  end.

(** The initialisation loop (array_encode.go:27-29, object_array_encode.go:29-31):
    the result of InitContext is dropped. *)
Fixpoint init_elems {A N} (K : elemops A N) (i : nat) (es : list A) (n : N) : N * outcome unit :=
  match es with
  | [] => (n, Ok tt)
  | e :: es' =>
      match k_init K i e n with
      | (n', Ok _) | (n', Err _) => init_elems K (S i) es' n'
      | (n', Panic) => (n', Panic)
      | (n', NoFuel) => (n', NoFuel)
      end
  end.
Definition init_context {A N S} (K : elemops A N) (es : list A) : prog (option N * S) unit := fun cs =>
  match cs with
  | (None, s) => ((None, s), Panic)
  | (Some n, s) => let (n', o) := init_elems K 0 es n in ((Some n', s), o)
  end.

(** Array.MarshalZserio (array_encode.go:8-47), ObjectArray.MarshalZserio
    (object_array_encode.go:6-52).  The state is array.PackedContext and the
    writer. *)
Definition array_marshal {A N} (K : elemops A N) (cfg : acfg) (es : list A) : prog (option N * wst) unit :=
  (if a_auto cfg then on_stream (WriteVarsize (u64 (Z.of_nat (length es)))) else sret tt) ;;s
  match es with
  | [] => sret tt
  | _ =>
      (if a_packed cfg then new_context K ;;s init_context K es else sret tt) ;;s
      write_elems K cfg 0 es
  end.

(** One iteration and the loop of array_decode.go:35-53,
    object_array_decode.go:34-56. *)
Definition read_elem {A N} (K : elemops A N) (cfg : acfg) (i : nat) : prog (option N * rst) A :=
  (if a_check cfg then on_stream (rbind (ralign 8) (fun _ => rret tt)) else sret tt) ;;s
  if a_packed cfg then on_packed (k_pread K i) else on_stream (k_read K i).

Fixpoint read_elems {A N} (K : elemops A N) (cfg : acfg) (i n : nat) : prog (option N * rst) (list A) :=
  match n with
  | O => sret []
  | S n' => e <-s read_elem K cfg i; es <-s read_elems K cfg (S i) n'; sret (e :: es)
  end.

(** Array.UnmarshalZserio (array_decode.go:8-56), ObjectArray.UnmarshalZserio
    (object_array_decode.go:6-59).  make panics on a negative size; running out
    of memory is not modelled. *)
Definition array_unmarshal {A N} (K : elemops A N) (cfg : acfg) : prog (option N * rst) (list A) :=
  size <-s (if a_auto cfg then on_stream (rbind ReadVarsize (fun v => rret (i64 v))) else sret (a_fixed cfg));
  if size <? 0 then (fun s => (s, Panic))
  else if size =? 0 then sret []
  else
    (if a_packed cfg then new_context K else sret tt) ;;s
    read_elems K cfg 0 (Z.to_nat size).

(** As the generated code uses them: on a fresh array object. *)
Definition write_array {A N} (K : elemops A N) (cfg : acfg) (es : list A) : writer unit :=
  with_ctx None (array_marshal K cfg es).
Definition read_array {A N} (K : elemops A N) (cfg : acfg) : reader (list A) :=
  with_ctx None (array_unmarshal K cfg).

(** alignTo (ztype/bit_alignment.go:13-19). *)
Definition alignTo (alignment bitPosition : Z) : Z :=
  if (bitPosition <=? 0) || (alignment =? 0) then bitPosition
  else (Z.quot (bitPosition - 1) alignment + 1) * alignment.

(** The size of the length field as ZserioBitSize computes it
    (array.go:44-50 and 76-82, object_array.go:31-37 and 66-72). *)
Definition length_size (cfg : acfg) (n : nat) : outcome Z :=
  if a_auto cfg then SignedBitSize (Z.of_nat n) 4 else Ok 0.

(** The sum of the element sizes (array.go:62-67, object_array.go:52-57):
    [size e pos] is BitSizeOf, whose error has been dropped. *)
Fixpoint sum_sizes {A} (size : nat -> A -> Z -> outcome Z) (cfg : acfg) (i : nat) (es : list A) (pos : Z) : outcome Z :=
  match es with
  | [] => Ok pos
  | e :: es' =>
      let pos' := if a_set cfg then alignTo 8 pos else pos in
      match size i e pos' with
      | Ok s => sum_sizes size cfg (S i) es' (pos' + s)
      | o => o
      end
  end.

(** Array.ZserioBitSize (array.go:41-70). *)
Definition array_bitsize {A} (T : traits A) (cfg : acfg) (es : list A) (pos : Z) : outcome Z :=
  match length_size cfg (length es) with
  | Ok d =>
      let size := Z.of_nat (length es) in
      let start := pos + d in
      if t_const T && (0 <? size) then
        match t_size T (t_zero T) with
        | Ok elementSize =>
            let e := if a_set cfg then start + size * elementSize
                     else alignTo 8 start + (elementSize + (size - 1) * alignTo 8 elementSize) in
            Ok (e - pos)
        | o => o
        end
      else
        match sum_sizes (fun _ e _ => t_size T e) cfg 0 es start with
        | Ok e => Ok (e - pos)
        | o => o
        end
  | o => o
  end.

(** ObjectArray.ZserioBitSize (object_array.go:28-60): BitSizeOfIsConstant is
    false (object_array_traits.go:21-23), and the error of an element's
    ZserioBitSize is dropped together with its size (33-36). *)
Definition object_array_bitsize {A} (size : nat -> A -> Z -> outcome Z) (cfg : acfg) (es : list A) (pos : Z) : outcome Z :=
  match length_size cfg (length es) with
  | Ok d =>
      match sum_sizes (fun i e p => size_or_0 (size i e p)) cfg 0 es (pos + d) with
      | Ok e => Ok (e - pos)
      | o => o
      end
  | o => o
  end.

(** Array.ZserioBitSizePacked (array.go:73-98): the context is the one left by
    the last MarshalZserio or UnmarshalZserio; it is nil before. *)
Fixpoint packed_sizes {A} (T : traits A) (cfg : acfg) (es : list A) (c : dctx) (pos : Z) : dctx * outcome Z :=
  match es with
  | [] => (c, Ok pos)
  | e :: es' =>
      let pos' := if a_set cfg then alignTo 8 pos else pos in
      match d_bitsize T e c with
      | (c', Ok s) => packed_sizes T cfg es' c' (pos' + s)
      | (c', o) => (c', o)
      end
  end.
Definition array_bitsize_packed {A} (T : traits A) (cfg : acfg) (es : list A) (c : option dctx) (pos : Z)
  : option dctx * outcome Z :=
  match length_size cfg (length es) with
  | Ok d =>
      match es, c with
      | [], _ => (c, Ok d)
      | _, None => (None, Panic)
      | _, Some c0 =>
          match packed_sizes T cfg es c0 (pos + d) with
          | (c', Ok e) => (Some c', Ok (e - pos))
          | (c', o) => (Some c', o)
          end
      end
  | o => (c, o)
  end.
