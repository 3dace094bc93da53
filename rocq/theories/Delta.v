(** Model of delta packing contexts (ztype/delta_context.go). *)

Require Import ZArith List Bool.
From Verif Require Import Bits Stream Scalars Traits.
Import ListNotations.
Open Scope Z_scope.

(** ** Computations with a state

    [prog S A]: a Go call that reads and updates [S] and returns [A], an error
    or a panic.  The state is kept on errors, because callers may ignore them. *)
Definition prog (S A : Type) := S -> S * outcome A.

Definition sret {S A} (a : A) : prog S A := fun s => (s, Ok a).
Definition sbind {S A B} (m : prog S A) (f : A -> prog S B) : prog S B := fun s =>
  match m s with
  | (s', Ok a) => f a s'
  | (s', Err e) => (s', Err e)
  | (s', Panic) => (s', Panic)
  | (s', NoFuel) => (s', NoFuel)
  end.
(** Call and drop the error. *)
Definition signore {S A} (m : prog S A) : prog S unit := fun s =>
  match m s with
  | (s', Ok _) => (s', Ok tt)
  | (s', Err _) => (s', Ok tt)
  | (s', Panic) => (s', Panic)
  | (s', NoFuel) => (s', NoFuel)
  end.
(** Run a stream operation beside a context. *)
Definition on_stream {C S A} (m : prog S A) : prog (C * S) A := fun cs =>
  let (c, s) := cs in let (s', o) := m s in ((c, s'), o).
(** Update the context. *)
Definition on_ctx {C S} (f : C -> C) : prog (C * S) unit := fun cs =>
  let (c, s) := cs in ((f c, s), Ok tt).
Definition get_ctx {C S} : prog (C * S) C := fun cs => (cs, Ok (fst cs)).

Declare Scope prog_scope.
Delimit Scope prog_scope with prog.
Notation "x <-s m ; k" := (sbind m (fun x => k))
  (at level 61, m at next level, right associativity) : prog_scope.
Notation "m ;;s k" := (sbind m (fun _ => k))
  (at level 61, right associativity) : prog_scope.
Open Scope prog_scope.

(** ** Delta contexts *)

(** DeltaContext[T] (ztype/delta_context.go:16-30).  Simplification: the counters
    of type int are unbounded (the bit size of an array in memory is far below
    2^63). *)
Record dctx := mkD {
  d_prev : option Z;      (* previousElement, None is nil *)
  d_max : Z;              (* maxBitNumber *)
  d_unpacked : Z;         (* unpackedBitSize *)
  d_first : Z;            (* firstElementBitSize *)
  d_num : Z;              (* numElements *)
  d_packed : bool;        (* isPacked *)
  d_started : bool        (* processingStarted *)
}.

(** &DeltaContext[T]{} (ztype/packing_context_node.go:6-10). *)
Definition d_empty : dctx := mkD None 0 0 0 0 false false.

(** maxBitNumberBits, maxBitNumberLimit (ztype/delta_context.go:9-12). *)
Definition maxBitNumberBits : Z := 6.
Definition maxBitNumberLimit : Z := 62.

(** absDiff (ztype/delta_context.go:37-42). *)
Definition absDiff (lhs rhs : Z) : Z :=
  if rhs <? lhs then u64 (lhs - rhs) else u64 (rhs - lhs).

(** Init (ztype/delta_context.go:45-68). *)
Definition d_init {A} (T : traits A) (e : A) (c : dctx) : outcome dctx :=
  match t_size T e with
  | Ok size =>
      let unpacked := d_unpacked c + size in
      let num := d_num c + 1 in
      match d_prev c with
      | None => Ok (mkD (Some (t_as T e)) (d_max c) unpacked unpacked num (d_packed c) (d_started c))
      | Some p =>
          if d_max c <=? maxBitNumberLimit then
            let m := len64 (absDiff (t_as T e) p) in
            if d_max c <? m
            then Ok (mkD (Some (t_as T e)) m unpacked (d_first c) num
                         (m <=? maxBitNumberLimit) (d_started c))
            else Ok (mkD (Some (t_as T e)) (d_max c) unpacked (d_first c) num true (d_started c))
          else Ok (mkD (Some (t_as T e)) (d_max c) unpacked (d_first c) num (d_packed c) (d_started c))
      end
  | Err e => Err e
  | Panic => Panic
  | NoFuel => NoFuel
  end.

(** Bits stored per element after the first. *)
Definition deltaBitsize (c : dctx) : Z := if 0 <? d_max c then d_max c + 1 else 0.

Definition set_packed (b : bool) (c : dctx) : dctx :=
  mkD (d_prev c) (d_max c) (d_unpacked c) (d_first c) (d_num c) b (d_started c).
Definition set_started (c : dctx) : dctx :=
  mkD (d_prev c) (d_max c) (d_unpacked c) (d_first c) (d_num c) (d_packed c) true.
Definition set_max (m : Z) (c : dctx) : dctx :=
  mkD (d_prev c) m (d_unpacked c) (d_first c) (d_num c) (d_packed c) (d_started c).
Definition set_prev (p : Z) (c : dctx) : dctx :=
  mkD (Some p) (d_max c) (d_unpacked c) (d_first c) (d_num c) (d_packed c) (d_started c).

(** finishInit (ztype/delta_context.go:133-151). *)
Definition finishInit (c : dctx) : dctx :=
  if d_packed c then
    let packedBitsizeWithDescriptor :=
      1 + maxBitNumberBits + d_first c + (d_num c - 1) * deltaBitsize c in
    let unpackedBitsizeWithDescriptor := 1 + d_unpacked c in
    if unpackedBitsizeWithDescriptor <=? packedBitsizeWithDescriptor
    then set_packed false c else c
  else c.

(** WriteDescriptor (ztype/delta_context.go:193-201). *)
Definition WriteDescriptor (c : dctx) : writer unit :=
  wbind (write_bool (d_packed c)) (fun _ =>
    if d_packed c then write_bits (u64 (d_max c)) (Z.to_nat maxBitNumberBits) else wret tt).

(** writeUnpacked (ztype/delta_context.go:204-211). *)
Definition writeUnpacked {A} (T : traits A) (e : A) : prog (dctx * wst) unit :=
  on_ctx (set_prev (t_as T e)) ;;s on_stream (t_write T e).

(** Write (ztype/delta_context.go:108-129).  The subtraction is uint64. *)
Definition d_write {A} (T : traits A) (e : A) : prog (dctx * wst) unit :=
  c <-s get_ctx;
  if negb (d_started c) then
    on_ctx (fun c => finishInit (set_started c)) ;;s
    c' <-s get_ctx;
    on_stream (WriteDescriptor c') ;;s
    writeUnpacked T e
  else if negb (d_packed c) then writeUnpacked T e
  else if 0 <? d_max c then
    match d_prev c with
    | Some p =>
        on_stream (write_bits (u64 (t_as T e - p)) (Z.to_nat (to_u 8 (d_max c + 1)))) ;;s
        on_ctx (set_prev (t_as T e))
    | None => fun s => (s, Panic)     (* nil dereference *)
    end
  else sret tt.

(** ReadDescriptor (ztype/delta_context.go:163-175): both results are stored
    even when the read fails; a failed read returns false (0). *)
Definition ReadDescriptor : prog (dctx * rst) unit := fun cs =>
  let (c, r) := cs in
  match read_bool r with
  | (r1, Ok b) =>
      if b then
        match read_bits (Z.to_nat maxBitNumberBits) r1 with
        | (r2, Ok m) => ((set_max m (set_packed true c), r2), Ok tt)
        | (r2, Err e) => ((set_max 0 (set_packed true c), r2), Err e)
        | (r2, Panic) => ((c, r2), Panic)
        | (r2, NoFuel) => ((c, r2), NoFuel)
        end
      else ((set_packed false c, r1), Ok tt)
  | (r1, Err e) => ((set_packed false c, r1), Err e)
  | (r1, Panic) => ((c, r1), Panic)
  | (r1, NoFuel) => ((c, r1), NoFuel)
  end.

(** readUnpacked (ztype/delta_context.go:178-190). *)
Definition readUnpacked {A} (T : traits A) : prog (dctx * rst) A :=
  e <-s on_stream (t_read T);
  on_ctx (set_prev (t_as T e)) ;;s
  sret e.

(** Read (ztype/delta_context.go:87-105): the error of ReadDescriptor is
    dropped.  On an error the Go function also returns FromUint64(0), which is
    not modelled. *)
Definition d_read {A} (T : traits A) : prog (dctx * rst) A :=
  c <-s get_ctx;
  if negb (d_started c) then
    on_ctx set_started ;;s
    signore ReadDescriptor ;;s
    readUnpacked T
  else if negb (d_packed c) then readUnpacked T
  else if 0 <? d_max c then
    delta <-s on_stream (ReadSignedBits (to_u 8 (d_max c + 1)));
    match d_prev c with
    | None => fun s => (s, Panic)     (* nil dereference *)
    | Some p =>
        let p' := u64 (i64 (i64 p + delta)) in
        on_ctx (set_prev p') ;;s sret (t_from T p')
    end
  else
    match d_prev c with
    | None => fun s => (s, Panic)       (* nil dereference *)
    | Some p => sret (t_from T p)
    end.

(** BitSizeOf and BitSizeOfDescriptor (ztype/delta_context.go:71-84, 154-160).
    The error result is always nil. *)
Definition d_bitsize {A} (T : traits A) (e : A) (c : dctx) : dctx * outcome Z :=
  if negb (d_started c) then
    let c' := finishInit (set_started c) in
    let c'' := finishInit c' in
    let desc := if d_packed c'' then 1 + maxBitNumberBits else 1 in
    (c'', match t_size T e with Ok s => Ok (desc + s) | o => o end)
  else if negb (d_packed c) then (c, t_size T e)
  else if 0 <? d_max c then (c, Ok (d_max c + 1))
  else (c, Ok 0).

(** ** Sequences through one context

    The loops of Array.MarshalZserio and UnmarshalZserio in packed mode
    (ztype/array_encode.go:27-29 and 31-43, ztype/array_decode.go:33-53), except
    that writing here stops at the first error; the array model in [Array.v]
    ignores errors, as the code does. *)
Fixpoint d_init_all {A} (T : traits A) (es : list A) (c : dctx) : outcome dctx :=
  match es with
  | [] => Ok c
  | e :: es' =>
      match d_init T e c with
      | Ok c' => d_init_all T es' c'
      | o => o
      end
  end.

Fixpoint d_write_all {A} (T : traits A) (es : list A) : prog (dctx * wst) unit :=
  match es with
  | [] => sret tt
  | e :: es' => d_write T e ;;s d_write_all T es'
  end.

Fixpoint d_read_n {A} (T : traits A) (n : nat) : prog (dctx * rst) (list A) :=
  match n with
  | O => sret []
  | S n' => e <-s d_read T; es <-s d_read_n T n'; sret (e :: es)
  end.

Fixpoint d_bitsize_all {A} (T : traits A) (es : list A) (c : dctx) : dctx * outcome Z :=
  match es with
  | [] => (c, Ok 0)
  | e :: es' =>
      match d_bitsize T e c with
      | (c1, Ok s) =>
          match d_bitsize_all T es' c1 with
          | (c2, Ok s') => (c2, Ok (s + s'))
          | (c2, o) => (c2, o)
          end
      | (c1, o) => (c1, o)
      end
  end.

(** Forget the context. *)
Definition with_ctx {C S A} (c : C) (m : prog (C * S) A) : prog S A := fun s =>
  match m (c, s) with ((_, s'), o) => (s', o) end.

(** Initialise a fresh context with the sequence, then write the sequence. *)
Definition delta_marshal {A} (T : traits A) (es : list A) : writer unit :=
  match d_init_all T es d_empty with
  | Ok c => with_ctx c (d_write_all T es)
  | Err e => werr e
  | Panic => wpanic
  | NoFuel => wpanic
  end.

(** Read [n] elements through a fresh context. *)
Definition delta_unmarshal {A} (T : traits A) (n : nat) : reader (list A) :=
  with_ctx d_empty (d_read_n T n).

(** Predicted size of the sequence. *)
Definition delta_bitsize {A} (T : traits A) (es : list A) : outcome Z :=
  match d_init_all T es d_empty with
  | Ok c => snd (d_bitsize_all T es c)
  | Err e => Err e
  | Panic => Panic
  | NoFuel => NoFuel
  end.
