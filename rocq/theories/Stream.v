(** Ideal bit streams: the interface zserio code is written against.

    [zserio.Reader] and [zserio.Writer] (iface.go:12-32) are implemented by
    zstream.BitReader and zstream.BitWriter (zstream/reader.go, zstream/writer.go)
    on top of bitio v1.1.0.  Here they are modelled as lists of bits; [BitIO.v]
    models the byte-cached implementation and proves that it refines this one. *)

Require Import ZArith List Bool.
From Verif Require Import Bits.
Import ListNotations.
Open Scope Z_scope.

(** Errors the modelled code returns.  Wrapping with fmt.Errorf("...: %w", err)
    is not modelled: the innermost error is kept. *)
Inductive error :=
| ErrValueOutOfBitRange   (* ztype/bits_encode.go:11 *)
| ErrOutOfBounds          (* ztype/varuint_encode.go:12 *)
| EOF                     (* io.EOF *)
| ErrUnexpectedEOF        (* io.ErrUnexpectedEOF *)
| ErrIO                   (* any error of the underlying io.Writer *)
| ErrArraySize            (* "array must have a size of %d", encode.go.tmpl:42-44 *)
| ErrNoContext            (* "context node has no packing", enum.go.tmpl:166 *)
| ErrContextType.         (* "unknown context type", packing_context_encode.go.tmpl:86 *)

(** Result of a Go call: a value with nil error, an error, a run-time panic.
    [NoFuel] is not a Go result: it marks a model recursion that was given too
    small a depth bound; theorems about recursive types exclude it. *)
Inductive outcome (A : Type) :=
| Ok (a : A)
| Err (e : error)
| Panic
| NoFuel.
Arguments Ok {A} a.
Arguments Err {A} e.
Arguments Panic {A}.
Arguments NoFuel {A}.

(** ** Writers *)

(** State of a writer: the bits written so far, and the faults the underlying
    io.Writer still has in store: the head of [wfaults] tells whether the next
    primitive write fails; the empty list means that no write fails any more.
    [Marshal] (marshal.go:13-26) writes to a bytes.Buffer, which never fails.
    Simplification: a failing primitive write leaves nothing behind. *)
Record wst := mkW { wbits : list bool; wfaults : list bool }.

Definition writer (A : Type) := wst -> wst * outcome A.

Definition wret {A} (a : A) : writer A := fun w => (w, Ok a).
Definition werr {A} (e : error) : writer A := fun w => (w, Err e).
Definition wpanic {A} : writer A := fun w => (w, Panic).

Definition wbind {A B} (m : writer A) (f : A -> writer B) : writer B := fun w =>
  match m w with
  | (w', Ok a) => f a w'
  | (w', Err e) => (w', Err e)
  | (w', Panic) => (w', Panic)
  | (w', NoFuel) => (w', NoFuel)
  end.

(** Go's "call f and drop its error": a panic still propagates. *)
Definition wignore {A} (m : writer A) : writer unit := fun w =>
  match m w with
  | (w', Ok _) => (w', Ok tt)
  | (w', Err _) => (w', Ok tt)
  | (w', Panic) => (w', Panic)
  | (w', NoFuel) => (w', NoFuel)
  end.

(** One primitive write. *)
Definition put (bs : list bool) : writer unit := fun w =>
  match wfaults w with
  | [] => (mkW (wbits w ++ bs) [], Ok tt)
  | false :: fs => (mkW (wbits w ++ bs) fs, Ok tt)
  | true :: fs => (mkW (wbits w) fs, Err ErrIO)
  end.

(** BitWriter.WriteBits and WriteBitsUnsafe (zstream/writer.go:46-57).
    [WriteBits] masks its argument; the only callers of [WriteBitsUnsafe]
    (varint_encode.go:72, varuint_encode.go:75) pass one byte and a width of 8. *)
Definition write_bits (r : Z) (n : nat) : writer unit := put (bits_of n r).

(** BitWriter.WriteBool (zstream/writer.go:60-62). *)
Definition write_bool (b : bool) : writer unit := put [b].

(** BitWriter.WriteByte (zstream/writer.go:65-67). *)
Definition write_byte (b : Z) : writer unit := put (bits_of 8 b).

(** BitWriter.Write (zstream/writer.go:41-43). *)
Definition write_bytes (l : list Z) : writer unit := put (bytes_bits l).

(** [discard] (zstream/reader.go:65-71): bits to the next multiple of the
    boundary.  The boundary is a uint8 and the count is not negative. *)
Definition discard (count boundary : nat) : nat :=
  let misaligned := (count mod boundary)%nat in
  if (misaligned =? 0)%nat then 0%nat else (boundary - misaligned)%nat.

(** BitWriter.Align (zstream/writer.go:70-82).  A boundary of 0 divides by zero. *)
Definition walign (boundary : nat) : writer nat := fun w =>
  if (boundary =? 0)%nat then (w, Panic)
  else
    let d := discard (length (wbits w)) boundary in
    if (d =? 0)%nat then (w, Ok (length (wbits w)))
    else wbind (write_bits 0 d) (fun _ w' => (w', Ok (length (wbits w')))) w.

(** ** Readers *)

(** State of a reader: bits consumed so far ([BitsCount]) and bits left. *)
Record rst := mkR { rpos : nat; rrem : list bool }.

Definition reader (A : Type) := rst -> rst * outcome A.

Definition rret {A} (a : A) : reader A := fun r => (r, Ok a).
Definition rerr {A} (e : error) : reader A := fun r => (r, Err e).
Definition rpanic {A} : reader A := fun r => (r, Panic).

Definition rbind {A B} (m : reader A) (f : A -> reader B) : reader B := fun r =>
  match m r with
  | (r', Ok a) => f a r'
  | (r', Err e) => (r', Err e)
  | (r', Panic) => (r', Panic)
  | (r', NoFuel) => (r', NoFuel)
  end.

(** What a failed ReadBits(n) leaves behind.  bitio caches the bits of a partly
    consumed byte; since a stream has a whole number of bytes, the number of
    cached bits is the number of remaining bits modulo 8.  A failing read has
    already consumed all the whole bytes, does not count them, and keeps the
    number of cached bits; the cached bits themselves are overwritten with zeros
    when the failure happens while fetching the last, partial byte. *)
Definition failed_rest (n : nat) (rem : list bool) : list bool :=
  let c := (length rem mod 8)%nat in
  let bytes := (length rem / 8)%nat in
  if ((n - c) / 8 <=? bytes)%nat then repeat false c else firstn c rem.

(** BitReader.ReadBits (zstream/reader.go:41-43).  More than 64 bits can be
    skipped (Align does); the returned value is then truncated to 64 bits. *)
Definition read_bits (n : nat) : reader Z := fun r =>
  if (n <=? length (rrem r))%nat
  then (mkR (rpos r + n) (skipn n (rrem r)), Ok (u64 (val_of (firstn n (rrem r)))))
  else (mkR (rpos r) (failed_rest n (rrem r)), Err EOF).

(** BitReader.ReadByte (zstream/reader.go:36-38). *)
Definition read_byte : reader Z := read_bits 8.

(** BitReader.ReadBool (zstream/reader.go:46-48). *)
Definition read_bool : reader bool :=
  rbind (read_bits 1) (fun v => rret (negb (v =? 0))).

(** Split a bit list into [k] bytes. *)
Fixpoint take_bytes (k : nat) (l : list bool) : list Z :=
  match k with
  | O => []
  | S k' => val_of (firstn 8 l) :: take_bytes k' (skipn 8 l)
  end.

(** io.ReadFull(r, make([]byte, k)) on a BitReader (zstream/reader.go:31-33,
    io.ReadFull of the standard library): whole bytes are consumed as far as
    they are available; io.EOF if there was none, io.ErrUnexpectedEOF otherwise. *)
Definition read_full (k : Z) : reader (list Z) := fun r =>
  let len := length (rrem r) in
  if 8 * k <=? Z.of_nat len
  then (mkR (rpos r + 8 * Z.to_nat k) (skipn (8 * Z.to_nat k) (rrem r)),
        Ok (take_bytes (Z.to_nat k) (rrem r)))
  else (mkR (rpos r + 8 * (len / 8)) (repeat false (len mod 8)),
        Err (if (len <? 8)%nat then EOF else ErrUnexpectedEOF)).

(** BitReader.Align (zstream/reader.go:51-63). *)
Definition ralign (boundary : nat) : reader nat := fun r =>
  if (boundary =? 0)%nat then (r, Panic)
  else
    let d := discard (rpos r) boundary in
    if (d =? 0)%nat then (r, Ok (rpos r))
    else rbind (read_bits d) (fun _ r' => (r', Ok (rpos r'))) r.

Declare Scope io_scope.
Delimit Scope io_scope with io.
Notation "x <-w m ; k" := (wbind m (fun x => k))
  (at level 61, m at next level, right associativity) : io_scope.
Notation "m ;;w k" := (wbind m (fun _ => k))
  (at level 61, right associativity) : io_scope.
Notation "x <-r m ; k" := (rbind m (fun x => k))
  (at level 61, m at next level, right associativity) : io_scope.
Notation "m ;;r k" := (rbind m (fun _ => k))
  (at level 61, right associativity) : io_scope.
