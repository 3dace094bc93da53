(** The byte-cached bit writer and reader behind zstream.BitWriter/BitReader.

    zstream/writer.go and zstream/reader.go delegate to CountWriter and
    CountReader of github.com/icza/bitio v1.1.0 (go.mod:8).  That dependency is
    not in the sandbox; the definitions below follow its published source
    (writer.go, reader.go, countwriter.go, countreader.go).  The underlying
    io.Writer is the bytes.Buffer of marshal.go:14, which never fails; the
    underlying reader is the bytes.Reader of marshal.go:32. *)

Require Import ZArith List Bool.
From Verif Require Import Bits Stream.
Import ListNotations.
Open Scope Z_scope.

(** ** Writer *)

(** [bout]: bytes handed to the underlying writer; [bcache]: pending bits in the
    upper part of a byte; [bcnt]: their number; [bcount]: CountWriter.BitsCount. *)
Record bw := mkBW { bout : list Z; bcache : Z; bcnt : Z; bcount : Z }.

(** NewWriter (zstream/writer.go:29-38). *)
Definition bw_new : bw := mkBW [] 0 0 0.

(** The loop over whole bytes of bitio Writer.WriteBitsUnsafe, then the
    remainder: [n] bits of [r] are left, [n < 8 * S fuel]. *)
Fixpoint bw_whole (fuel : nat) (r n : Z) (out : list Z) : list Z * Z * Z :=
  if 8 <=? n then
    match fuel with
    | O => (out, 0, 0)
    | S f => bw_whole f r (n - 8) (out ++ [to_u 8 (Z.shiftr r (n - 8))])
    end
  else if 0 <? n then
    (out, to_u 8 (Z.shiftl (Z.land (to_u 8 r) (Z.shiftl 1 n - 1)) (8 - n)), n)
  else (out, 0, 0).

(** bitio Writer.WriteBitsUnsafe; [w.bits + n] is uint8 arithmetic.  The loop
    runs at most 31 times since n is a uint8. *)
Definition bw_write_unsafe (r n : Z) (w : bw) : bw :=
  let newbits := to_u 8 (bcnt w + n) in
  if newbits <? 8 then
    mkBW (bout w) (Z.lor (bcache w) (to_u 8 (Z.shiftl (to_u 8 r) (8 - newbits)))) newbits (bcount w)
  else if 8 <? newbits then
    let free := 8 - bcnt w in
    let first := Z.lor (bcache w) (to_u 8 (Z.shiftr r (n - free))) in
    match bw_whole 32 r (n - free) (bout w ++ [first]) with
    | (out, cache, cnt) => mkBW out cache cnt (bcount w)
    end
  else
    mkBW (bout w ++ [Z.lor (bcache w) (to_u 8 r)]) 0 0 (bcount w).

(** bitio CountWriter.WriteBits: Writer.WriteBits masks with [1<<n - 1], and the
    counter is increased.  BitWriter.WriteBits (zstream/writer.go:46-48). *)
Definition bw_write_bits (r n : Z) (w : bw) : bw :=
  let w' := bw_write_unsafe (Z.land r (to_u 64 (to_u 64 (Z.shiftl 1 n) - 1))) n w in
  mkBW (bout w') (bcache w') (bcnt w') (bcount w + n).

(** bitio CountWriter.WriteBitsUnsafe; BitWriter.WriteBitsUnsafe
    (zstream/writer.go:55-57). *)
Definition bw_write_bits_unsafe (r n : Z) (w : bw) : bw :=
  let w' := bw_write_unsafe r n w in
  mkBW (bout w') (bcache w') (bcnt w') (bcount w + n).

(** bitio Writer.WriteBool; BitWriter.WriteBool (zstream/writer.go:60-62). *)
Definition bw_write_bool (b : bool) (w : bw) : bw :=
  if bcnt w =? 7 then
    mkBW (bout w ++ [if b then Z.lor (bcache w) 1 else bcache w]) 0 0 (bcount w + 1)
  else
    let bits := bcnt w + 1 in
    mkBW (bout w) (if b then Z.lor (bcache w) (Z.shiftl 1 (8 - bits)) else bcache w) bits (bcount w + 1).

(** bitio Writer.writeUnalignedByte. *)
Definition bw_unaligned (b : Z) (w : bw) : bw :=
  mkBW (bout w ++ [Z.lor (bcache w) (Z.shiftr b (bcnt w))])
       (to_u 8 (Z.shiftl (Z.land b (Z.shiftl 1 (bcnt w) - 1)) (8 - bcnt w)))
       (bcnt w) (bcount w).

(** bitio CountWriter.WriteByte; BitWriter.WriteByte (zstream/writer.go:65-67). *)
Definition bw_write_byte (b : Z) (w : bw) : bw :=
  let w' := if bcnt w =? 0 then mkBW (bout w ++ [b]) (bcache w) (bcnt w) (bcount w)
            else bw_unaligned b w in
  mkBW (bout w') (bcache w') (bcnt w') (bcount w + 8).

(** bitio CountWriter.Write; BitWriter.Write (zstream/writer.go:41-43). *)
Definition bw_write (p : list Z) (w : bw) : bw :=
  let w' := if bcnt w =? 0 then mkBW (bout w ++ p) (bcache w) (bcnt w) (bcount w)
            else fold_left (fun w b => bw_unaligned b w) p w in
  mkBW (bout w') (bcache w') (bcnt w') (bcount w + 8 * Z.of_nat (length p)).

(** zstream's own discard (zstream/reader.go:65-71) on the int64 counter. *)
Definition discard_z (count boundary : Z) : Z :=
  let misaligned := to_u 8 (count mod boundary) in
  if misaligned =? 0 then 0 else to_u 8 (boundary - misaligned).

(** BitWriter.Align (zstream/writer.go:70-82); [None] is the division by zero. *)
Definition bw_align (boundary : Z) (w : bw) : option (bw * Z) :=
  if boundary =? 0 then None
  else
    let d := discard_z (bcount w) boundary in
    if d =? 0 then Some (w, bcount w)
    else let w' := bw_write_bits 0 d w in Some (w', bcount w').

(** bitio Writer.Close: flush the partly filled byte; BitWriter.Close
    (zstream/writer.go:85-87). *)
Definition bw_close (w : bw) : list Z :=
  if 0 <? bcnt w then bout w ++ [bcache w] else bout w.

(** ** Reader *)

(** [bin]: bytes not yet fetched; [rcache], [rcnt]: unread low bits of the last
    fetched byte; [rcount]: CountReader.BitsCount. *)
Record br := mkBR { bin : list Z; rcache : Z; rcnt : Z; rcount : Z }.

(** NewReader (zstream/reader.go:23-27). *)
Definition br_new (b : list Z) : br := mkBR b 0 0 0.

(** The loop over whole bytes of bitio Reader.ReadBits: [n] bits are still
    wanted.  Returns the remaining input, the accumulator and the bits still
    wanted, or the error and the input left. *)
Fixpoint br_whole (fuel : nat) (u n : Z) (inp : list Z) : option (list Z * Z * Z) :=
  if 8 <=? n then
    match fuel, inp with
    | S f, b :: inp' => br_whole f (u64 (u64 (Z.shiftl u 8) + b)) (n - 8) inp'
    | _, _ => None
    end
  else Some (inp, u, n).

(** bitio CountReader.ReadBits; BitReader.ReadBits (zstream/reader.go:41-43). *)
Definition br_read_bits (n : Z) (r : br) : br * outcome Z :=
  if n <? rcnt r then
    let shift := rcnt r - n in
    (mkBR (bin r) (Z.land (rcache r) (Z.shiftl 1 shift - 1)) shift (rcount r + n),
     Ok (Z.shiftr (rcache r) shift))
  else if rcnt r <? n then
    let u := if 0 <? rcnt r then rcache r else 0 in
    let n' := if 0 <? rcnt r then n - rcnt r else n in
    match br_whole 32 u n' (bin r) with
    | None => (mkBR [] (rcache r) (rcnt r) (rcount r), Err EOF)
    | Some (inp, u', n'') =>
        if 0 <? n'' then
          match inp with
          | [] => (mkBR [] 0 (rcnt r) (rcount r), Err EOF)
          | b :: inp' =>
              let shift := 8 - n'' in
              (mkBR inp' (Z.land b (Z.shiftl 1 shift - 1)) shift (rcount r + n),
               Ok (u64 (u64 (Z.shiftl u' n'') + Z.shiftr b shift)))
          end
        else (mkBR inp (rcache r) 0 (rcount r + n), Ok u')
    end
  else (mkBR (bin r) (rcache r) 0 (rcount r + n), Ok (rcache r)).

(** bitio Reader.ReadBool; BitReader.ReadBool (zstream/reader.go:46-48). *)
Definition br_read_bool (r : br) : br * outcome bool :=
  if rcnt r =? 0 then
    match bin r with
    | [] => (mkBR [] 0 (rcnt r) (rcount r), Err EOF)
    | b :: inp => (mkBR inp (Z.land b 127) 7 (rcount r + 1), Ok (negb (Z.land b 128 =? 0)))
    end
  else
    let bits := rcnt r - 1 in
    (mkBR (bin r) (Z.land (rcache r) (Z.shiftl 1 bits - 1)) bits (rcount r + 1),
     Ok (negb (Z.land (rcache r) (Z.shiftl 1 bits) =? 0))).

(** bitio Reader.readUnalignedByte. *)
Definition br_unaligned (r : br) : br * outcome Z :=
  match bin r with
  | [] => (mkBR [] 0 (rcnt r) (rcount r), Err EOF)
  | c :: inp =>
      (mkBR inp (Z.land c (Z.shiftl 1 (rcnt r) - 1)) (rcnt r) (rcount r),
       Ok (Z.lor (to_u 8 (Z.shiftl (rcache r) (8 - rcnt r))) (Z.shiftr c (rcnt r))))
  end.

(** bitio CountReader.ReadByte; BitReader.ReadByte (zstream/reader.go:36-38). *)
Definition br_read_byte (r : br) : br * outcome Z :=
  if rcnt r =? 0 then
    match bin r with
    | [] => (r, Err EOF)
    | b :: inp => (mkBR inp (rcache r) (rcnt r) (rcount r + 8), Ok b)
    end
  else
    match br_unaligned r with
    | (r', Ok b) => (mkBR (bin r') (rcache r') (rcnt r') (rcount r + 8), Ok b)
    | x => x
    end.

(** The unaligned branch of bitio Reader.Read: the bytes read before the first
    failure, and whether all of them were. *)
Fixpoint br_read_loop (k : nat) (r : br) : br * list Z * bool :=
  match k with
  | O => (r, [], true)
  | S k' =>
      match br_unaligned r with
      | (r', Ok b) =>
          match br_read_loop k' r' with
          | (r'', l, ok) => (r'', b :: l, ok)
          end
      | (r', _) => (r', [], false)
      end
  end.

(** io.ReadFull(r, make([]byte, k)) over CountReader.Read (zstream/reader.go:31-33),
    which adds 8 per byte read also when it fails part way.  On a byte boundary
    bytes.Reader.Read delivers all that is there at once. *)
Definition br_read_full (k : Z) (r : br) : br * outcome (list Z) :=
  let kn := Z.to_nat k in
  if rcnt r =? 0 then
    if (kn <=? length (bin r))%nat
    then (mkBR (skipn kn (bin r)) (rcache r) 0 (rcount r + 8 * k), Ok (firstn kn (bin r)))
    else (mkBR [] (rcache r) 0 (rcount r + 8 * Z.of_nat (length (bin r))),
          Err (match bin r with [] => EOF | _ => ErrUnexpectedEOF end))
  else
    match br_read_loop kn r with
    | (r', l, ok) =>
        let r'' := mkBR (bin r') (rcache r') (rcnt r') (rcount r + 8 * Z.of_nat (length l)) in
        (r'', if ok then Ok l else Err (match l with [] => EOF | _ => ErrUnexpectedEOF end))
    end.

(** BitReader.Align (zstream/reader.go:51-63). *)
Definition br_align (boundary : Z) (r : br) : br * outcome Z :=
  if boundary =? 0 then (r, Panic)
  else
    let d := discard_z (rcount r) boundary in
    if d =? 0 then (r, Ok (rcount r))
    else match br_read_bits d r with
         | (r', Ok _) => (r', Ok (rcount r'))
         | (r', Err e) => (r', Err e)
         | (r', Panic) => (r', Panic)
         | (r', NoFuel) => (r', NoFuel)
         end.
