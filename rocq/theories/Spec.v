(** Specification vocabulary: what it means for a writer to encode, for a reader
    to decode, and for input to be truncated.  Nothing here refers to the codecs
    under test. *)

Require Import ZArith List Bool.
From Verif Require Import Bits Stream.
Import ListNotations.
Open Scope Z_scope.

(** [m] succeeds on every writer that does not fail and appends exactly [bs]. *)
Definition encodes (m : writer unit) (bs : list bool) : Prop :=
  forall w, wfaults w = [] -> m w = (mkW (wbits w ++ bs) [], Ok tt).

(** [m] fails with [e] on every writer and writes nothing. *)
Definition rejects (m : writer unit) (e : error) : Prop :=
  forall w, m w = (w, Err e).

(** At any position, before any further bits, [m] consumes exactly [bs] and
    returns [a]. *)
Definition decodes {A} (m : reader A) (bs : list bool) (a : A) : Prop :=
  forall pos rest, m (mkR pos (bs ++ rest)) = (mkR (pos + length bs) rest, Ok a).

(** [m] panics on every writer state. *)
Definition wpanics (m : writer unit) : Prop := forall w, snd (m w) = Panic.

(** A codec round-trips value [a] with encoding [bs]: the writer appends [bs] and
    the reader, at any position and before any further bits, consumes exactly
    [bs] and returns [a]. *)
Definition roundtrips {A} (write : writer unit) (read : reader A) (bs : list bool) (a : A) : Prop :=
  encodes write bs /\ decodes read bs a.

(** [short] is [full] cut somewhere before its end. *)
Definition cut_of (short full : list bool) : Prop :=
  exists t, t <> [] /\ full = short ++ t.

(** [m] is determined by the bits it consumes: whenever it succeeds, it consumed
    a prefix [c] of the input, it gives the same result whatever follows [c], and
    it returns an error (not a value, not a panic) on every cut of [c]. *)
Definition prefix_determined {A} (m : reader A) : Prop :=
  forall pos rem r' a, m (mkR pos rem) = (r', Ok a) ->
  exists c, rem = c ++ rrem r' /\ rpos r' = (pos + length c)%nat /\
    (forall rest, m (mkR pos (c ++ rest)) = (mkR (pos + length c) rest, Ok a)) /\
    (forall short, cut_of short c -> exists r e, m (mkR pos short) = (r, Err e)).

(** [m] never panics, whatever the input. *)
Definition never_panics {A} (m : reader A) : Prop :=
  forall r, (exists a, snd (m r) = Ok a) \/ (exists e, snd (m r) = Err e).

(** Two encodings such that neither is a prefix of the other. *)
Definition prefix_free (b1 b2 : list bool) : Prop :=
  forall t1 t2, b1 ++ t1 <> b2 ++ t2.

(** Bits a reader consumed. *)
Definition consumed (r r' : rst) : Z := Z.of_nat (rpos r') - Z.of_nat (rpos r).

(** Write a sequence of values one after the other. *)
Fixpoint write_all {A} (w : A -> writer unit) (l : list A) : writer unit :=
  match l with
  | [] => wret tt
  | a :: l' => wbind (w a) (fun _ => write_all w l')
  end.

(** ** Wire format of the variable-length integers

    An encoding has [k] bytes, at most [m] for the type.  Every byte but the last
    has the continuation flag set.  A byte carries 7 value bits, most significant
    group first; if all [m] bytes are used, the last one needs no flag and
    carries 8.  In the signed types the first byte has a sign flag (0x80) before
    the continuation flag (0x40), and the magnitude follows. *)

(** 1 when all [m] bytes are used, so that the last byte carries an extra bit. *)
Definition maxd (k m : Z) : Z := if k =? m then 1 else 0.

(** Number of value bits available in [k] bytes when at most [m] are allowed. *)
Definition ucap (k m : Z) : Z := 7 * k + maxd k m.
Definition scap (k m : Z) : Z := 7 * k - 1 + maxd k m.

(** [vu_tail d v j]: the last [j] bytes of an encoding of [v]: 7 bits per byte
    with a continuation flag, the very last byte holding 7 bits ([d = 0]) or 8
    bits ([d = 1]). *)
Fixpoint vu_tail (d v : Z) (j : nat) : list Z :=
  match j with
  | O => []
  | S O => [v mod 2 ^ (7 + d)]
  | S j' => (128 + (v / 2 ^ (7 * Z.of_nat j' + d)) mod 128) :: vu_tail d v j'
  end.

(** The signed format: the first byte also carries the sign. *)
Definition vs_first (neg : bool) (d v : Z) (j : nat) : Z :=
  (* j bytes follow *)
  (if neg then 128 else 0) +
  (if (j =? 0)%nat then 0 else 64) + (v / 2 ^ (7 * Z.of_nat j + d)) mod 64.

Definition vs_bytes (neg : bool) (d v : Z) (k : nat) : list Z :=
  match k with
  | O => []
  | S j => vs_first neg (if (j =? 0)%nat then 0 else d) v j :: vu_tail d v j
  end.

Definition uwire (v k m : Z) : list bool := bytes_bits (vu_tail (maxd k m) v (Z.to_nat k)).
Definition swire (v k m : Z) : list bool :=
  bytes_bits (vs_bytes (v <? 0) (maxd k m) (Z.abs v) (Z.to_nat k)).

(** [k] is the number of bytes of the shortest encoding of [v]. *)
Definition ushortest (v k m : Z) : Prop :=
  1 <= k <= m /\ v < 2 ^ ucap k m /\ (k = 1 \/ 2 ^ ucap (k - 1) m <= v).
Definition sshortest (v k m : Z) : Prop :=
  1 <= k <= m /\ Z.abs v < 2 ^ scap k m /\ (k = 1 \/ 2 ^ scap (k - 1) m <= Z.abs v).

(** The byte limits used in the library. *)
Definition limit (m : Z) : Prop := m = 2 \/ m = 4 \/ m = 5 \/ m = 8 \/ m = 9.

