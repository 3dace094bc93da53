(** Marshal and Unmarshal, and programs over the stream interfaces. *)

Require Import ZArith List Bool.
From Verif Require Import Bits Stream BitIO.
Import ListNotations.
Open Scope Z_scope.

(** CountAlignBits (ztype/bit_alignment.go:5-11), for non-negative positions;
    [None] is the division by zero. *)
Definition CountAlignBits (bitPosition : Z) (boundary : Z) : option Z :=
  if boundary =? 0 then None
  else
    let misaligned := Z.rem bitPosition boundary in
    if misaligned =? 0 then Some 0 else Some (boundary - misaligned).

(** The bytes of a closed stream: bits grouped by eight, the last byte filled
    with zero bits (bitio Writer.Close; [BitIO.bw_close] is the implementation). *)
Definition pack (bits : list bool) : list Z :=
  take_bytes ((length bits + 7) / 8) (bits ++ repeat false 7).

(** Marshal (marshal.go:13-26); [m] is the value's MarshalZserio.  The buffer
    does not fail, so neither do the stream and Close. *)
Definition Marshal (m : writer unit) : outcome (list Z) :=
  match m (mkW [] []) with
  | (w, Ok _) => Ok (pack (wbits w))
  | (_, Err e) => Err e
  | (_, Panic) => Panic
  | (_, NoFuel) => NoFuel
  end.

(** Unmarshal (marshal.go:31-38); [m] is the type's UnmarshalZserio, its result
    the value left in the target. *)
Definition Unmarshal {A} (m : reader A) (b : list Z) : outcome A :=
  snd (m (mkR 0 (bytes_bits b))).

(** ** Programs over the stream interfaces

    A client of zserio.Writer (iface.go:24-32) calls its methods one after the
    other; what it does next may depend on BitPosition.  A client of
    zserio.Reader (iface.go:13-20) also sees every value and every error. *)

Inductive wop :=
| OWriteBits (r n : Z)
| OWriteBitsUnsafe (r n : Z)
| OWriteBool (b : bool)
| OWriteByte (b : Z)
| OWrite (p : list Z)
| OAlign (boundary : Z).

Inductive wprog :=
| WDone
| WFail (e : error)
| WStep (o : wop) (k : Z -> wprog).

(** Arguments in the range of the Go parameter types; field widths up to 64;
    WriteBitsUnsafe has the documented precondition; boundaries up to 249. *)
Definition wop_ok (o : wop) : Prop :=
  match o with
  | OWriteBits r n => in_u 64 r /\ 0 <= n <= 64
  | OWriteBitsUnsafe r n => 0 <= r < 2 ^ n /\ 0 <= n <= 64
  | OWriteBool _ => True
  | OWriteByte b => is_byte b
  | OWrite p => Forall is_byte p
  | OAlign b => 1 <= b <= 249
  end.

Fixpoint wprog_ok (p : wprog) : Prop :=
  match p with
  | WDone | WFail _ => True
  | WStep o k => wop_ok o /\ forall pos, wprog_ok (k pos)
  end.

(** One call on the byte-cached writer; [None]: it panicked. *)
Definition bw_op (o : wop) (w : bw) : option bw :=
  match o with
  | OWriteBits r n => Some (bw_write_bits r n w)
  | OWriteBitsUnsafe r n => Some (bw_write_bits_unsafe r n w)
  | OWriteBool b => Some (bw_write_bool b w)
  | OWriteByte b => Some (bw_write_byte b w)
  | OWrite p => Some (bw_write p w)
  | OAlign b => option_map fst (bw_align b w)
  end.

(** Marshal on the byte-cached writer (marshal.go:13-26). *)
Fixpoint bw_run (p : wprog) (w : bw) : bw * outcome unit :=
  match p with
  | WDone => (w, Ok tt)
  | WFail e => (w, Err e)
  | WStep o k =>
      match bw_op o w with
      | None => (w, Panic)
      | Some w' => bw_run (k (bcount w')) w'
      end
  end.

Definition Marshal_bytes (p : wprog) : outcome (list Z) :=
  match bw_run p bw_new with
  | (w, Ok _) => Ok (bw_close w)
  | (_, Err e) => Err e
  | (_, Panic) => Panic
  | (_, NoFuel) => NoFuel
  end.

(** The same program on the ideal stream. *)
Definition st_op (o : wop) : writer unit :=
  match o with
  | OWriteBits r n | OWriteBitsUnsafe r n => write_bits r (Z.to_nat n)
  | OWriteBool b => write_bool b
  | OWriteByte b => write_byte b
  | OWrite p => write_bytes p
  | OAlign b => wbind (walign (Z.to_nat b)) (fun _ => wret tt)
  end.

Fixpoint st_run (p : wprog) : writer unit :=
  match p with
  | WDone => wret tt
  | WFail e => werr e
  | WStep o k => wbind (st_op o) (fun _ w => st_run (k (Z.of_nat (length (wbits w)))) w)
  end.

Inductive rop :=
| IReadBits (n : Z)
| IReadBool
| IReadByte
| IReadFull (k : Z)
| IAlign (boundary : Z).

(** Results are lists of numbers; a bool is 0 or 1. *)
Inductive rprog :=
| RDone (v : list Z)
| RFail (e : error)
| RStep (o : rop) (k : outcome (list Z) -> Z -> rprog).

Definition rop_ok (o : rop) : Prop :=
  match o with
  | IReadBits n => 1 <= n <= 255
  | IReadFull k => 0 <= k
  | IAlign b => 1 <= b <= 255
  | _ => True
  end.

Fixpoint rprog_ok (p : rprog) : Prop :=
  match p with
  | RDone _ | RFail _ => True
  | RStep o k => rop_ok o /\ forall v pos, rprog_ok (k v pos)
  end.

Definition omap {A B} (f : A -> B) (o : outcome A) : outcome B :=
  match o with Ok a => Ok (f a) | Err e => Err e | Panic => Panic | NoFuel => NoFuel end.

Definition br_op (o : rop) (r : br) : br * outcome (list Z) :=
  match o with
  | IReadBits n => let '(r', v) := br_read_bits n r in (r', omap (fun v => [v]) v)
  | IReadBool => let '(r', v) := br_read_bool r in (r', omap (fun b => [b2z b]) v)
  | IReadByte => let '(r', v) := br_read_byte r in (r', omap (fun v => [v]) v)
  | IReadFull k => br_read_full k r
  | IAlign b => let '(r', v) := br_align b r in (r', omap (fun v => [v]) v)
  end.

Fixpoint br_run (p : rprog) (r : br) : outcome (list Z) :=
  match p with
  | RDone v => Ok v
  | RFail e => Err e
  | RStep o k => let '(r', v) := br_op o r in br_run (k v (rcount r')) r'
  end.

Definition sr_op (o : rop) (r : rst) : rst * outcome (list Z) :=
  match o with
  | IReadBits n => let '(r', v) := read_bits (Z.to_nat n) r in (r', omap (fun v => [v]) v)
  | IReadBool => let '(r', v) := read_bool r in (r', omap (fun b => [b2z b]) v)
  | IReadByte => let '(r', v) := read_byte r in (r', omap (fun v => [v]) v)
  | IReadFull k => read_full k r
  | IAlign b => let '(r', v) := ralign (Z.to_nat b) r in (r', omap (fun v => [Z.of_nat v]) v)
  end.

Fixpoint sr_run (p : rprog) (r : rst) : outcome (list Z) :=
  match p with
  | RDone v => Ok v
  | RFail e => Err e
  | RStep o k => let '(r', v) := sr_op o r in sr_run (k v (Z.of_nat (rpos r'))) r'
  end.
