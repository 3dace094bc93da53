(** Specification of the bit stream, independent of any cache: what a sequence of
    calls writes, and what a sequence of reads returns. *)

Require Import ZArith List Bool.
From Verif Require Import Bits Stream Marshal.
Import ListNotations.
Open Scope Z_scope.

(** Bits appended by one call at position [pos].  Align appends the number of
    zero bits that takes [pos] up to a multiple of the boundary. *)
Definition op_bits (o : wop) (pos : Z) : list bool :=
  match o with
  | OWriteBits r n | OWriteBitsUnsafe r n => bits_of (Z.to_nat n) r
  | OWriteBool b => [b]
  | OWriteByte b => bits_of 8 b
  | OWrite p => bytes_bits p
  | OAlign b => repeat false (Z.to_nat ((- pos) mod b))
  end.

(** All the bits a program writes from position [pos], and how it ends. *)
Fixpoint written (p : wprog) (pos : Z) : list bool :=
  match p with
  | WDone | WFail _ => []
  | WStep o k =>
      let pos' := pos + Z.of_nat (length (op_bits o pos)) in
      op_bits o pos ++ written (k pos') pos'
  end.

Fixpoint ends (p : wprog) (pos : Z) : outcome unit :=
  match p with
  | WDone => Ok tt
  | WFail e => Err e
  | WStep o k => let pos' := pos + Z.of_nat (length (op_bits o pos)) in ends (k pos') pos'
  end.

(** [bytes] are [bits], filled up with fewer than eight zero bits. *)
Definition zero_padded (bytes : list Z) (bits : list bool) : Prop :=
  Forall is_byte bytes /\ exists k, (k < 8)%nat /\ bytes_bits bytes = bits ++ repeat false k.

(** The program that reads fields of the given widths one after the other and
    returns their values, stopping at the first error. *)
Fixpoint read_fields (ns : list nat) (acc : list Z) : rprog :=
  match ns with
  | [] => RDone acc
  | n :: ns' => RStep (IReadBits (Z.of_nat n)) (fun v _ =>
      match v with
      | Ok l => read_fields ns' (acc ++ l)
      | Err e => RFail e
      | _ => RFail ErrIO
      end)
  end.

(** The values of successive slices of a bit string. *)
Fixpoint slices (ns : list nat) (l : list bool) : list Z :=
  match ns with
  | [] => []
  | n :: ns' => val_of (firstn n l) :: slices ns' (skipn n l)
  end.

Definition total (ns : list nat) : nat := fold_right Nat.add 0%nat ns.

(** [d] is the least number of bits that takes [pos] to a multiple of [b]. *)
Definition least_padding (pos b d : Z) : Prop :=
  0 <= d /\ (pos + d) mod b = 0 /\ forall d', 0 <= d' -> (pos + d') mod b = 0 -> d <= d'.
