(** Array objects that are used several times: ztype/array.go, array_encode.go and
    array_decode.go.  The objects, the slices they refer to and their packing
    contexts are cells of a memory, as two objects can share them. *)

Require Import ZArith List Bool.
From Verif Require Import Bits Stream Scalars Traits Delta Array.
Import ListNotations.
Open Scope Z_scope.

(** Array, array.go:11-33: the configuration, RawArray and PackedContext.  A slice is
    the number of its backing array, which it covers. *)
Record object := mkO { o_cfg : acfg; o_raw : nat; o_context : option nat }.
Record memory (A : Type) := mkM { m_slices : list (list A); m_contexts : list dctx; m_objects : list object }.
Arguments mkM {A}. Arguments m_slices {A}. Arguments m_contexts {A}. Arguments m_objects {A}.

(** What a program does: it calls the methods, assigns to an element of RawArray or
    assigns a new slice to RawArray. *)
Inductive call (A : Type) :=
| Marshal (a : nat) (w : wst)
| Unmarshal (a : nat) (r : rst)
| BitSize (a : nat) (pos : Z)
| BitSizePacked (a : nat) (pos : Z)
| Clone (a : nat)
| Set_ (a i : nat) (v : A)
| Assign (a : nat) (es : list A).
Arguments Marshal {A}. Arguments Unmarshal {A}. Arguments BitSize {A}. Arguments BitSizePacked {A}.
Arguments Clone {A}. Arguments Set_ {A}. Arguments Assign {A}.

(** What it sees; [Invalid]: there is no such object. *)
Inductive answer :=
| Wrote (w : wst) (o : outcome unit)
| Has_read (r : rst) (o : outcome unit)
| Size (o : outcome Z)
| Made (a : nat)
| Done
| Panics
| Invalid.

(** l[i] = x, in Go; nothing happens out of range. *)
Fixpoint replace {X} (l : list X) (i : nat) (x : X) : list X :=
  match l, i with
  | [], _ => []
  | _ :: l', O => x :: l'
  | y :: l', S i' => y :: replace l' i' x
  end.

(** array.RawArray and array.PackedContext. *)
Definition elements {A} (m : memory A) (o : object) : list A := nth (o_raw o) (m_slices m) [].
Definition context {A} (m : memory A) (o : object) : option dctx :=
  match o_context o with None => None | Some p => nth_error (m_contexts m) p end.

(** array.PackedContext = a new context, which ends up as [c]. *)
Definition store_new {A} (m : memory A) (a : nat) (o : object) (c : option dctx) : memory A :=
  match c with
  | None => m
  | Some d => mkM (m_slices m) (m_contexts m ++ [d]) (replace (m_objects m) a (mkO (o_cfg o) (o_raw o) (Some (length (m_contexts m)))))
  end.
(** *array.PackedContext = c. *)
Definition store_old {A} (m : memory A) (o : object) (c : option dctx) : memory A :=
  match o_context o, c with
  | Some p, Some d => mkM (m_slices m) (replace (m_contexts m) p d) (m_objects m)
  | _, _ => m
  end.
(** array.RawArray = a new slice. *)
Definition store_raw {A} (m : memory A) (a : nat) (es : list A) : memory A :=
  match nth_error (m_objects m) a with
  | None => m
  | Some o => mkM (m_slices m ++ [es]) (m_contexts m) (replace (m_objects m) a (mkO (o_cfg o) (length (m_slices m)) (o_context o)))
  end.

(** Whether a call of MarshalZserio makes a context (array_encode.go:10-30): the array
    is packed and not empty, and the length was written. *)
Definition makes_context {A} (cfg : acfg) (es : list A) (w : wst) : bool :=
  match es with
  | [] => false
  | _ => a_packed cfg &&
      (if a_auto cfg then match snd (WriteVarsize (u64 (Z.of_nat (length es))) w) with Ok _ => true | _ => false end else true)
  end.

(** The loop of UnmarshalZserio (array_decode.go:35-53), which leaves what was read in
    RawArray when it fails. *)
Fixpoint read_some {A N} (K : elemops A N) (cfg : acfg) (i n : nat) (s : option N * rst) : (option N * rst) * list A * outcome unit :=
  match n with
  | O => (s, [], Ok tt)
  | S n' =>
      match read_elem K cfg i s with
      | (s1, Ok e) => let '(s2, es, o) := read_some K cfg (S i) n' s1 in (s2, e :: es, o)
      | (s1, Err x) => (s1, [], Err x)
      | (s1, Panic) => (s1, [], Panic)
      | (s1, NoFuel) => (s1, [], NoFuel)
      end
  end.

(** The first lines of UnmarshalZserio (array_decode.go:9-19). *)
Definition read_length (cfg : acfg) (r : rst) : rst * outcome Z :=
  if a_auto cfg then rbind ReadVarsize (fun v => rret (i64 v)) r else (r, Ok (a_fixed cfg)).

(** One call: MarshalZserio (array_encode.go:8-47), UnmarshalZserio (array_decode.go:8-56,
    a negative size panics in make), ZserioBitSize and ZserioBitSizePacked (array.go:41-98),
    Clone (array.go:101-113), and the two kinds of assignment to the exported field RawArray
    (array.go:23). *)
Definition run {A} (T : traits A) (m : memory A) (c : call A) : memory A * answer :=
  let with_object a f := match nth_error (m_objects m) a with None => (m, Invalid) | Some o => f o end in
  match c with
  | Marshal a w => with_object a (fun o =>
      match array_marshal (trait_ops T) (o_cfg o) (elements m o) (context m o, w) with
      | ((c', w'), out) => (if makes_context (o_cfg o) (elements m o) w then store_new m a o c' else m, Wrote w' out)
      end)
  | Unmarshal a r => with_object a (fun o =>
      match read_length (o_cfg o) r with
      | (r1, Ok size) =>
          if size <? 0 then (m, Has_read r1 Panic)
          else if size =? 0 then (store_raw m a [], Has_read r1 (Ok tt))
          else
            let m1 := if a_packed (o_cfg o) then store_new m a o (Some d_empty) else m in
            match read_some (trait_ops T) (o_cfg o) 0 (Z.to_nat size) (if a_packed (o_cfg o) then Some d_empty else context m o, r1) with
            | ((c', r2), es, out) =>
                let o1 := match nth_error (m_objects m1) a with Some o1 => o1 | None => o end in
                (store_raw (store_old m1 o1 (if a_packed (o_cfg o) then c' else None)) a es, Has_read r2 out)
            end
      | (r1, Err x) => (m, Has_read r1 (Err x))
      | (r1, Panic) => (m, Has_read r1 Panic)
      | (r1, NoFuel) => (m, Has_read r1 NoFuel)
      end)
  | BitSize a pos => with_object a (fun o => (m, Size (array_bitsize T (o_cfg o) (elements m o) pos)))
  | BitSizePacked a pos => with_object a (fun o =>
      let (c', out) := array_bitsize_packed T (o_cfg o) (elements m o) (context m o) pos in (store_old m o c', Size out))
  | Clone a => with_object a (fun o => (mkM (m_slices m) (m_contexts m) (m_objects m ++ [o]), Made (length (m_objects m))))
  | Set_ a i v => with_object a (fun o =>
      if (i <? length (elements m o))%nat
      then (mkM (replace (m_slices m) (o_raw o) (replace (elements m o) i v)) (m_contexts m) (m_objects m), Done)
      else (m, Panics))
  | Assign a es => with_object a (fun o => (store_raw m a es, Done))
  end.

(** A history of calls; their results do not matter. *)
Fixpoint run_all {A} (T : traits A) (m : memory A) (l : list (call A)) : memory A :=
  match l with [] => m | c :: l' => run_all T (fst (run T m c)) l' end.

(** Objects that have just been made, with their own slices and nil contexts (as in
    array_decode.go:60-66 and templates/array_init.go.tmpl). *)
Definition new_objects {A} (l : list (acfg * list A)) : memory A :=
  mkM (map snd l) [] (map (fun '(i, (cfg, _)) => mkO cfg i None) (combine (seq 0 (length l)) l)).
