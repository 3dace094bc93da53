(** Model of ZserioBitSizePacked of the generated types
    (internal/generator/templates/packing_context_bitsize.go.tmpl and the method in
    struct.go.tmpl, choice.go.tmpl, union.go.tmpl, enum.go.tmpl and
    bitmask.go.tmpl). *)

Require Import ZArith List Bool.
From Verif Require Import Bits Stream Scalars Traits Delta Array Schema.
Import ListNotations.
Open Scope Z_scope.
Open Scope prog_scope.

(** ZserioBitSizePacked of a type, given the parameters, the object and the bit
    position.  The state is the argument contextNode, which may be nil. *)
Definition sizer := nat -> list value -> value -> Z -> prog (option node) Z.

(** Use contextNode; nil is dereferenced (packing_context_node.go:24-26). *)
Definition with_node {A} (m : prog node A) : prog (option node) A := fun n =>
  match n with
  | None => (None, Panic)
  | Some n => let (n', o) := m n in (Some n', o)
  end.
(** Pass a node, which is not nil. *)
Definition pass_node {A} (m : prog (option node) A) : prog node A := fun n =>
  match m (Some n) with
  | (Some n', o) => (n', o)
  | (None, o) => (n, o)
  end.

(** BitSizeOf of the delta context of the node (packing_context_bitsize.go.tmpl:61-70,
    enum.go.tmpl:209-217, bitmask.go.tmpl:119-127). *)
Definition delta_size (T : traits value) (v : value) : prog node Z := fun n =>
  match n with
  | Node None _ => (n, Err ErrContextType)
  | Node (Some c) ch => let (c', o) := d_bitsize T v c in (Node (Some c') ch, o)
  end.

(** ObjectArray.ZserioBitSizePacked (ztype/object_array.go:63-89) of an array
    object that was made a moment ago, so that its PackedContext is nil. *)
Fixpoint fresh_sizes (size : nat -> value -> Z -> prog (option node) Z) (i : nat) (es : list value) (pos : Z)
  : outcome Z :=
  match es with
  | [] => Ok pos
  | e :: es' =>
      match size i e pos None with
      | (_, Ok s) => fresh_sizes size (S i) es' (pos + s)
      | (_, o) => o
      end
  end.
Definition object_array_bitsize_packed (size : nat -> value -> Z -> prog (option node) Z) (cfg : acfg)
    (es : list value) (pos : Z) : outcome Z :=
  obind (length_size cfg (length es)) (fun d =>
  obind (fresh_sizes size 0 es (pos + d)) (fun e => Ok (e - pos))).

(** packing_context_bitsize.go.tmpl:29-54: RawArray is only filled when the
    elements need a conversion (40-44). *)
Definition psize_array (P : sizer) (E : env) (f : field) (len : option expr) (packed : bool)
    (es : list value) (pos : Z) : outcome Z :=
  match array_config E len packed with
  | None => Panic
  | Some cfg =>
      match f_type f with
      | TBasic t =>
          obind (codec_of E t) (fun T => snd (array_bitsize_packed T cfg (if f_cast f then es else []) None pos))
      | TRef id args =>
          if arguments_ok E args (length es)
          then object_array_bitsize_packed
                 (fun i v p => match args E i with Some ps => P id ps v p | None => lift Panic end) cfg es pos
          else Panic
      end
  end.

(** packing_context_bitsize.go.tmpl:28-76, on the node of the field. *)
Definition psize_content (P : sizer) (E : env) (f : field) (v : value) (pos : Z) : prog node Z :=
  match f_array f with
  | Some (len, packed) =>
      match v with VArr es => lift (psize_array P E f len packed es pos) | _ => lift Panic end
  | None =>
      match f_type f with
      | TRef id args =>
          match args E 0%nat with Some ps => pass_node (P id ps v pos) | None => lift Panic end
      | TBasic t =>
          if packable t
          then match codec_of E t with Ok T => delta_size T v | _ => lift Panic end
          else lift (size_basic E t v)
      end
  end.

(** packing_context_bitsize.go.tmpl: the new endBitPosition.  The condition of the
    field is not looked at, and the padding is counted before the marker of an
    optional field.  Simplification: a field that is not stored and was read has
    no value here, and its size panics; in Go it has the zero value, whose size is
    counted. *)
Definition psize_field (P : sizer) (E : env) (f : field) (slot : option value) (pos : Z) : prog node Z :=
  pos <-s lift (align_size pos (f_align f));
  if f_optional f then
    match slot with
    | Some v => d <-s psize_content P E f v (pos + 1); sret (pos + 1 + d)
    | None => sret (pos + 1)
    end
  else
    match slot with
    | Some v => d <-s psize_content P E f v pos; sret (pos + d)
    | None => lift Panic
    end.

Fixpoint psize_fields (P : sizer) (E : env) (i : nat) (fs : list field) (pos : Z) : prog node Z :=
  match fs with
  | [] => sret pos
  | f :: fs' => pos' <-s child i (psize_field P E f (nth_slot i (e_slots E)) pos); psize_fields P E (S i) fs' pos'
  end.

(** struct.go.tmpl:105-115, choice.go.tmpl:182-203, union.go.tmpl:112-114,
    enum.go.tmpl:208-218, bitmask.go.tmpl:118-128. *)
Definition psize_def (P : sizer) (d : def) (ps : list value) (v : value) (pos : Z) : prog (option node) Z :=
  match d, v with
  | DScalar t, _ =>
      match codec_of (mkE [] []) t with Ok T => with_node (delta_size T v) | _ => lift Panic end
  | DStruct [], VRec _ _ => sret 0
  | DStruct fs, VRec _ slots => with_node (e <-s psize_fields P (mkE ps slots) 0 fs pos; sret (e - pos))
  | DChoice selector cases default, VRec _ slots =>
      if has_cases cases then
        match selector ps with
        | None => lift Panic
        | Some sel =>
            with_node
              match select sel 0 cases default with
              | Some (i, f) => e <-s child i (psize_field P (mkE ps slots) f (nth_slot i slots) pos); sret (e - pos)
              | None => sret 0
              end
        end
      else sret 0
  | DUnion _, VRec _ _ => sret 0
  | _, _ => lift Panic
  end.

(** The method of every type of a schema, to a given depth. *)
Fixpoint ZserioBitSizePacked (S : schema) (fuel : nat) : sizer :=
  match fuel with
  | O => fun _ _ _ _ n => (n, NoFuel)
  | Datatypes.S fuel' => fun id ps v pos =>
      of_def S id (fun d => psize_def (ZserioBitSizePacked S fuel') d ps v pos) (lift Panic)
  end.
