(** The memory that decoding asks for: the sizes, in elements, of the slices that the
    decoders of Schema.v make, in the order in which they make them.

    Of the packed arrays only the slice of the array itself is listed.  Not listed: the
    Go structs that are read into, and single variables. *)

Require Import ZArith List Bool.
From Verif Require Import Bits Stream Scalars Traits Delta Array Schema.
Import ListNotations.
Open Scope Z_scope.
Open Scope io_scope.

(** A decoder's requests, by the state of the reader it starts in (no code of its own). *)
Definition requests := rst -> list Z.
Definition none : requests := fun _ => [].
(** Statements one after the other, "if err != nil { return err }" between them
    (decode.go.tmpl and elsewhere): what [m] asks for, [q], and then, if it succeeds, what [k] asks for. *)
Definition after {A} (q : requests) (m : reader A) (k : A -> requests) : requests := fun r =>
  q r ++ match m r with (r', Ok a) => k a r' | _ => [] end.

(** The buffers of string, bytes and extern: string_decode.go:15, bytes_decode.go:19,
    extern_decode.go:21 (its capacity). *)
Definition buffer (f : Z -> Z) : requests := after none ReadVarsize (fun n _ => [f n]).
Definition builtin_requests (b : builtin) : requests :=
  match b with
  | BString | BBytes => buffer (fun n => n)
  | BExtern => buffer (fun n => n / 8 + 1)
  | _ => none
  end.
(** decode.go.tmpl:49-58: bit fields need no memory *)
Definition basic_requests (t : basic) : requests :=
  match t with Std b => builtin_requests b | Bits _ _ _ => none end.

(** Array.UnmarshalZserio, array_decode.go:8-56, and ObjectArray.UnmarshalZserio,
    object_array_decode.go:6-59: make comes before the loop over the elements. *)
Fixpoint elements {A} (q : nat -> requests) (m : nat -> reader A) (i n : nat) : requests :=
  match n with
  | O => none
  | Datatypes.S n' => after (q i) (m i) (fun _ => elements q m (Datatypes.S i) n')
  end.
Definition array_size (cfg : acfg) : reader Z := if a_auto cfg then v <-r ReadVarsize; rret (i64 v) else rret (a_fixed cfg).
Definition array_requests {A N} (K : elemops A N) (q : nat -> requests) (cfg : acfg) : requests :=
  after none (array_size cfg) (fun size r => size :: (if a_packed cfg then [] else elements q (k_read K) 0 (Z.to_nat size) r)).

(** decode.go.tmpl:60-87: a slice of the field's type is made after the array was read
    if its elements are converted. *)
Definition field_array_requests (M : methods) (Q : nat -> list value -> requests) (E : env) (f : field) (len : option expr) (packed : bool) : requests :=
  match f_type f, array_config E len packed with
  | TBasic t, Some cfg =>
      match codec_of E t with
      | Ok T =>
          after (array_requests (trait_ops T) (fun _ => basic_requests t) cfg) (read_array (trait_ops T) cfg)
            (fun es _ => if f_cast f then [Z.of_nat (length es)] else [])
      | _ => none
      end
  | TRef id args, Some cfg =>
      array_requests (object_ops M E id args) (fun i => match args E i with Some ps => Q id ps | None => none end) cfg
  | _, None => none
  end.
(** decode.go.tmpl:49-93 *)
Definition content_requests (M : methods) (Q : nat -> list value -> requests) (E : env) (f : field) : requests :=
  match f_array f with
  | Some (len, packed) => field_array_requests M Q E f len packed
  | None =>
      match f_type f with
      | TBasic t => basic_requests t
      | TRef id args => match args E 0%nat with Some ps => Q id ps | None => none end
      end
  end.
(** decode.go.tmpl:1-48 and 94-104: condition, alignment, optional marker *)
Definition field_requests (M : methods) (Q : nat -> list value -> requests) (E : env) (f : field) : requests :=
  match included E f with
  | Some true =>
      after none (ralign_opt (f_align f)) (fun _ =>
        if f_optional f then after none ReadBool (fun present => if (present : bool) then content_requests M Q E f else none)
        else content_requests M Q E f)
  | _ => none
  end.
(** struct.go.tmpl:34-43 *)
Fixpoint fields_requests (M : methods) (Q : nat -> list value -> requests) (ps : list value) (done : list (option value)) (fs : list field) : requests :=
  match fs with
  | [] => none
  | f :: fs' =>
      let E := mkE ps (done ++ repeat None (length fs)) in
      after (field_requests M Q E f) (read_field M E f) (fun s => fields_requests M Q ps (done ++ [s]) fs')
  end.
(** choice.go.tmpl:58-76, union.go.tmpl:49-62 *)
Definition def_requests (M : methods) (Q : nat -> list value -> requests) (d : def) (ps : list value) : requests :=
  match d with
  | DScalar t => basic_requests t
  | DStruct fs => fields_requests M Q ps [] fs
  | DChoice selector cases default =>
      match selector ps with
      | Some sel =>
          match select sel 0 cases default with
          | Some (_, f) => field_requests M Q (mkE ps (repeat None (length (choice_fields cases default)))) f
          | None => none
          end
      | None => none
      end
  | DUnion fs =>
      after none ReadVarsize (fun tag =>
        match (if tag <? 1 then None else nth_error fs (Z.to_nat (tag - 1))) with
        | Some f => field_requests M Q (mkE ps (repeat None (length fs))) f
        | None => none
        end)
  end.
(** UnmarshalZserio of the definition [id] of the schema; [fuel] as in Schema.v *)
Fixpoint object_requests (S : schema) (fuel : nat) (id : nat) (ps : list value) : requests :=
  match fuel with
  | O => none
  | Datatypes.S fuel' => of_def S id (fun d => def_requests (run S fuel') (object_requests S fuel') d ps) none
  end.
