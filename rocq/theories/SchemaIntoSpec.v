(** What decoding into a used object is compared with. *)

Require Import ZArith List Bool.
From Verif Require Import Bits Stream Scalars Traits Schema SchemaSpec SchemaInto.
Import ListNotations.
Open Scope Z_scope.

(** An object of the type [id], with whatever in its fields; [None] is a new object.
    Only the compound fields that are decoded in place matter, to the depth [n]. *)
Fixpoint shaped (S : schema) (n : nat) (id : nat) (s : option value) : Prop :=
  match n, s with
  | Datatypes.S n', Some v =>
      forall d, nth_error S id = Some d ->
      match d with
      | DScalar _ => True
      | _ => exists tag slots, v = VRec tag slots /\ length slots = length (fields_of d) /\
          match d with DUnion _ => True | _ => tag = 0 end /\
          forall i f id' args, nth_error (fields_of d) i = Some f -> f_array f = None -> f_type f = TRef id' args ->
            shaped S n' id' (nth_slot i slots)
      end
  | _, _ => True
  end.

(** [keeps v w]: what is set in [v] is the same in [w]; what is not set may be anything. *)
Inductive keeps : value -> value -> Prop :=
| keeps_same : forall v, keeps v v
| keeps_fields : forall tag slots slots',
    Forall2 (fun x y => forall v, x = Some v -> exists w, y = Some w /\ keeps v w) slots slots' -> keeps (VRec tag slots) (VRec tag slots').
Definition slot_keeps (x y : option value) : Prop := forall v, x = Some v -> exists w, y = Some w /\ keeps v w.
Definition env_keeps (E E' : env) : Prop := e_params E = e_params E' /\ Forall2 slot_keeps (e_slots E) (e_slots E').

(** What the fields of a new object are when its [i]-th field is read: those before were
    read from some data, the others are not set. *)
Definition reached (S : schema) (d : def) (i : nat) (E : env) : Prop :=
  match d with
  | DStruct fs => exists fuel slots, length slots = length fs /\ e_slots E = before i slots /\
      forall k f, (k < i)%nat -> nth_error fs k = Some f ->
        exists r r', read_field (run S fuel) (mkE (e_params E) (before k slots)) f r = (r', Ok (nth_slot k slots))
  | _ => e_slots E = repeat None (length (fields_of d))
  end.

(** The expressions do not look at fields that are not stored. *)
Definition steady (S : schema) : Prop :=
  forall id d i f E E', nth_error S id = Some d -> nth_error (fields_of d) i = Some f -> reached S d i E -> env_keeps E E' -> agree f E E'.

(** A place that held [o] and gets a field whose value in a new object is [s]: a field
    that is not stored keeps what it was; a compound that is stored is treated field by
    field in the same way; anything else is replaced. *)
Definition over_field (over : nat -> list value -> option value -> value -> value -> Prop) (E : env) (f : field) (o s s' : option value) : Prop :=
  match included E f with
  | Some true =>
      if f_optional f then s' = s
      else match f_array f, f_type f with
           | None, TRef id args => exists ps v v', args E 0%nat = Some ps /\ s = Some v /\ s' = Some v' /\ over id ps o v v'
           | _, _ => s' = s
           end
  | _ => s' = o
  end.

(** The [i]-th field of the object in a place. *)
Definition old_slot (o : option value) (i : nat) : option value := match o with Some (VRec _ slots) => nth_slot i slots | _ => None end.

(** [overlaid S n id ps o v v']: [v'] is the value [v] written over what was in [o]. *)
Fixpoint overlaid (S : schema) (n : nat) (id : nat) (ps : list value) (o : option value) (v v' : value) : Prop :=
  match n with
  | O => False
  | Datatypes.S n' =>
      exists d, nth_error S id = Some d /\
      match d with
      | DScalar _ => v' = v
      | _ => exists tag slots slots', v = VRec tag slots /\ v' = VRec tag slots' /\
          length slots = length (fields_of d) /\ length slots' = length (fields_of d) /\
          let stored i f := over_field (overlaid S n') (mkE ps slots) f (old_slot o i) (nth_slot i slots) (nth_slot i slots') in
          let other i := nth_slot i slots' = old_slot o i in
          match d with
          | DScalar _ => True
          | DStruct fs => forall i f, nth_error fs i = Some f -> stored i f
          | DChoice selector cases default => exists sel, selector ps = Some sel /\
              match select sel 0 cases default with
              | Some (k, f) => stored k f /\ forall i, i <> k -> other i
              | None => forall i, other i
              end
          | DUnion fs =>
              match (if tag <? 1 then None else nth_error fs (Z.to_nat (tag - 1))) with
              | Some f => stored (Z.to_nat (tag - 1)) f /\ forall i, i <> Z.to_nat (tag - 1) -> other i
              | None => forall i, other i
              end
          end
      end
  end.

(** Nobody sees the difference in what is written. *)
Definition same_output (S : schema) (id : nat) (ps : list value) (v v' : value) : Prop :=
  forall fuel, (forall w, MarshalZserio S fuel id ps v' w = MarshalZserio S fuel id ps v w) /\
               (forall pos, ZserioBitSize S fuel id ps v' pos = ZserioBitSize S fuel id ps v pos).

(** An object on which UnmarshalZserio was called any number of times, each time with
    any data and parameters and with any result. *)
Fixpoint reused (S : schema) (id : nat) (calls : list (nat * list value * rst)) (s : option value) : option value :=
  match calls with
  | [] => s
  | (fuel, ps, r) :: calls => reused S id calls (fst (UnmarshalInto S fuel id ps s r))
  end.
