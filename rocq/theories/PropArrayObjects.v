(** Property C99: array objects that are used several times. *)

Require Import ZArith List Bool Lia ZifyBool.
From Verif Require Import Bits Stream Spec Scalars ScalarTable Traits TraitSpec Delta DeltaSpec DeltaFacts SizeFacts
  Array ArraySpec ArrayObjects ArrayObjectsSpec ArrayObjectsFacts.
Import ListNotations.
Open Scope Z_scope.

(** After any history of calls MarshalZserio does what it does on a new object, and
    changes the elements of no object. *)
Theorem C99_marshal : forall A (T : traits A) l history a cfg es w,
  let m := run_all T (new_objects l) history in view m a = Some (cfg, es) ->
  exists m', run T m (Marshal a w) = (m', let (w', o) := write_array (trait_ops T) cfg es w in Wrote w' o) /\
    forall b, view m' b = view m b.
Proof. intros A T l history a cfg es w m. exact (run_marshal T m a cfg es w). Qed.
Print Assumptions C99_marshal.

(** So does UnmarshalZserio, which replaces the elements of its object only. *)
Theorem C99_unmarshal : forall A (T : traits A) l history a cfg es r,
  let m := run_all T (new_objects l) history in view m a = Some (cfg, es) ->
  exists m', run T m (Unmarshal a r) = (m', let (r', o) := read_array (trait_ops T) cfg r in Has_read r' (forget o)) /\
    (forall r' es', read_array (trait_ops T) cfg r = (r', Ok es') -> view m' a = Some (cfg, es')) /\
    forall b, b <> a -> view m' b = view m b.
Proof. intros A T l history a cfg es r m. exact (run_unmarshal T m a cfg es r (well_reached T l history)). Qed.
Print Assumptions C99_unmarshal.

(** The sizes are those of the elements and change no elements. *)
Theorem C99_sizes : forall A (T : traits A) l history a cfg es pos,
  let m := run_all T (new_objects l) history in view m a = Some (cfg, es) ->
  run T m (BitSize a pos) = (m, Size (array_bitsize T cfg es pos)) /\
  forall b, view (fst (run T m (BitSizePacked a pos))) b = view m b.
Proof. intros A T l history a cfg es pos m. exact (run_sizes T m a cfg es pos). Qed.
Print Assumptions C99_sizes.

(** As long as nothing was copied, a call on an object does not change any other. *)
Theorem C99_independent : forall A (T : traits A) l history c b, Forall not_clone history -> not_clone c -> b <> target c ->
  let m := run_all T (new_objects l) history in view (fst (run T m c)) b = view m b.
Proof.
  intros A T l history c b Hh Hc Hb m.
  exact (run_independent T m c b (well_reached T l history) (apart_reached T l history Hh) Hc Hb).
Qed.
Print Assumptions C99_independent.

(** Clone gives a new object with the same elements ... *)
Theorem C99_clone : forall A (T : traits A) l history a cfg es,
  let m := run_all T (new_objects l) history in view m a = Some (cfg, es) ->
  exists m' b, run T m (Clone a) = (m', Made b) /\ view m b = None /\ view m' b = Some (cfg, es) /\
    forall b', b' <> b -> view m' b' = view m b'.
Proof. intros A T l history a cfg es m. exact (run_clone T m a cfg es). Qed.
Print Assumptions C99_clone.

(** ... but not a deep copy: assigning to an element of either changes both ... *)
Theorem C99_clone_shares : forall A (T : traits A) l history a cfg es i v,
  let m := run_all T (new_objects l) history in view m a = Some (cfg, es) -> (i < length es)%nat ->
  exists m1 b m2 m3, run T m (Clone a) = (m1, Made b) /\ b <> a /\
    run T m1 (Set_ b i v) = (m2, Done) /\ view m2 b = Some (cfg, replace es i v) /\ view m2 a = Some (cfg, replace es i v) /\
    run T m1 (Set_ a i v) = (m3, Done) /\ view m3 b = Some (cfg, replace es i v) /\ view m3 a = Some (cfg, replace es i v).
Proof. intros A T l history a cfg es i v m. exact (clone_shares T m a cfg es i v (well_reached T l history)). Qed.
Print Assumptions C99_clone_shares.

(** ... whereas assigning a new slice changes one object only. *)
Theorem C99_assign : forall A (T : traits A) l history a cfg es es',
  let m := run_all T (new_objects l) history in view m a = Some (cfg, es) ->
  exists m', run T m (Assign a es') = (m', Done) /\ view m' a = Some (cfg, es') /\ forall b, b <> a -> view m' b = view m b.
Proof. intros A T l history a cfg es es' m. exact (run_assign T m a cfg es es' (well_reached T l history)). Qed.
Print Assumptions C99_assign.

(** ZserioBitSizePacked panics for every array that is not configured as packed ... *)
Theorem C99_packed_size_panics : forall A (T : traits A) l history a cfg es pos d,
  let m := run_all T (new_objects l) history in view m a = Some (cfg, es) -> es <> [] ->
  a_packed cfg = false -> length_size cfg (length es) = Ok d -> snd (run T m (BitSizePacked a pos)) = Size Panic.
Proof. intros A T l history a cfg es pos d m. exact (never_packed T m a cfg es pos d (well_reached T l history)). Qed.
Print Assumptions C99_packed_size_panics.

(** ... and right after MarshalZserio of a packed array it leaves out the descriptor,
    and counts the first element like the others. *)
Theorem C99_packed_size : forall b l history a cfg es m w pos,
  let T := traits_of b in let mem := run_all T (new_objects l) history in
  view mem a = Some (cfg, es) -> es <> [] -> wf_builtin b -> integer_like b ->
  Forall (in_range b) es -> Forall (size_right b) es -> a_packed cfg = true -> a_check cfg = false -> a_set cfg = false ->
  holds cfg (length es) -> length_size_right cfg (length es) -> wfaults w = [] -> delta_width (map (t_as T) es) m ->
  snd (run T (fst (run T mem (Marshal a w))) (BitSizePacked a pos)) =
    Size (Ok (Z.of_nat (length (output (write_array (trait_ops T) cfg es))) - left_out (map (size_of T) es) m)).
Proof.
  intros b l history a cfg es m w pos T mem.
  exact (run_packed_after_marshal b mem a cfg es m w pos (well_reached T l history)).
Qed.
Print Assumptions C99_packed_size.

(** For elements of constant size that is always too small. *)
Theorem C99_packed_size_too_small : forall b es m s, wf_builtin b -> integer_like b -> t_const (traits_of b) = true ->
  t_size (traits_of b) (t_zero (traits_of b)) = Ok s ->
  es <> [] -> Forall (in_range b) es -> delta_width (map (t_as (traits_of b)) es) m ->
  1 <= left_out (map (size_of (traits_of b)) es) m.
Proof. exact constant_left_out. Qed.
Print Assumptions C99_packed_size_too_small.

(** Two arrays of bytes, the first packed: written, copied, read into, measured. *)
Definition c99_cfg := mkA true true 0 false false.
Definition c99_plain := mkA true false 0 false false.
Definition c99_objects : list (acfg * list Z) := [(c99_cfg, [10; 11; 12; 13; 14; 15; 16; 17]); (c99_plain, [1; 2])].
Definition c99_T : traits Z := traits_of BUint8.
Example C99_applies :
  let w := mkW [] [] in
  let history := [Marshal 0 w; Unmarshal 1 (mkR 0 (bits_of 8 1 ++ bits_of 8 200)); Assign 1 [5; 6]; BitSizePacked 0 0] in
  let m := run_all c99_T (new_objects c99_objects) history in
  Forall not_clone history /\
  view m 0 = Some (c99_cfg, [10; 11; 12; 13; 14; 15; 16; 17]) /\ view m 1 = Some (c99_plain, [5; 6]) /\
  wf_builtin BUint8 /\ integer_like BUint8 /\ holds c99_cfg 8 /\ length_size_right c99_cfg 8 /\
  Forall (in_range BUint8) [10; 11; 12; 13; 14; 15; 16; 17] /\
  delta_width (map (t_as c99_T) [10; 11; 12; 13; 14; 15; 16; 17]) 1 /\
  length (output (write_array (trait_ops c99_T) c99_cfg [10; 11; 12; 13; 14; 15; 16; 17])) = 37%nat /\
  snd (run c99_T (fst (run c99_T m (Marshal 0 w))) (BitSizePacked 0 0)) = Size (Ok 24) /\
  snd (run c99_T m (BitSizePacked 1 0)) = Size Panic /\
  snd (run c99_T (new_objects c99_objects) (BitSizePacked 0 0)) = Size Panic.
Proof.
  cbv zeta. split; [repeat constructor|]. split; [vm_compute; reflexivity|]. split; [vm_compute; reflexivity|].
  split; [cbn; unfold go_width; lia|]. split; [exact I|]. split; [vm_compute; discriminate|].
  split; [intros _; left; reflexivity|]. split; [repeat constructor; cbn; lia|]. split.
  { split; [lia|]. split.
    - intros x y H. vm_compute in H. decompose [or] H; try contradiction;
        match goal with E : (_, _) = (_, _) |- _ => injection E as <- <-; vm_compute; reflexivity end.
    - right. exists 10, 11. split; [left; reflexivity|vm_compute; discriminate]. }
  repeat split; vm_compute; reflexivity.
Qed.

(** The comment of Clone says that it does a deep copy. *)
Example C99_deep_copy_refuted : exists (l : list (acfg * list Z)) (a i : nat) (v : Z),
  let m := run_all c99_T (new_objects l) [Clone a; Set_ (length l) i v] in
  view m a <> view (new_objects l) a.
Proof. exists c99_objects, 1%nat, 0%nat, 99. vm_compute. discriminate. Qed.
