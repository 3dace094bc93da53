(** The depth bound does not change what a decoder returns. *)

Require Import ZArith List Bool Lia ZifyBool ZifyNat.
From Verif Require Import Bits Stream Scalars Traits Delta Array Schema.
Import ListNotations.
Open Scope Z_scope.
Open Scope io_scope.

(** [m] and [m'] return the same, unless [m] runs out of depth. *)
Definition below {S A} (m m' : prog S A) : Prop := forall s, snd (m s) = NoFuel \/ m s = m' s.

Lemma below_refl : forall {S A} (m : prog S A), below m m.
Proof. intros S A m s. now right. Qed.

Lemma below_bind : forall {S A B} (m m' : prog S A) (f f' : A -> prog S B),
  below m m' -> (forall a, below (f a) (f' a)) -> below (sbind m f) (sbind m' f').
Proof.
  intros S A B m m' f f' Hm Hf s. unfold sbind. destruct (Hm s) as [H|H].
  - left. destruct (m s) as [s' o]. cbn in H. now subst o.
  - rewrite <- H. destruct (m s) as [s' [a|e| |]]; auto. apply Hf.
Qed.

Lemma below_rbind : forall {A B} (m m' : reader A) (f f' : A -> reader B),
  below m m' -> (forall a, below (f a) (f' a)) -> below (rbind m f) (rbind m' f').
Proof. exact (fun A B => @below_bind rst A B). Qed.

Lemma below_if : forall {S A} (b : bool) (m1 m2 m1' m2' : prog S A), below m1 m1' -> below m2 m2' ->
  below (if b then m1 else m2) (if b then m1' else m2').
Proof. intros S A [|]; auto. Qed.

Lemma below_stream : forall {C S A} (m m' : prog S A), below m m' -> below (@on_stream C S A m) (on_stream m').
Proof.
  intros C S A m m' H [c s]. unfold on_stream. destruct (H s) as [E|E].
  - left. destruct (m s). exact E.
  - right. now rewrite E.
Qed.

Lemma below_child : forall {S A} i (m m' : prog (node * S) A), below m m' -> below (on_child i m) (on_child i m').
Proof.
  intros S A i m m' H [[c ch] s]. unfold on_child. destruct (nth_error ch i) as [n|]; [|now right].
  destruct (H (n, s)) as [E|E].
  - left. destruct (m (n, s)) as [[? ?] ?]. exact E.
  - right. now rewrite E.
Qed.

Lemma below_packed : forall {N S A} (m m' : prog (N * S) A), below m m' -> below (on_packed m) (on_packed m').
Proof.
  intros N S A m m' H [[n|] s]; unfold on_packed; [|now right]. destruct (H (n, s)) as [E|E].
  - left. destruct (m (n, s)) as [[? ?] ?]. exact E.
  - right. now rewrite E.
Qed.

Lemma below_with_ctx : forall {C S A} c (m m' : prog (C * S) A), below m m' -> below (with_ctx c m) (with_ctx c m').
Proof.
  intros C S A c m m' H s. unfold with_ctx. destruct (H (c, s)) as [E|E].
  - left. destruct (m (c, s)) as [[? ?] ?]. exact E.
  - right. now rewrite E.
Qed.

Lemma below_read_array : forall {A N} (K K' : elemops A N) cfg,
  (forall i, below (k_read K i) (k_read K' i)) -> (forall i, below (k_pread K i) (k_pread K' i)) ->
  (k_create K = NoFuel \/ k_create K = k_create K') ->
  below (read_array K cfg) (read_array K' cfg).
Proof.
  intros A N K K' cfg H1 H2 H3. apply below_with_ctx. unfold array_unmarshal.
  apply below_bind; [apply below_refl|intros size].
  apply below_if; [apply below_refl|]. apply below_if; [apply below_refl|].
  apply below_bind.
  - apply below_if; [|apply below_refl]. intros s. unfold new_context.
    destruct H3 as [ -> | -> ]; [now left|now right].
  - intros _. generalize (Z.to_nat size) as n, 0%nat as i.
    induction n as [|n IH]; intros i; cbn [read_elems]; [apply below_refl|].
    apply below_bind; [|intros e; apply below_bind; [apply IH|intros; apply below_refl]].
    unfold read_elem. apply below_bind; [apply below_refl|intros _].
    apply below_if; [apply below_packed, H2|apply below_stream, H1].
Qed.

(** The decoding methods of [M] are those of [M'], as far as they go. *)
Record decodes_below (M M' : methods) : Prop := {
  below_unmarshal : forall id ps, below (m_unmarshal M id ps) (m_unmarshal M' id ps);
  below_create : forall id, below (m_create M id) (m_create M' id);
  below_punmarshal : forall id ps, below (m_punmarshal M id ps) (m_punmarshal M' id ps)
}.

Lemma below_field_array : forall M M' E f len packed, decodes_below M M' ->
  below (read_field_array M E f len packed) (read_field_array M' E f len packed).
Proof.
  intros M M' E f len packed [H1 H2 H3]. unfold read_field_array. destruct (f_type f) as [t|id args]; [apply below_refl|].
  destruct (array_config E len packed) as [cfg|]; [|apply below_refl].
  apply below_read_array; cbn [k_read k_pread k_create object_ops].
  - intros i. destruct (args E i); [apply H1|apply below_refl].
  - intros i. destruct (args E i); [apply H3|apply below_refl].
  - destruct (H2 id (Node None [])) as [E1|E1].
    + left. destruct (m_create M id (Node None [])) as [? ?]. cbn in E1. now subst.
    + right. now rewrite E1.
Qed.

Lemma below_field : forall M M' E f, decodes_below M M' -> below (read_field M E f) (read_field M' E f).
Proof.
  intros M M' E f H. unfold read_field. destruct (included E f) as [[|]|]; try apply below_refl.
  apply below_rbind; [apply below_refl|intros _].
  assert (C : below (read_content M E f) (read_content M' E f)).
  { unfold read_content. destruct (f_array f) as [[len packed]|].
    - apply below_rbind; [now apply below_field_array|intros; apply below_refl].
    - destruct (f_type f) as [t|id args]; [apply below_refl|].
      destruct (args E 0%nat); [apply H|apply below_refl]. }
  apply below_if.
  - apply below_rbind; [apply below_refl|intros b]. apply below_if; [|apply below_refl].
    apply below_rbind; [exact C|intros; apply below_refl].
  - apply below_rbind; [exact C|intros; apply below_refl].
Qed.

Lemma below_pfield : forall M M' E f, decodes_below M M' -> below (pread_field M E f) (pread_field M' E f).
Proof.
  intros M M' E f H. unfold pread_field. destruct (included E f) as [[|]|]; try apply below_refl.
  assert (C : below (pread_content M E f) (pread_content M' E f)).
  { unfold pread_content. destruct (f_array f) as [[len packed]|].
    - apply below_bind; [apply below_stream; now apply below_field_array|intros; apply below_refl].
    - destruct (f_type f) as [t|id args]; [apply below_refl|].
      destruct (args E 0%nat); [apply H|apply below_refl]. }
  apply below_if.
  - apply below_bind; [apply below_refl|intros b]. apply below_if; [|apply below_refl].
    apply below_bind; [apply below_refl|intros _]. apply below_bind; [exact C|intros; apply below_refl].
  - apply below_bind; [apply below_refl|intros _]. apply below_bind; [exact C|intros; apply below_refl].
Qed.

Lemma below_create_fields : forall M M' fs, decodes_below M M' -> below (create_fields M fs) (create_fields M' fs).
Proof.
  intros M M' fs H. induction fs as [|f fs IH]; cbn [create_fields]; [apply below_refl|].
  apply below_bind; [|intros; exact IH]. intros [c ch]. unfold create_field.
  destruct (f_array f); [now right|]. destruct (f_type f) as [t|id args]; [now right|].
  destruct (below_create _ _ H id (Node None [])) as [E|E].
  - left. destruct (m_create M id (Node None [])). exact E.
  - right. now rewrite E.
Qed.

Theorem run_below : forall S fuel, decodes_below (run S fuel) (run S (Datatypes.S fuel)).
Proof.
  intros S fuel. induction fuel as [|fuel IH].
  - constructor; intros; intros s; now left.
  - set (M := run S fuel) in *. set (M' := run S (Datatypes.S fuel)) in *.
    change (run S (Datatypes.S (Datatypes.S fuel))) with
      (let M := run S (Datatypes.S fuel) in
      mkM (fun id ps v => of_def S id (fun d => marshal_def M d ps v) wpanic)
          (fun id ps => of_def S id (fun d => unmarshal_def M d ps) rpanic)
          (fun id ps v pos => of_def S id (fun d => size_def M d ps v pos) Panic)
          (fun id => of_def S id (create_def M) (lift Panic))
          (fun id ps v => of_def S id (fun d => init_def M d ps v) (lift Panic))
          (fun id ps v => of_def S id (fun d => pmarshal_def M d ps v) (lift Panic))
          (fun id ps => of_def S id (fun d => punmarshal_def M d ps) (lift Panic))).
    unfold M' at 1. cbn [run]. fold M. cbv zeta. fold M'.
    constructor; cbn [m_unmarshal m_create m_punmarshal]; unfold of_def.
    + intros id ps. destruct (nth_error S id) as [d|]; [|apply below_refl].
      destruct d as [t|fs|selector cases default|fs]; cbn [unmarshal_def]; [apply below_refl| | |].
      * apply below_rbind; [|intros; apply below_refl]. generalize (@nil (option value)) as done.
        induction fs as [|f fs IHf]; intros done; cbn [read_fields]; [apply below_refl|].
        apply below_rbind; [now apply below_field|intros; apply IHf].
      * destruct (selector ps) as [sel|]; [|apply below_refl].
        destruct (select sel 0 cases default) as [[i f]|]; [|apply below_refl].
        apply below_rbind; [now apply below_field|intros; apply below_refl].
      * apply below_rbind; [apply below_refl|intros tag].
        destruct (if tag <? 1 then None else nth_error fs (Z.to_nat (tag - 1))); [|apply below_refl].
        apply below_rbind; [now apply below_field|intros; apply below_refl].
    + intros id. destruct (nth_error S id) as [d|]; [|apply below_refl].
      destruct d; cbn [create_def]; [apply below_refl| | |]; now apply below_create_fields.
    + intros id ps. destruct (nth_error S id) as [d|]; [|apply below_refl].
      destruct d as [t|fs|selector cases default|fs]; cbn [punmarshal_def]; [apply below_refl| | |apply below_refl].
      * apply below_bind; [|intros; apply below_refl]. generalize (@nil (option value)) as done.
        induction fs as [|f fs IHf]; intros done; cbn [pread_fields]; [apply below_refl|].
        apply below_bind; [apply below_child; now apply below_pfield|intros; apply IHf].
      * apply below_if; [|apply below_refl]. destruct (selector ps) as [sel|]; [|apply below_refl].
        destruct (select sel 0 cases default) as [[i f]|]; [|apply below_refl].
        apply below_bind; [apply below_child; now apply below_pfield|intros; apply below_refl].
Qed.

Theorem decode_fuel : forall S fuel fuel' id ps r, (fuel <= fuel')%nat ->
  snd (UnmarshalZserio S fuel id ps r) <> NoFuel ->
  UnmarshalZserio S fuel' id ps r = UnmarshalZserio S fuel id ps r.
Proof.
  intros S fuel fuel' id ps r H. induction H as [|fuel' H IH]; intros Hn; [reflexivity|].
  specialize (IH Hn). destruct (below_unmarshal _ _ (run_below S fuel') id ps r) as [E|E].
  - unfold UnmarshalZserio in *. rewrite IH in E. contradiction.
  - unfold UnmarshalZserio in *. now rewrite <- E.
Qed.
