(** The per-width caches of bit-field element codecs. *)

Require Import ZArith List Bool Lia ZifyBool ZifyNat.
From Verif Require Import Bits Stream.
Import ListNotations.
Open Scope Z_scope.

(** A codec object: the Go type argument it was instantiated with, of which only
    the identity matters here, and its NumBits field. *)
Definition codec : Type := (Z * Z)%type.

(** mapBitFieldArrayTraits and mapSignedBitFieldArrayTraits
    (ztype/array_traits.go:105-108): slices of 64 entries, initially nil. *)
Definition cache : Type := list (option codec).
Definition new_cache : cache := repeat None 64.

(** s[i] = x *)
Fixpoint set_nth {A} (i : nat) (x : A) (l : list A) : list A :=
  match i, l with
  | O, _ :: l' => x :: l'
  | S i', y :: l' => y :: set_nth i' x l'
  | _, [] => []
  end.

(** GetSignedBitFieldArrayTraits (ztype/array_traits.go:110-118) and
    GetBitFieldArrayTraits (120-128): they differ only in the slice used.  An
    index outside the slice and a failed type assertion panic; neither changes the
    slice.  Not modelled: concurrent calls, which race on the slice. *)
Definition get_codec (T numBits : Z) (c : cache) : cache * outcome codec :=
  match nth_error c (Z.to_nat numBits) with
  | None => (c, Panic)
  | Some entry =>
      let '(traits, c') :=
        match entry with
        | None => ((T, numBits), set_nth (Z.to_nat numBits) (Some (T, numBits)) c)
        | Some t => (t, c)
        end in
      (c', if fst traits =? T then Ok traits else Panic)
  end.

(** The answers to a sequence of requests (Go type, width), each recovered from a
    possible panic. *)
Fixpoint answers (reqs : list (Z * Z)) (c : cache) : list (outcome codec) :=
  match reqs with
  | [] => []
  | (T, n) :: reqs' => let '(c', o) := get_codec T n c in o :: answers reqs' c'
  end.

(** What the answer to a request must be, given the requests before it: the type
    of the first request of that width decides. *)
Definition expected (before : list (Z * Z)) (T n : Z) : outcome codec :=
  if 64 <=? n then Panic
  else match find (fun r => snd r =? n) before with
       | None => Ok (T, n)
       | Some (T0, _) => if T0 =? T then Ok (T, n) else Panic
       end.

Fixpoint expected_all (before reqs : list (Z * Z)) : list (outcome codec) :=
  match reqs with
  | [] => []
  | (T, n) :: reqs' => expected before T n :: expected_all (before ++ [(T, n)]) reqs'
  end.

(** The entry of a width, after some requests. *)
Definition entry_after (before : list (Z * Z)) (n : Z) : option codec :=
  match find (fun r => snd r =? n) before with
  | None => None
  | Some (T0, _) => Some (T0, n)
  end.

Definition cache_ok (before : list (Z * Z)) (c : cache) : Prop :=
  length c = 64%nat /\ forall n, 0 <= n < 64 -> nth_error c (Z.to_nat n) = Some (entry_after before n).

Lemma set_nth_length : forall {A} i (x : A) l, length (set_nth i x l) = length l.
Proof. induction i as [|i IH]; intros x [|y l]; cbn; [reflexivity..|]. now rewrite IH. Qed.

Lemma set_nth_get : forall {A} i j (x : A) l, (i < length l)%nat ->
  nth_error (set_nth i x l) j = if (j =? i)%nat then Some x else nth_error l j.
Proof.
  induction i as [|i IH]; intros j x [|y l] H; cbn in *; try lia.
  - destruct j; reflexivity.
  - destruct j as [|j]; [reflexivity|]. cbn. rewrite IH by lia. reflexivity.
Qed.

Lemma find_snoc : forall {A} (f : A -> bool) l x,
  find f (l ++ [x]) = match find f l with Some y => Some y | None => if f x then Some x else None end.
Proof.
  induction l as [|y l IH]; intros x; cbn; [reflexivity|]. destruct (f y); [reflexivity|apply IH].
Qed.

Lemma get_codec_ok : forall before c T n, cache_ok before c -> 0 <= n ->
  snd (get_codec T n c) = expected before T n /\ cache_ok (before ++ [(T, n)]) (fst (get_codec T n c)).
Proof.
  intros before c T n [Hl Hc] Hn. unfold get_codec, expected.
  destruct (64 <=? n) eqn:E.
  - replace (nth_error c (Z.to_nat n)) with (@None (option codec)) by (symmetry; apply nth_error_None; lia).
    split; [reflexivity|]. split; [exact Hl|]. intros k Hk. cbn [fst]. rewrite (Hc k Hk). f_equal.
    unfold entry_after. rewrite find_snoc. cbn [snd]. replace (n =? k) with false by lia.
    now destruct (find _ before) as [[? ?]|].
  - rewrite (Hc n ltac:(lia)). unfold entry_after.
    destruct (find (fun r => snd r =? n) before) as [[T0 n0]|] eqn:F; cbn [fst snd].
    + split; [destruct (T0 =? T) eqn:E1; [|reflexivity]; f_equal; f_equal; lia|].
      split; [exact Hl|]. intros k Hk. rewrite (Hc k Hk). f_equal.
      unfold entry_after. rewrite find_snoc. cbn [snd].
      destruct (find (fun r => snd r =? k) before) as [[T1 n1]|] eqn:F1; [reflexivity|].
      destruct (n =? k) eqn:E1; [|reflexivity]. apply Z.eqb_eq in E1. subst k. congruence.
    + rewrite Z.eqb_refl. split; [reflexivity|]. split; [now rewrite set_nth_length|].
      intros k Hk. rewrite set_nth_get by lia. unfold entry_after. rewrite find_snoc. cbn [snd].
      destruct (Z.to_nat k =? Z.to_nat n)%nat eqn:E1.
      * assert (k = n) by lia. subst k. rewrite F, Z.eqb_refl. reflexivity.
      * rewrite (Hc k Hk). unfold entry_after.
        replace (n =? k) with false by lia. now destruct (find (fun r => snd r =? k) before) as [[? ?]|].
Qed.

Lemma new_cache_ok : cache_ok [] new_cache.
Proof.
  split; [reflexivity|]. intros n Hn. unfold entry_after, new_cache. cbn [find].
  apply nth_error_repeat. lia.
Qed.

Theorem answers_expected : forall reqs, Forall (fun r => 0 <= snd r) reqs ->
  answers reqs new_cache = expected_all [] reqs.
Proof.
  intros reqs. generalize new_cache_ok. generalize (@nil (Z * Z)). generalize new_cache.
  induction reqs as [|[T n] reqs IH]; intros c before Hc Hr; [reflexivity|].
  apply Forall_cons_iff in Hr as [Hn Hr]. cbn [answers expected_all snd] in *.
  destruct (get_codec_ok before c T n Hc Hn) as [H1 H2].
  destruct (get_codec T n c) as [c' o]. cbn [fst snd] in *. subst o. f_equal. now apply IH.
Qed.
