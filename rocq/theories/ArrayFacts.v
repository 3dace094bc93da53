(** Facts about arrays. *)

Require Import ZArith List Bool Lia ZifyBool ZifyNat.
From Verif Require Import Bits BitsFacts Stream Spec PosSpec StreamFacts StreamThms Scalars ScalarFacts ScalarThms
  Traits TraitSpec Delta DeltaSpec DeltaFacts PosFacts Array ArraySpec.
Import ListNotations.
Open Scope Z_scope.

Lemma encodes_output : forall m bs, encodes m bs -> output m = bs.
Proof. intros m bs H. unfold output. now rewrite (H (mkW [] []) eq_refl). Qed.

Lemma varsize_output : forall n, 0 <= n <= MaxVarsize ->
  roundtrips (WriteVarsize n) ReadVarsize (output (WriteVarsize n)) n.
Proof.
  intros n Hn. destruct (WriteVarsize_rt n Hn) as (k & _ & _ & H).
  rewrite (encodes_output _ _ (proj1 H)). exact H.
Qed.

(** The element operations transmit the elements [es] one by one and they arrive
    as [ds], the writer context running from [cw] and the reader context from
    [cr]. *)
Fixpoint transmits {A C} (M : nat -> A -> prog (C * wst) unit) (U : nat -> prog (C * rst) A)
    (i : nat) (cw cr : C) (es ds : list A) (encs : list pbits) : Prop :=
  match es, ds, encs with
  | [], [], [] => True
  | e :: es', d :: ds', enc :: encs' => exists cw' cr',
      pencodes (M i e) cw cw' enc /\ pdecodes (U i) cr cr' enc d /\ transmits M U (S i) cw' cr' es' ds' encs'
  | _, _, _ => False
  end.

Lemma transmits_length : forall {A C} (M : nat -> A -> prog (C * wst) unit) U es ds encs i cw cr,
  transmits M U i cw cr es ds encs -> length encs = length es /\ length ds = length es.
Proof.
  induction es as [|e es IH]; intros [|d ds] [|enc encs] i cw cr H; cbn in H; try contradiction; [split; reflexivity|].
  destruct H as (cw' & cr' & _ & _ & H). destruct (IH ds encs (S i) cw' cr' H) as [E1 E2]. cbn. rewrite E1, E2. split; reflexivity.
Qed.

(** The operations [write_elem] and [read_elem] apply to an element. *)
Definition elem_write {A N} (K : elemops A N) (cfg : acfg) (i : nat) (e : A) : prog (option N * wst) unit :=
  if a_packed cfg then on_packed (k_pwrite K i e) else on_stream (k_write K i e).
Definition elem_read {A N} (K : elemops A N) (cfg : acfg) (i : nat) : prog (option N * rst) A :=
  if a_packed cfg then on_packed (k_pread K i) else on_stream (k_read K i).

Lemma write_elem_at : forall {A N} (K : elemops A N) cfg i e c c' enc,
  pencodes (elem_write K cfg i e) c c' enc -> pencodes (write_elem K cfg i e) c c' (aligned cfg enc).
Proof.
  intros A N K cfg i e c c' enc H. unfold write_elem, aligned, elem_write in *. destruct (a_check cfg).
  - eapply pencodes_bind; [apply pencodes_stream, walign_encodes; lia|]. now apply pencodes_ignore.
  - eapply pencodes_bind_ctx; [intros w; reflexivity|]. now apply pencodes_ignore.
Qed.

Lemma read_elem_at : forall {A N} (K : elemops A N) cfg i e c c' enc,
  pdecodes (elem_read K cfg i) c c' enc e -> pdecodes (read_elem K cfg i) c c' (aligned cfg enc) e.
Proof.
  intros A N K cfg i e c c' enc H. unfold read_elem, aligned, elem_read in *. destruct (a_check cfg).
  - eapply pdecodes_bind; [apply pdecodes_stream, ralign_decodes; lia|]. exact H.
  - eapply pdecodes_bind_ctx; [intros r; reflexivity|]. exact H.
Qed.

Lemma elems_at : forall {A N} (K : elemops A N) cfg es ds encs i cw cr,
  transmits (elem_write K cfg) (elem_read K cfg) i cw cr es ds encs ->
  exists cw' cr', pencodes (write_elems K cfg i es) cw cw' (pconcat (map (aligned cfg) encs)) /\
    pdecodes (read_elems K cfg i (length es)) cr cr' (pconcat (map (aligned cfg) encs)) ds.
Proof.
  intros A N K cfg. induction es as [|e es IH]; intros [|d ds] [|enc encs] i cw cr H; cbn in H; try contradiction.
  - exists cw, cr. split; [apply pencodes_ret|apply pdecodes_ret].
  - destruct H as (cw1 & cr1 & Hw & Hr & Ht). destruct (IH ds encs (S i) cw1 cr1 Ht) as (cw2 & cr2 & Hw2 & Hr2).
    exists cw2, cr2. cbn [write_elems length read_elems map pconcat]. split.
    + eapply pencodes_bind; [apply write_elem_at, Hw|exact Hw2].
    + eapply pdecodes_bind; [apply read_elem_at, Hr|]. eapply pdecodes_map; [exact Hr2|reflexivity].
Qed.

(** The context at the start of the two element loops. *)
Definition start_contexts {A N} (K : elemops A N) (cfg : acfg) (es : list A) (cw cr : option N) : Prop :=
  if a_packed cfg then
    exists n nw, k_create K = Ok n /\ init_elems K 0 es n = (nw, Ok tt) /\ cw = Some nw /\ cr = Some n
  else cw = None /\ cr = None.

Lemma array_empty : forall {A N} (K : elemops A N) cfg, holds cfg 0 ->
  roundtrips_at (write_array K cfg []) (read_array K cfg) (array_bits cfg []) [].
Proof.
  intros A N K cfg H. unfold write_array, read_array, array_marshal, array_unmarshal, array_bits, length_bits, holds in *.
  cbn [length map pconcat]. split.
  - eapply pencodes_with_ctx. destruct (a_auto cfg).
    + eapply pencodes_bind; [|apply pencodes_ret]. apply pencodes_stream, encodes_pfix.
      change (u64 (Z.of_nat 0)) with 0. apply varsize_output. vm_compute; split; discriminate.
    + eapply pencodes_bind; [|apply pencodes_ret]. apply pencodes_ret.
  - eapply pdecodes_with_ctx. destruct (a_auto cfg).
    + eapply pdecodes_bind.
      * apply pdecodes_stream, decodes_pfix. eapply decodes_map; [apply varsize_output; vm_compute; split; discriminate|reflexivity].
      * apply pdecodes_ret.
    + rewrite H. eapply pdecodes_bind; [apply pdecodes_ret|]. apply pdecodes_ret.
Qed.

Lemma array_roundtrip : forall {A N} (K : elemops A N) cfg es ds encs cw cr,
  holds cfg (length es) -> (es <> [] -> start_contexts K cfg es cw cr) ->
  transmits (elem_write K cfg) (elem_read K cfg) 0 cw cr es ds encs ->
  roundtrips_at (write_array K cfg es) (read_array K cfg) (array_bits cfg encs) ds.
Proof.
  intros A N K cfg es ds encs cw cr Hh Hs Ht.
  destruct es as [|e es].
  { destruct ds; [|contradiction]. destruct encs; [now apply array_empty|contradiction]. }
  specialize (Hs ltac:(discriminate)).
  destruct (transmits_length _ _ _ _ _ _ _ _ Ht) as [Hl _].
  destruct (elems_at K cfg _ _ _ _ _ _ Ht) as (cw' & cr' & Hw & Hr).
  set (es1 := e :: es) in *. unfold write_array, read_array, array_marshal, array_unmarshal, array_bits, length_bits, holds in *.
  rewrite Hl. split.
  - eapply pencodes_with_ctx. eapply pencodes_bind.
    + destruct (a_auto cfg); [|apply pencodes_ret].
      apply pencodes_stream, encodes_pfix.
      assert (u64 (Z.of_nat (length es1)) = Z.of_nat (length es1)) as ->.
      { unfold u64. apply to_u_small. unfold MaxVarsize in Hh. lia. }
      apply varsize_output. lia.
    + unfold es1 at 1. cbn beta iota.
      unfold start_contexts in Hs. destruct (a_packed cfg).
      * destruct Hs as (n & nw & Hc & Hi & -> & ->). eapply pencodes_bind_ctx; [|exact Hw].
        intros w. unfold sbind, new_context, init_context. rewrite Hc. cbn [snd]. now rewrite Hi.
      * destruct Hs as [-> ->]. eapply pencodes_bind_ctx; [intros w; reflexivity|exact Hw].
  - eapply pdecodes_with_ctx. eapply pdecodes_bind with (a := Z.of_nat (length es1)).
    + destruct (a_auto cfg).
      * apply pdecodes_stream, decodes_pfix. eapply decodes_map; [apply varsize_output; lia|].
        unfold i64. rewrite to_s_small; [reflexivity|lia|]. unfold MaxVarsize in Hh. lia.
      * rewrite Hh. apply pdecodes_ret.
    + unfold es1 at 1 2. cbn [length]. replace (_ <? 0) with false by lia. replace (_ =? 0) with false by lia.
      rewrite Nat2Z.id. unfold start_contexts in Hs. destruct (a_packed cfg).
      * destruct Hs as (n & nw & Hc & Hi & -> & ->). eapply pdecodes_bind_ctx; [|exact Hr].
        intros r. unfold new_context. rewrite Hc. reflexivity.
      * destruct Hs as [-> ->]. eapply pdecodes_bind_ctx; [intros r; reflexivity|exact Hr].
Qed.

(** ** Unpacked arrays *)

(** The elements and their encodings. *)
Fixpoint elements_ok {A N} (K : elemops A N) (i : nat) (es : list A) (encs : list pbits) : Prop :=
  match es, encs with
  | [], [] => True
  | e :: es', enc :: encs' => roundtrips_at (k_write K i e) (k_read K i) enc e /\ elements_ok K (S i) es' encs'
  | _, _ => False
  end.

Lemma plain_transmits : forall {A N} (K : elemops A N) cfg es encs i c, a_packed cfg = false ->
  elements_ok K i es encs -> transmits (elem_write K cfg) (elem_read K cfg) i c c es es encs.
Proof.
  intros A N K cfg. induction es as [|e es IH]; intros [|enc encs] i c Hp H; cbn in H; try contradiction; [exact I|].
  destruct H as [[Hw Hr] H]. cbn. exists c, c. split; [|split].
  - unfold elem_write. rewrite Hp. now apply pencodes_stream.
  - unfold elem_read. rewrite Hp. now apply pdecodes_stream.
  - now apply IH.
Qed.

Lemma plain_array_roundtrip : forall {A N} (K : elemops A N) cfg es encs, a_packed cfg = false ->
  holds cfg (length es) -> elements_ok K 0 es encs ->
  roundtrips_at (write_array K cfg es) (read_array K cfg) (array_bits cfg encs) es.
Proof.
  intros A N K cfg es encs Hp Hh He. eapply array_roundtrip with (cw := None) (cr := None); [exact Hh| |].
  - intros _. unfold start_contexts. now rewrite Hp.
  - now apply plain_transmits.
Qed.

(** ** Packed arrays: a synchronisation invariant for the contexts *)

Lemma pencodes_on_packed : forall {N} (m : prog (N * wst) unit) n n' e,
  pencodes m n n' e -> pencodes (on_packed m) (Some n) (Some n') e.
Proof. intros N m n n' e H w Hw. unfold on_packed. now rewrite (H w Hw). Qed.
Lemma pdecodes_on_packed : forall {N A} (m : prog (N * rst) A) n n' e a,
  pdecodes m n n' e a -> pdecodes (on_packed m) (Some n) (Some n') e a.
Proof. intros N A m n n' e a H pos rest. unfold on_packed. now rewrite H. Qed.

Lemma packed_transmits : forall {A N} (K : elemops A N) cfg es ds encs i nw nr, a_packed cfg = true ->
  transmits (k_pwrite K) (k_pread K) i nw nr es ds encs ->
  transmits (elem_write K cfg) (elem_read K cfg) i (Some nw) (Some nr) es ds encs.
Proof.
  intros A N K cfg. induction es as [|e es IH]; intros [|d ds] [|enc encs] i nw nr Hp H; cbn in H; try contradiction; [exact I|].
  destruct H as (nw1 & nr1 & Hw & Hr & H). cbn. exists (Some nw1), (Some nr1).
  split; [unfold elem_write; rewrite Hp; now apply pencodes_on_packed|].
  split; [unfold elem_read; rewrite Hp; now apply pdecodes_on_packed|]. now apply IH.
Qed.

Lemma packed_array_roundtrip : forall {A N} (K : elemops A N) cfg es ds encs n nw, a_packed cfg = true ->
  holds cfg (length es) -> k_create K = Ok n -> init_elems K 0 es n = (nw, Ok tt) ->
  transmits (k_pwrite K) (k_pread K) 0 nw n es ds encs ->
  roundtrips_at (write_array K cfg es) (read_array K cfg) (array_bits cfg encs) ds.
Proof.
  intros A N K cfg es ds encs n nw Hp Hh Hc Hi Ht.
  eapply array_roundtrip with (cw := Some nw) (cr := Some n); [exact Hh| |].
  - intros _. unfold start_contexts. rewrite Hp. exists n, nw. repeat split; assumption.
  - now apply packed_transmits.
Qed.

(** ** Packed arrays of codecs *)

Lemma init_trait_elems : forall {A} (T : traits A) es c c' i, d_init_all T es c = Ok c' ->
  init_elems (trait_ops T) i es c = (c', Ok tt).
Proof.
  intros A T. induction es as [|e es IH]; intros c c' i H; cbn in *.
  - now injection H as <-.
  - destruct (d_init T e c) as [c1| | |]; try discriminate. now apply IH.
Qed.

(** One element through contexts that are in step. *)
Lemma delta_step : forall {A} (T : traits A) cw cr enc e todo,
  0 <= d_max cw -> element_ok T enc e -> numbered T e -> in_step cw cr (t_as T e :: todo) ->
  pencodes (d_write T e) cw (next_ctx T cw e) (pfix (step_bits T cw enc e)) /\
  pdecodes (d_read T) cr (next_rctx T cw cr e) (pfix (step_bits T cw enc e)) (read_back T cw e).
Proof.
  intros A T cw cr enc e todo Hm He Hn Hs. split.
  - intros w Hw. apply (in_step_write T cw cr e todo enc w Hm Hw (proj1 He) Hs).
  - intros pos rest. apply (read_step_any T cw cr enc e todo pos rest He Hn Hs).
Qed.

Fixpoint step_encs {A} (T : traits A) (enc : A -> list bool) (c : dctx) (es : list A) : list (list bool) :=
  match es with
  | [] => []
  | e :: es' => step_bits T c (enc e) e :: step_encs T enc (next_ctx T c e) es'
  end.
Fixpoint reads_back {A} (T : traits A) (c : dctx) (es : list A) : list A :=
  match es with
  | [] => []
  | e :: es' => read_back T c e :: reads_back T (next_ctx T c e) es'
  end.
Lemma step_encs_run : forall {A} (T : traits A) enc es c, concat (step_encs T enc c es) = run_bits T enc c es.
Proof. intros A T enc. induction es as [|e es IH]; intros c; [reflexivity|]. cbn. now rewrite IH. Qed.
Lemma step_encs_length : forall {A} (T : traits A) enc es c, length (step_encs T enc c es) = length es.
Proof. intros A T enc. induction es as [|e es IH]; intros c; [reflexivity|]. cbn. now rewrite IH. Qed.

Lemma reads_back_same : forall {A} (T : traits A) es c, Forall (number_ok T) es -> reads_back T c es = es.
Proof.
  intros A T. induction es as [|e es IH]; intros c H; [reflexivity|]. apply Forall_cons_iff in H as [H1 H2].
  cbn. now rewrite read_back_same, IH.
Qed.

Lemma reads_back_started : forall {A} (T : traits A) es c, d_started c = true ->
  reads_back T c es = if d_packed c then map (fun e => t_from T (t_as T e)) es else es.
Proof.
  intros A T. induction es as [|e es IH]; intros c H; [now destruct (d_packed c)|].
  cbn. unfold read_back at 1. rewrite H. cbn [andb].
  assert (E : d_started (next_ctx T c e) = true /\ d_packed (next_ctx T c e) = d_packed c).
  { unfold next_ctx. rewrite H. cbn [negb]. destruct (_ && _); split; try reflexivity; exact H. }
  rewrite (IH _ (proj1 E)), (proj2 E). now destruct (d_packed c).
Qed.

Lemma delta_transmits : forall {A} (T : traits A) enc es i cw cr,
  0 <= d_max cw -> Forall (fun e => element_ok T (enc e) e) es -> Forall (numbered T) es ->
  in_step cw cr (map (t_as T) es) ->
  transmits (k_pwrite (trait_ops T)) (k_pread (trait_ops T)) i cw cr es (reads_back T cw es)
    (map pfix (step_encs T enc cw es)).
Proof.
  intros A T enc. induction es as [|e es IH]; intros i cw cr Hm He Hn Hs; [exact I|].
  apply Forall_cons_iff in He as [He1 He2]. apply Forall_cons_iff in Hn as [Hn1 Hn2]. cbn [map] in Hs.
  destruct (delta_step T cw cr (enc e) e _ Hm He1 Hn1 Hs) as [Hw Hr].
  cbn. eexists. eexists. split; [exact Hw|]. split; [exact Hr|].
  apply IH; [now rewrite next_max|assumption|assumption|]. now apply step_in_step.
Qed.

Lemma packed_trait_array : forall {A} (T : traits A) (enc : A -> list bool) cfg es m, a_packed cfg = true ->
  holds cfg (length es) -> delta_width (map (t_as T) es) m ->
  Forall (fun e => element_ok T (enc e) e) es -> Forall (numbered T) es -> Forall (sized T) es ->
  exists encs, length encs = length es /\
  roundtrips_at (write_array (trait_ops T) cfg es) (read_array (trait_ops T) cfg)
    (array_bits cfg (map pfix encs)) (arrives T es m) /\
  (es <> [] -> concat encs = delta_wire (map enc es) (map (size_of T) es) (map (t_as T) es) m).
Proof.
  intros A T enc cfg es m Hp Hh Hm He Hn Hs.
  destruct es as [|e l].
  { exists []. split; [reflexivity|]. split; [|congruence]. now apply array_empty. }
  rewrite (delta_width_unique _ _ _ Hm (width_delta_width (map (t_as T) l) (t_as T e))).
  pose proof (init_all T e l Hs Hn) as Hi. cbn zeta in Hi.
  match type of Hi with _ = Ok ?c => set (c0 := c) in * end.
  destruct (init_in_step T (e :: l) c0 Hs Hn Hi) as [Hst Hmx].
  exists (step_encs T enc c0 (e :: l)). split; [apply step_encs_length|]. split.
  - assert (E : arrives T (e :: l) (width (t_as T e) (map (t_as T) l)) = reads_back T c0 (e :: l)).
    { destruct (finish_packed T e l c0 Hs Hn Hi) as (H1 & H2 & H3).
      unfold arrives. rewrite <- H1. cbn [reads_back]. unfold read_back at 1. rewrite H3. cbn [andb]. f_equal.
      assert (Eq : next_ctx T c0 e = set_prev (t_as T e) (set_started (finishInit c0))).
      { unfold next_ctx. rewrite H3. cbn [negb]. now rewrite finishInit_started. }
      rewrite Eq, reads_back_started; reflexivity. }
    rewrite E.
    eapply packed_array_roundtrip; [exact Hp|exact Hh|reflexivity|apply init_trait_elems; exact Hi|].
    now apply delta_transmits.
  - intros _. rewrite step_encs_run. now apply run_wire.
Qed.

(** Without alignment the elements simply follow each other. *)
Lemma array_bits_plain : forall cfg l p, a_check cfg = false ->
  array_bits cfg (map pfix l) p = length_bits cfg (length l) ++ concat l.
Proof.
  intros cfg l p H. unfold array_bits, papp, pfix at 1 2. rewrite map_length. f_equal.
  rewrite map_ext with (g := fun e => e) by (intros e; unfold aligned; now rewrite H). rewrite map_id.
  apply pconcat_pfix.
Qed.
