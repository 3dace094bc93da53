(** Round trip of the fields of generated types, given that of the types they
    refer to. *)

Require Import ZArith List Bool Lia ZifyBool ZifyNat.
From Verif Require Import Bits Stream Spec PosSpec Scalars Traits TraitSpec Delta DeltaFacts PosFacts
  Array ArraySpec ArrayFacts Schema SchemaSpec SchemaFacts.
Import ListNotations.
Open Scope Z_scope.

(** ** Runs of steps over pairs of contexts *)

(** [step x nw nr nw' nr']: writing [x] takes the writer's context from [nw] to
    [nw'], reading it back takes the reader's from [nr] to [nr'].  [None] stands
    for an element that does not touch the context. *)
Fixpoint syncs {X N} (step : X -> N -> N -> N -> N -> Prop) (nw nr : N) (l : list (option X)) : Prop :=
  match l with
  | [] => True
  | None :: l' => syncs step nw nr l'
  | Some x :: l' => exists nw' nr', step x nw nr nw' nr' /\ syncs step nw' nr' l'
  end.

Fixpoint inits {X N} (istep : X -> N -> N -> Prop) (n : N) (l : list (option X)) (n' : N) : Prop :=
  match l with
  | [] => n' = n
  | None :: l' => inits istep n l' n'
  | Some x :: l' => exists n1, istep x n n1 /\ inits istep n1 l' n'
  end.

Definition obj_step (Ms : methods -> Prop) (id : nat) (x : list value * value) (nw nr nw' nr' : node) : Prop :=
  exists enc, forall M, Ms M ->
    pencodes (m_pmarshal M id (fst x) (snd x)) nw nw' enc /\
    pdecodes (m_punmarshal M id (fst x)) nr nr' enc (snd x).
Definition obj_init (Ms : methods -> Prop) (id : nat) (x : list value * value) (n n' : node) : Prop :=
  forall M, Ms M -> m_init M id (fst x) (snd x) n = (n', Ok tt).

(** What is assumed of the types that fields refer to. *)
Definition plain_ok (Ms : methods -> Prop) (ok : bool -> nat -> list value -> value -> Prop) : Prop :=
  forall id ps v, ok false id ps v -> exists enc, forall M, Ms M ->
    roundtrips_at (m_marshal M id ps v) (m_unmarshal M id ps) enc v.
Definition packed_ok (Ms : methods -> Prop) (ok : bool -> nat -> list value -> value -> Prop) (fin : nat -> Prop) : Prop :=
  forall id, fin id -> exists n0,
    (forall M, Ms M -> m_create M id (Node None []) = (n0, Ok tt)) /\
    forall xs, Forall (fun o => forall x, o = Some x -> ok true id (fst x) (snd x)) xs ->
    forall inited : bool, exists nw,
      (if inited then inits (obj_init Ms id) n0 xs nw else nw = n0) /\ syncs (obj_step Ms id) nw n0 xs.

(** ** Arrays of objects *)

Lemma read_elems_ext : forall {A N} (K K' : elemops A N) cfg,
  (forall i s, k_read K i s = k_read K' i s) -> (forall i s, k_pread K i s = k_pread K' i s) ->
  forall n i s, read_elems K cfg i n s = read_elems K' cfg i n s.
Proof.
  intros A N K K' cfg H1 H2. induction n as [|n IH]; intros i s; [reflexivity|]. cbn [read_elems].
  assert (E : read_elem K cfg i s = read_elem K' cfg i s).
  { unfold read_elem, sbind. destruct (a_check cfg); cbn.
    - destruct (on_stream _ s) as [s' [a|e| |]]; try reflexivity.
      destruct (a_packed cfg); unfold on_packed, on_stream; destruct s' as [[n0|] r]; try reflexivity; now rewrite ?H1, ?H2.
    - destruct (a_packed cfg); unfold on_packed, on_stream; destruct s as [[n0|] r]; try reflexivity; now rewrite ?H1, ?H2. }
  unfold sbind at 1 3. rewrite E. destruct (read_elem K' cfg i s) as [s' [a|e| |]]; try reflexivity.
  unfold sbind. now rewrite IH.
Qed.

Lemma read_array_ext : forall {A N} (K K' : elemops A N) cfg,
  k_create K = k_create K' ->
  (forall i s, k_read K i s = k_read K' i s) -> (forall i s, k_pread K i s = k_pread K' i s) ->
  forall r, read_array K cfg r = read_array K' cfg r.
Proof.
  intros A N K K' cfg H0 H1 H2 r. unfold read_array, with_ctx.
  enough (H : array_unmarshal K cfg (None, r) = array_unmarshal K' cfg (None, r)) by now rewrite H.
  unfold array_unmarshal. unfold sbind at 1 3.
  match goal with |- match ?m with pair _ _ => _ end = _ => destruct m as [s [size|e| |]] end; try reflexivity.
  destruct (size <? 0); [reflexivity|]. destruct (size =? 0); [reflexivity|].
  unfold sbind. unfold new_context. rewrite H0.
  match goal with |- match ?m with pair _ _ => _ end = _ => destruct m as [s' [u|e| |]] end; try reflexivity.
  apply (read_elems_ext K K' cfg H1 H2).
Qed.

Lemma object_read_ext : forall M E E' id args cfg, (forall i, args E i = args E' i) ->
  forall r, read_array (object_ops M E' id args) cfg r = read_array (object_ops M E id args) cfg r.
Proof.
  intros M E E' id args cfg H r. apply read_array_ext; [reflexivity| |]; intros i s; cbn [object_ops k_read k_pread]; now rewrite H.
Qed.

Lemma decodes_at_eq : forall {A} (m m' : reader A) enc a, (forall r, m r = m' r) -> decodes_at m enc a -> decodes_at m' enc a.
Proof. intros A m m' enc a H Hd pos rest. rewrite <- H. apply Hd. Qed.

(** Elements with their parameters. *)
Lemma with_arguments : forall (ok : list value -> value -> Prop) (args : arguments) E es i,
  (forall j e, nth_error es j = Some e -> exists ps, args E (i + j)%nat = Some ps /\ ok ps e) ->
  exists pss, length pss = length es /\
    Forall (fun x => ok (fst x) (snd x)) (combine pss es) /\
    (forall j ps, nth_error pss j = Some ps -> args E (i + j)%nat = Some ps).
Proof.
  intros ok args E. induction es as [|e es IH]; intros i H.
  - exists []. repeat split; [constructor|]. intros [|j] ps; discriminate.
  - destruct (H 0%nat e eq_refl) as (ps & Ha & Hok). rewrite Nat.add_0_r in Ha.
    destruct (IH (S i)) as (pss & Hl & Hf & Hn).
    { intros j e' Hj. destruct (H (S j) e' Hj) as (ps' & Ha' & Hok'). exists ps'. split; [|exact Hok'].
      now replace (S i + j)%nat with (i + S j)%nat by lia. }
    exists (ps :: pss). cbn. split; [now rewrite Hl|]. split; [constructor; assumption|].
    intros [|j] ps' Hj; cbn in Hj.
    + injection Hj as <-. now rewrite Nat.add_0_r.
    + replace (i + S j)%nat with (S i + j)%nat by lia. now apply Hn.
Qed.

Lemma arguments_ok_true : forall (args : arguments) E (es : list value),
  (forall i e, nth_error es i = Some e -> exists ps, args E i = Some ps) -> arguments_ok E args (length es) = true.
Proof.
  intros args E es H. unfold arguments_ok. apply forallb_forall. intros i Hi. apply in_seq in Hi.
  destruct (nth_error es i) as [e|] eqn:Ee; [|apply nth_error_None in Ee; lia].
  destruct (H i e Ee) as [ps ->]. reflexivity.
Qed.

Lemma object_plain : forall (Ms : methods -> Prop) ok E id args es i, plain_ok Ms ok ->
  (forall j e, nth_error es j = Some e -> exists ps, args E (i + j)%nat = Some ps /\ ok false id ps e) ->
  exists encs, forall M, Ms M -> elements_ok (object_ops M E id args) i es encs.
Proof.
  intros Ms ok E id args. induction es as [|e es IH]; intros i Hp H.
  - exists []. intros M _. exact I.
  - destruct (H 0%nat e eq_refl) as (ps & Ha & Hok). rewrite Nat.add_0_r in Ha.
    destruct (Hp id ps e Hok) as (enc & He).
    destruct (IH (S i) Hp) as (encs & Hes).
    { intros j e' Hj. destruct (H (S j) e' Hj) as (ps' & Ha' & Hok'). exists ps'. split; [|exact Hok'].
      now replace (S i + j)%nat with (i + S j)%nat by lia. }
    exists (enc :: encs). intros M HM. cbn [elements_ok object_ops k_write k_read]. rewrite Ha.
    split; [now apply He|now apply Hes].
Qed.

Lemma object_init_elems : forall (Ms : methods -> Prop) E id args es pss i n nw M, Ms M -> length pss = length es ->
  (forall j ps, nth_error pss j = Some ps -> args E (i + j)%nat = Some ps) ->
  inits (obj_init Ms id) n (map Some (combine pss es)) nw ->
  init_elems (object_ops M E id args) i es n = (nw, Ok tt).
Proof.
  intros Ms E id args. induction es as [|e es IH]; intros [|ps pss] i n nw M HM Hl Ha H; try discriminate.
  - cbn in *. now subst nw.
  - cbn in H. destruct H as (n1 & H1 & H2). cbn [init_elems object_ops k_init].
    pose proof (Ha 0%nat ps eq_refl) as Ha0. rewrite Nat.add_0_r in Ha0. rewrite Ha0.
    pose proof (H1 M HM) as H1M; cbn [fst snd] in H1M; rewrite H1M. apply (IH pss (S i) n1 nw M HM); [now injection Hl|  |exact H2].
    intros j ps' Hj. replace (S i + j)%nat with (i + S j)%nat by lia. now apply Ha.
Qed.

Lemma object_transmits : forall (Ms : methods -> Prop) E id args es pss i nw nr, length pss = length es ->
  (forall j ps, nth_error pss j = Some ps -> args E (i + j)%nat = Some ps) ->
  syncs (obj_step Ms id) nw nr (map Some (combine pss es)) ->
  exists encs, forall M, Ms M ->
    transmits (k_pwrite (object_ops M E id args)) (k_pread (object_ops M E id args)) i nw nr es es encs.
Proof.
  intros Ms E id args. induction es as [|e es IH]; intros [|ps pss] i nw nr Hl Ha H; try discriminate.
  - exists []. intros M _. exact I.
  - cbn in H. destruct H as (nw' & nr' & (enc & H1) & H2).
    pose proof (Ha 0%nat ps eq_refl) as Ha0. rewrite Nat.add_0_r in Ha0.
    destruct (IH pss (S i) nw' nr' ltac:(now injection Hl)) as (encs & H3); [|exact H2|].
    { intros j ps' Hj. replace (S i + j)%nat with (i + S j)%nat by lia. now apply Ha. }
    exists (enc :: encs). intros M HM. destruct (H1 M HM) as [Hw Hr]. cbn [transmits]. exists nw', nr'.
    cbn [object_ops k_pwrite k_pread]. rewrite Ha0. split; [exact Hw|]. split; [exact Hr|]. now apply H3.
Qed.

Lemma object_array_roundtrip : forall (Ms : methods -> Prop) ok (fin : nat -> Prop) E E' f id args len packed pk es,
  plain_ok Ms ok -> packed_ok Ms ok fin -> agree f E E' ->
  f_array f = Some (len, packed) -> f_type f = TRef id args -> array_length E len (length es) ->
  (forall i e, nth_error es i = Some e -> exists ps, args E i = Some ps /\ ok pk id ps e) ->
  (pk = true -> fin id) ->
  exists cfg encs, array_config E len pk = Some cfg /\ length encs = length es /\ forall M, Ms M ->
  roundtrips_at (write_field_array M E f len pk es) (read_field_array M E' f len pk) (array_bits cfg encs) es.
Proof.
  intros Ms ok fin E E' f id args len packed pk es HP HQ Ha Hf Ht Hl Hes Hfin.
  destruct (config_ok E E' f len packed pk _ Ha Hf Hl) as (cfg & C1 & C2 & Cp & _ & Ch & Cl).
  exists cfg.
  assert (Hrt : exists encs, length encs = length es /\ forall M, Ms M ->
    roundtrips_at (write_array (object_ops M E id args) cfg es) (read_array (object_ops M E id args) cfg)
      (array_bits cfg encs) es).
  { destruct pk.
    - destruct (HQ id (Hfin eq_refl)) as (n0 & Hc & Hx).
      destruct (with_arguments (ok true id) args E es 0 Hes) as (pss & Hlen & Hok & Hargs).
      destruct (Hx (map Some (combine pss es))) with (inited := true) as (nw & Hi & Hs).
      { apply Forall_forall. intros o Ho x ->. apply in_map_iff in Ho as (y & Hy & Hin). injection Hy as ->.
        rewrite Forall_forall in Hok. now apply Hok. }
      destruct (object_transmits Ms E id args es pss 0 nw n0 Hlen Hargs Hs) as (encs & Ht').
      (* the number of encodings *)
      assert (D : length encs = length es \/ forall M, ~ Ms M).
      { destruct es as [|e0 es0].
        - destruct encs as [|? ?]; [now left|]. right. intros M HM. exact (Ht' M HM).
        - clear -Ht'. destruct (Nat.eq_dec (length encs) (length (e0 :: es0))) as [E0|E0]; [now left|right].
          intros M HM. destruct (transmits_length _ _ _ _ _ _ _ _ (Ht' M HM)) as [E1 _]. contradiction. }
      destruct D as [D|D].
      + exists encs. split; [exact D|]. intros M HM. eapply packed_array_roundtrip; [exact Cp|exact Ch| | |exact (Ht' M HM)].
        * cbn [object_ops k_create]. now rewrite (Hc M HM).
        * eapply (object_init_elems Ms E id args es pss 0 n0 nw M HM Hlen Hargs Hi).
      + exists (map (fun _ => pnil) es). split; [apply map_length|]. intros M HM. destruct (D M HM).
    - destruct (object_plain Ms ok E id args es 0 HP Hes) as (encs & He).
      assert (D : length encs = length es \/ forall M, ~ Ms M).
      { destruct (Nat.eq_dec (length encs) (length es)) as [E0|E0]; [now left|right]. intros M HM.
        specialize (He M HM). apply E0. clear -He. revert encs He. generalize 0%nat.
        induction es as [|e es IH]; intros i [|enc encs] H; cbn in H; try contradiction; [reflexivity|].
        cbn. f_equal. now apply (IH (S i) encs). }
      destruct D as [D|D].
      + exists encs. split; [exact D|]. intros M HM. apply plain_array_roundtrip; auto.
      + exists (map (fun _ => pnil) es). split; [apply map_length|]. intros M HM. destruct (D M HM). }
  destruct Hrt as (encs & Hlen & Hrt). exists encs. split; [exact C1|]. split; [exact Hlen|]. intros M HM.
  unfold write_field_array, read_field_array. rewrite C1, C2, Ht, Cl.
  rewrite arguments_ok_true by (intros i e Hi; destruct (Hes i e Hi) as (ps & Hps & _); eauto).
  pose proof (proj1 (proj2 Ha)) as Hs. rewrite Ht in Hs. cbn in Hs.
  destruct (Hrt M HM) as [H1 H2]. split; [exact H1|].
  eapply decodes_at_eq; [|exact H2]. intros r. symmetry. now apply object_read_ext.
Qed.

(** ** Fields *)

Lemma array_content : forall (Ms : methods -> Prop) ok fin E E' f len packed pk es,
  plain_ok Ms ok -> packed_ok Ms ok fin -> agree f E E' -> f_array f = Some (len, packed) ->
  valid_content ok fin pk E f (VArr es) ->
  exists enc, forall M, Ms M ->
    roundtrips_at (write_field_array M E f len (packed || pk) es) (read_field_array M E' f len (packed || pk)) enc es.
Proof.
  intros Ms ok fin E E' f len packed pk es HP HQ Ha Hf Hv. unfold valid_content in Hv. rewrite Hf in Hv.
  destruct Hv as (es' & He & Hl & Hv). injection He as <-. destruct (f_type f) as [t|id args] eqn:Ht.
  - destruct Hv as (Hc & Hb & Hes & Hi).
    destruct (basic_array_roundtrip no_methods no_methods E E' f t len packed (packed || pk) es Ha Hf Ht Hl Hc Hb Hes Hi)
      as (cfg & encs & _ & H).
    exists (array_bits cfg (map pfix encs)). intros M _.
    unfold write_field_array, read_field_array in *. rewrite Ht in *. exact H.
  - destruct Hv as (Hes & Hfin).
    destruct (object_array_roundtrip Ms ok fin E E' f id args len packed (packed || pk) es HP HQ Ha Hf Ht Hl Hes Hfin)
      as (cfg & encs & _ & _ & H).
    exists (array_bits cfg encs). exact H.
Qed.

Lemma content_plain : forall (Ms : methods -> Prop) ok fin E E' f v,
  plain_ok Ms ok -> packed_ok Ms ok fin -> agree f E E' -> valid_content ok fin false E f v ->
  exists enc, forall M, Ms M -> roundtrips_at (write_content M E f v) (read_content M E' f) enc v.
Proof.
  intros Ms ok fin E E' f v HP HQ Ha Hv. unfold write_content, read_content.
  destruct (f_array f) as [[len packed]|] eqn:Hf.
  - pose proof Hv as Hv0. unfold valid_content in Hv0. rewrite Hf in Hv0. destruct Hv0 as (es & -> & _ & _).
    destruct (array_content Ms ok fin E E' f len packed false es HP HQ Ha Hf Hv) as (enc & H). rewrite orb_false_r in H.
    exists enc. intros M HM. destruct (H M HM) as [H1 H2]. split; [exact H1|].
    eapply decodes_at_map; [exact H2|reflexivity].
  - unfold valid_content in Hv. rewrite Hf in Hv. destruct Ha as (_ & Hs & _). destruct (f_type f) as [t|id args] eqn:Ht.
    + destruct Hv as [Hv _]. destruct (basic_roundtrip E E' t v Hv Hs) as (bs & H). exists (pfix bs).
      intros M _. now apply roundtrips_pfix.
    + destruct Hv as (ps & Hps & Hok). cbn in Hs. rewrite <- Hs, Hps. now apply HP.
Qed.

Lemma field_content : forall (Ms : methods -> Prop) ok fin E E' f slot,
  plain_ok Ms ok -> packed_ok Ms ok fin -> agree f E E' -> valid_field ok fin false E f slot ->
  exists c, (forall v, slot = Some v -> forall M, Ms M -> roundtrips_at (write_content M E f v) (read_content M E' f) c v) /\
    forall M, Ms M -> roundtrips_at (write_field M E f slot) (read_field M E' f) (field_layout E f slot c) slot.
Proof.
  intros Ms ok fin E E' f slot HP HQ Ha (_ & stored & Hin & Hv). unfold write_field, read_field, field_layout.
  rewrite <- (proj1 Ha), Hin. destruct stored.
  2: { subst slot. exists pnil. split; [discriminate|]. intros M _. split; [apply encodes_at_ret|apply decodes_at_ret]. }
  destruct (align_opt_at (f_align f)) as [A1 A2]. destruct slot as [v|].
  - destruct (content_plain Ms ok fin E E' f v HP HQ Ha Hv) as (enc & H). exists enc.
    split; [now intros v' Hv'; injection Hv' as <-|]. destruct (f_optional f).
    + intros M HM. destruct (H M HM) as [H1 H2]. destruct (bool_at true) as [B1 B2]. split.
      * eapply encodes_at_bind; [exact A1|]. eapply encodes_at_bind; [exact B1|exact H1].
      * eapply decodes_at_bind; [exact A2|]. eapply decodes_at_bind; [exact B2|]. cbn.
        eapply decodes_at_map; [exact H2|reflexivity].
    + intros M HM. destruct (H M HM) as [H1 H2]. split.
      * eapply encodes_at_bind; [exact A1|exact H1].
      * eapply decodes_at_bind; [exact A2|]. eapply decodes_at_map; [exact H2|reflexivity].
  - rewrite Hv. exists pnil. split; [discriminate|]. intros M HM. destruct (bool_at false) as [B1 B2]. split.
    + eapply encodes_at_bind; [exact A1|]. eapply encodes_at_ext; [|eapply encodes_at_bind; [exact B1|apply encodes_at_ret]].
      apply papp_nil_r.
    + eapply decodes_at_bind; [exact A2|].
      eapply decodes_at_ext; [|eapply decodes_at_bind; [exact B2|cbn; apply decodes_at_ret]]. apply papp_nil_r.
Qed.

Lemma field_plain : forall (Ms : methods -> Prop) ok fin E E' f slot,
  plain_ok Ms ok -> packed_ok Ms ok fin -> agree f E E' -> valid_field ok fin false E f slot ->
  exists enc, forall M, Ms M -> roundtrips_at (write_field M E f slot) (read_field M E' f) enc slot.
Proof.
  intros Ms ok fin E E' f slot HP HQ Ha Hv. destruct (field_content Ms ok fin E E' f slot HP HQ Ha Hv) as (c & _ & H).
  eauto.
Qed.
