(** Facts about array objects that are used several times. *)

Require Import ZArith List Bool Lia ZifyBool ZifyNat.
From Verif Require Import Bits BitsFacts Stream Spec Scalars ScalarTable Traits TraitSpec TraitFacts Delta DeltaSpec DeltaFacts SizeFacts TraitThms
  Array ArraySpec ArrayFacts ArrayThms ArrayObjects ArrayObjectsSpec.
Import ListNotations.
Open Scope Z_scope.

(** ** Lists *)

Lemma replace_length : forall {X} (l : list X) i x, length (replace l i x) = length l.
Proof. intros X. induction l as [|y l IH]; intros [|i] x; cbn; [reflexivity..|]. now rewrite IH. Qed.

Lemma replace_same : forall {X} (l : list X) i x y, nth_error l i = Some y -> nth_error (replace l i x) i = Some x.
Proof. intros X. induction l as [|z l IH]; intros [|i] x y H; cbn in *; try discriminate; [reflexivity|]. eapply IH. exact H. Qed.

Lemma replace_other : forall {X} (l : list X) i j x, i <> j -> nth_error (replace l i x) j = nth_error l j.
Proof.
  intros X. induction l as [|z l IH]; intros [|i] [|j] x H; cbn; try reflexivity; try congruence. apply IH. congruence.
Qed.

Lemma nth_of_error : forall {X} (l : list X) i d, nth i l d = match nth_error l i with Some x => x | None => d end.
Proof. intros X. induction l as [|z l IH]; intros [|i] d; cbn; try reflexivity. apply IH. Qed.

(** ** The context of an object does not reach the stream *)

(** The same stream and outcome. *)
Definition alike {C S O} (p q : (C * S) * O) : Prop := snd (fst p) = snd (fst q) /\ snd p = snd q.

Lemma plain_write_elems : forall {A N} (K : elemops A N) cfg es i c1 c2 w, a_packed cfg = false ->
  alike (write_elems K cfg i es (c1, w)) (write_elems K cfg i es (c2, w)).
Proof.
  intros A N K cfg. induction es as [|e es IH]; intros i c1 c2 w Hp; [now split|].
  cbn [write_elems]. unfold write_elem. rewrite Hp. unfold sbind, signore, on_stream, sret.
  destruct (a_check cfg).
  - destruct (wbind (walign 8) (fun _ => wret tt) w) as [w1 [v|x| |]]; try (now split).
    destruct (k_write K i e w1) as [w2 [v'|x| |]]; try (now split); now apply IH.
  - destruct (k_write K i e w) as [w2 [v'|x| |]]; try (now split); now apply IH.
Qed.

Lemma marshal_alike : forall {A N} (K : elemops A N) cfg es c1 c2 w,
  alike (array_marshal K cfg es (c1, w)) (array_marshal K cfg es (c2, w)).
Proof.
  intros A N K cfg es c1 c2 w. unfold array_marshal.
  assert (Hmain : forall w1, alike
    ((match es with [] => sret tt | _ =>
      sbind (if a_packed cfg then sbind (new_context K) (fun _ => init_context K es) else sret tt) (fun _ => write_elems K cfg 0 es) end) (c1, w1))
    ((match es with [] => sret tt | _ =>
      sbind (if a_packed cfg then sbind (new_context K) (fun _ => init_context K es) else sret tt) (fun _ => write_elems K cfg 0 es) end) (c2, w1))).
  { intros w1. destruct es as [|e es]; [now split|]. set (l := e :: es). unfold sbind.
    destruct (a_packed cfg) eqn:Ep.
    - unfold new_context. destruct (k_create K) as [n|x| |]; cbn [snd fst]; now split.
    - unfold sret. now apply plain_write_elems. }
  unfold sbind at 1 4. destruct (a_auto cfg).
  - unfold on_stream. destruct (WriteVarsize (u64 (Z.of_nat (length es))) w) as [w1 [v|x| |]]; try (now split). apply Hmain.
  - apply Hmain.
Qed.

Lemma marshal_any_context : forall {A N} (K : elemops A N) cfg es c w,
  write_array K cfg es w = (snd (fst (array_marshal K cfg es (c, w))), snd (array_marshal K cfg es (c, w))).
Proof.
  intros A N K cfg es c w. unfold write_array, with_ctx. destruct (marshal_alike K cfg es c None w) as [H1 H2].
  rewrite H1, H2. now destruct (array_marshal K cfg es (None, w)) as [[c1 w1] o].
Qed.

(** Reading: the loop that keeps what it has read. *)
Lemma read_some_elems : forall {A N} (K : elemops A N) cfg n i s,
  let '(s', es, o) := read_some K cfg i n s in
  read_elems K cfg i n s = (s', match o with Ok _ => Ok es | Err x => Err x | Panic => Panic | NoFuel => NoFuel end).
Proof.
  intros A N K cfg. induction n as [|n IH]; intros i s; [reflexivity|]. cbn [read_some read_elems]. unfold sbind, sret.
  destruct (read_elem K cfg i s) as [s1 [e|x| |]]; try reflexivity. specialize (IH (S i) s1).
  destruct (read_some K cfg (S i) n s1) as [[s2 es] o]. rewrite IH. destruct o; reflexivity.
Qed.

Lemma plain_read_elems : forall {A N} (K : elemops A N) cfg n i c1 c2 r, a_packed cfg = false ->
  alike (read_elems K cfg i n (c1, r)) (read_elems K cfg i n (c2, r)).
Proof.
  intros A N K cfg. induction n as [|n IH]; intros i c1 c2 r Hp; [now split|].
  cbn [read_elems]. unfold read_elem. rewrite Hp. unfold sbind, on_stream, sret.
  destruct (a_check cfg).
  - destruct (rbind (ralign 8) (fun _ => rret tt) r) as [r1 [v|x| |]]; try (now split).
    destruct (k_read K i r1) as [r2 [v'|x| |]]; try (now split).
    destruct (IH (S i) c1 c2 r2 Hp) as [H1 H2].
    destruct (read_elems K cfg (S i) n (c1, r2)) as [[d1 s1] o1], (read_elems K cfg (S i) n (c2, r2)) as [[d2 s2] o2].
    cbn in H1, H2. subst s2 o2. destruct o1; now split.
  - destruct (k_read K i r) as [r2 [v'|x| |]]; try (now split).
    destruct (IH (S i) c1 c2 r2 Hp) as [H1 H2].
    destruct (read_elems K cfg (S i) n (c1, r2)) as [[d1 s1] o1], (read_elems K cfg (S i) n (c2, r2)) as [[d2 s2] o2].
    cbn in H1, H2. subst s2 o2. destruct o1; now split.
Qed.

Lemma unmarshal_eq : forall {A} (T : traits A) cfg c r,
  read_array (trait_ops T) cfg r =
  match read_length cfg r with
  | (r1, Ok size) =>
      if size <? 0 then (r1, Panic) else if size =? 0 then (r1, Ok [])
      else match read_some (trait_ops T) cfg 0 (Z.to_nat size) (if a_packed cfg then Some d_empty else c, r1) with
           | ((_, r2), es, o) => (r2, match o with Ok _ => Ok es | Err x => Err x | Panic => Panic | NoFuel => NoFuel end)
           end
  | (r1, Err x) => (r1, Err x)
  | (r1, Panic) => (r1, Panic)
  | (r1, NoFuel) => (r1, NoFuel)
  end.
Proof.
  intros A T cfg c r. unfold read_array, with_ctx, array_unmarshal, read_length.
  assert (Hmain : forall size r1,
    match (if size <? 0 then (fun s => (s, Panic)) else if size =? 0 then sret []
      else sbind (if a_packed cfg then new_context (trait_ops T) else sret tt) (fun _ => read_elems (trait_ops T) cfg 0 (Z.to_nat size))) (None, r1)
    with ((_, s'), o) => (s', o) end =
    if size <? 0 then (r1, Panic) else if size =? 0 then (r1, Ok [])
      else match read_some (trait_ops T) cfg 0 (Z.to_nat size) (if a_packed cfg then Some d_empty else c, r1) with
           | ((_, r2), es, o) => (r2, match o with Ok _ => Ok es | Err x => Err x | Panic => Panic | NoFuel => NoFuel end)
           end).
  { intros size r1. destruct (size <? 0); [reflexivity|]. destruct (size =? 0); [reflexivity|]. unfold sbind, sret.
    pose proof (read_some_elems (trait_ops T) cfg (Z.to_nat size) 0 (if a_packed cfg then Some d_empty else c, r1)) as H.
    destruct (read_some (trait_ops T) cfg 0 (Z.to_nat size) (if a_packed cfg then Some d_empty else c, r1)) as [[[c2 r2] es] o].
    destruct (a_packed cfg) eqn:Ep.
    - unfold new_context. cbn [trait_ops k_create snd]. now rewrite H.
    - destruct (plain_read_elems (trait_ops T) cfg (Z.to_nat size) 0 None c r1 Ep) as [H1 H2]. rewrite H in H1, H2.
      destruct (read_elems (trait_ops T) cfg 0 (Z.to_nat size) (None, r1)) as [[d1 s1] o1]. cbn in H1, H2. now subst. }
  unfold sbind at 1. destruct (a_auto cfg).
  - unfold on_stream. destruct (rbind ReadVarsize (fun v => rret (i64 v)) r) as [r1 [v|x| |]]; try reflexivity. apply Hmain.
  - apply Hmain.
Qed.

(** ** Memories that a program can reach *)

(** Objects refer to slices and contexts that exist. *)
Definition well {A} (m : memory A) : Prop :=
  forall a o, nth_error (m_objects m) a = Some o ->
    (o_raw o < length (m_slices m))%nat /\
    (forall p, o_context o = Some p -> (p < length (m_contexts m))%nat) /\
    (a_packed (o_cfg o) = false -> o_context o = None).

Lemma well_new : forall {A} (l : list (acfg * list A)), well (new_objects l).
Proof.
  intros A l a o H. cbn [new_objects m_objects m_slices m_contexts] in *. rewrite nth_error_map in H.
  destruct (nth_error (combine (seq 0 (length l)) l) a) as [[i [cfg es]]|] eqn:E; [|discriminate].
  injection H as <-. cbn. apply nth_error_In in E. apply in_combine_l in E. apply in_seq in E.
  rewrite map_length. split; [lia|]. split; [discriminate|trivial].
Qed.

Lemma nth_replace : forall {X} (l : list X) i x j y, nth_error (replace l i x) j = Some y ->
  (i = j /\ y = x) \/ nth_error l j = Some y.
Proof.
  intros X l i x j y H. destruct (Nat.eq_dec i j) as [->|Hn].
  - left. split; [reflexivity|]. destruct (nth_error l j) as [z|] eqn:E.
    + rewrite (replace_same l j x z E) in H. congruence.
    + apply nth_error_None in E. assert (Hl : (length (replace l j x) <= j)%nat) by (rewrite replace_length; lia).
      apply nth_error_None in Hl. congruence.
  - right. now rewrite replace_other in H by exact Hn.
Qed.

Lemma well_store_new : forall {A} (m : memory A) a o c, well m -> nth_error (m_objects m) a = Some o ->
  a_packed (o_cfg o) = true -> well (store_new m a o c).
Proof.
  intros A m a o [d|] Hw Ho Hp; [|exact Hw]. intros b o' H. cbn [store_new m_objects m_slices m_contexts] in *.
  rewrite app_length. cbn [length]. apply nth_replace in H as [[<- ->]|H].
  - cbn. split; [exact (proj1 (Hw a o Ho))|]. split; [intros p Hc; injection Hc as <-; lia|congruence].
  - destruct (Hw b o' H) as (H1 & H2 & H3). split; [exact H1|]. split; [|exact H3]. intros p Hc. specialize (H2 p Hc). lia.
Qed.

Lemma well_store_old : forall {A} (m : memory A) o c, well m -> well (store_old m o c).
Proof.
  intros A m o c Hw. unfold store_old. destruct (o_context o) as [p|]; [|exact Hw]. destruct c as [d|]; [|exact Hw].
  intros b o' H. cbn [m_objects m_slices m_contexts] in *. rewrite replace_length. exact (Hw b o' H).
Qed.

Lemma well_store_raw : forall {A} (m : memory A) a es, well m -> well (store_raw m a es).
Proof.
  intros A m a es Hw. unfold store_raw. destruct (nth_error (m_objects m) a) as [o|] eqn:Ho; [|exact Hw].
  intros b o' H. cbn [m_objects m_slices m_contexts] in *. rewrite app_length. cbn [length].
  apply nth_replace in H as [[<- ->]|H].
  - cbn. destruct (Hw a o Ho) as (H1 & H2 & H3). split; [lia|]. now split.
  - destruct (Hw b o' H) as (H1 & H2 & H3). split; [lia|]. now split.
Qed.

Lemma makes_packed : forall {A} cfg (es : list A) w, makes_context cfg es w = true -> a_packed cfg = true.
Proof. intros A cfg [|e es] w H; [discriminate|]. cbn in H. now apply andb_true_iff in H as [H _]. Qed.

Lemma well_run : forall {A} (T : traits A) m c, well m -> well (fst (run T m c)).
Proof.
  intros A T m c Hw. destruct c as [a w|a r|a pos|a pos|a|a i v|a es]; cbn [run];
    destruct (nth_error (m_objects m) a) as [o|] eqn:Ho; try exact Hw.
  - destruct (array_marshal (trait_ops T) (o_cfg o) (elements m o) (context m o, w)) as [[c' w'] out]. cbn [fst].
    destruct (makes_context _ _ _) eqn:Em; [|exact Hw]. apply well_store_new; [exact Hw|exact Ho|]. exact (makes_packed _ _ _ Em).
  - destruct (read_length (o_cfg o) r) as [r1 [size|x| |]]; try exact Hw. destruct (size <? 0); [exact Hw|].
    destruct (size =? 0); [now apply well_store_raw|].
    destruct (read_some _ _ _ _ _) as [[[c' r2] es] out]. cbn [fst]. apply well_store_raw, well_store_old.
    destruct (a_packed (o_cfg o)) eqn:Ep; [now apply well_store_new|exact Hw].
  - destruct (array_bitsize_packed T (o_cfg o) (elements m o) (context m o) pos) as [c' out]. cbn [fst]. now apply well_store_old.
  - intros b o' H. cbn [fst m_objects m_slices m_contexts] in *. destruct (Nat.ltb b (length (m_objects m))) eqn:El.
    + rewrite nth_error_app1 in H by (apply Nat.ltb_lt; exact El). exact (Hw b o' H).
    + apply Nat.ltb_ge in El. rewrite nth_error_app2 in H by exact El.
      destruct (b - length (m_objects m))%nat as [|[|k]]; try discriminate. injection H as <-. exact (Hw a o Ho).
  - destruct (Nat.ltb i (length (elements m o))); [|exact Hw]. intros b o' H. cbn [fst m_objects m_slices m_contexts] in *.
    rewrite replace_length. exact (Hw b o' H).
  - now apply well_store_raw.
Qed.

Lemma well_run_all : forall {A} (T : traits A) l m, well m -> well (run_all T m l).
Proof. intros A T. induction l as [|c l IH]; intros m Hw; [exact Hw|]. apply IH. now apply well_run. Qed.

Lemma well_reached : forall {A} (T : traits A) l history, well (run_all T (new_objects l) history).
Proof. intros A T l history. apply well_run_all, well_new. Qed.

(** ** What the calls change *)

Lemma view_store_new : forall {A} (m : memory A) a o c b, nth_error (m_objects m) a = Some o ->
  view (store_new m a o c) b = view m b.
Proof.
  intros A m a o [d|] b Ho; [|reflexivity]. unfold view, store_new, elements. cbn [m_objects m_slices].
  destruct (Nat.eq_dec a b) as [<-|Hn].
  - rewrite (replace_same _ _ _ o Ho), Ho. reflexivity.
  - now rewrite replace_other by exact Hn.
Qed.

Lemma view_store_old : forall {A} (m : memory A) o c b, view (store_old m o c) b = view m b.
Proof. intros A m o c b. unfold store_old. destruct (o_context o), c; reflexivity. Qed.

Lemma view_store_raw : forall {A} (m : memory A) a es b, well m -> b <> a -> view (store_raw m a es) b = view m b.
Proof.
  intros A m a es b Hw Hn. unfold store_raw. destruct (nth_error (m_objects m) a) as [o|] eqn:Ho; [|reflexivity].
  unfold view, elements. cbn [m_objects m_slices]. rewrite replace_other by congruence.
  destruct (nth_error (m_objects m) b) as [o'|] eqn:Hb; [|reflexivity]. rewrite app_nth1; [reflexivity|]. exact (proj1 (Hw b o' Hb)).
Qed.

Lemma view_store_raw_same : forall {A} (m : memory A) a o es, nth_error (m_objects m) a = Some o ->
  view (store_raw m a es) a = Some (o_cfg o, es).
Proof.
  intros A m a o es Ho. unfold store_raw. rewrite Ho. unfold view, elements. cbn [m_objects m_slices].
  rewrite (replace_same _ _ _ o Ho). cbn. now rewrite nth_middle.
Qed.

Lemma view_object : forall {A} (m : memory A) a cfg es, view m a = Some (cfg, es) ->
  exists o, nth_error (m_objects m) a = Some o /\ o_cfg o = cfg /\ elements m o = es.
Proof.
  intros A m a cfg es H. unfold view in H. destruct (nth_error (m_objects m) a) as [o|] eqn:E; [|discriminate].
  injection H as <- <-. now exists o.
Qed.

Lemma run_marshal : forall {A} (T : traits A) m a cfg es w, view m a = Some (cfg, es) ->
  exists m', run T m (Marshal a w) = (m', let (w', o) := write_array (trait_ops T) cfg es w in Wrote w' o) /\
    forall b, view m' b = view m b.
Proof.
  intros A T m a cfg es w H. apply view_object in H as (o & Ho & <- & <-). cbn [run]. rewrite Ho.
  rewrite (marshal_any_context (trait_ops T) (o_cfg o) (elements m o) (context m o) w).
  destruct (array_marshal (trait_ops T) (o_cfg o) (elements m o) (context m o, w)) as [[c' w'] out]. cbn [fst snd].
  eexists. split; [reflexivity|]. intros b. destruct (makes_context _ _ _); [|reflexivity]. now apply view_store_new.
Qed.

Lemma run_unmarshal : forall {A} (T : traits A) m a cfg es r, well m -> view m a = Some (cfg, es) ->
  exists m', run T m (Unmarshal a r) = (m', let (r', o) := read_array (trait_ops T) cfg r in Has_read r' (forget o)) /\
    (forall r' es', read_array (trait_ops T) cfg r = (r', Ok es') -> view m' a = Some (cfg, es')) /\
    forall b, b <> a -> view m' b = view m b.
Proof.
  intros A T m a cfg es r Hw H. apply view_object in H as (o & Ho & <- & <-). cbn [run]. rewrite Ho.
  rewrite (unmarshal_eq T (o_cfg o) (context m o) r).
  destruct (read_length (o_cfg o) r) as [r1 [size|x| |]]; try (eexists; split; [reflexivity|]; split; [intros; discriminate|now intros]).
  destruct (size <? 0); [eexists; split; [reflexivity|]; split; [intros; discriminate|now intros]|].
  destruct (size =? 0).
  { eexists. split; [reflexivity|]. split; [|intros b Hb; now apply view_store_raw].
    intros r' es' He. injection He as _ <-. now apply view_store_raw_same. }
  destruct (read_some _ _ _ _ _) as [[[c' r2] es1] out]. eexists. split; [apply f_equal2; [reflexivity|destruct out as [[]|x| |]; reflexivity]|].
  set (m1 := if a_packed (o_cfg o) then store_new m a o (Some d_empty) else m).
  set (o1 := match nth_error (m_objects m1) a with Some o1 => o1 | None => o end).
  assert (Hw1 : well m1).
  { subst m1. destruct (a_packed (o_cfg o)) eqn:Ep; [now apply well_store_new|exact Hw]. }
  assert (Hv1 : forall b, view m1 b = view m b).
  { intros b. subst m1. destruct (a_packed (o_cfg o)); [now apply view_store_new|reflexivity]. }
  set (m2 := store_old m1 o1 _).
  assert (Hv2 : forall b, view m2 b = view m b) by (intros b; subst m2; rewrite view_store_old; apply Hv1).
  split.
  - intros r' es' He. destruct out; try discriminate. injection He as _ <-.
    assert (Hc : view m2 a = Some (o_cfg o, elements m o)) by (rewrite Hv2; unfold view; now rewrite Ho).
    apply view_object in Hc as (o2 & Ho2 & <- & _). now apply view_store_raw_same.
  - intros b Hb. rewrite view_store_raw; [apply Hv2| |exact Hb]. subst m2. now apply well_store_old.
Qed.

Lemma run_sizes : forall {A} (T : traits A) m a cfg es pos, view m a = Some (cfg, es) ->
  run T m (BitSize a pos) = (m, Size (array_bitsize T cfg es pos)) /\
  forall b, view (fst (run T m (BitSizePacked a pos))) b = view m b.
Proof.
  intros A T m a cfg es pos H. apply view_object in H as (o & Ho & <- & <-). cbn [run]. rewrite Ho. split; [reflexivity|].
  intros b. destruct (array_bitsize_packed T (o_cfg o) (elements m o) (context m o) pos) as [c' out]. cbn [fst].
  apply view_store_old.
Qed.

Lemma run_assign : forall {A} (T : traits A) m a cfg es es', well m -> view m a = Some (cfg, es) ->
  exists m', run T m (Assign a es') = (m', Done) /\ view m' a = Some (cfg, es') /\ forall b, b <> a -> view m' b = view m b.
Proof.
  intros A T m a cfg es es' Hw H. apply view_object in H as (o & Ho & <- & <-). cbn [run]. rewrite Ho.
  eexists. split; [reflexivity|]. split; [now apply view_store_raw_same|]. intros b Hb. now apply view_store_raw.
Qed.

Lemma run_clone : forall {A} (T : traits A) m a cfg es, view m a = Some (cfg, es) ->
  exists m' b, run T m (Clone a) = (m', Made b) /\ view m b = None /\ view m' b = Some (cfg, es) /\
    forall b', b' <> b -> view m' b' = view m b'.
Proof.
  intros A T m a cfg es H. apply view_object in H as (o & Ho & <- & <-). cbn [run]. rewrite Ho.
  eexists. eexists. split; [reflexivity|]. split; [|split].
  - unfold view. now rewrite (proj2 (nth_error_None _ _) (le_n _)).
  - unfold view, elements. cbn [m_objects m_slices]. rewrite nth_error_app2, Nat.sub_diag by apply le_n. reflexivity.
  - intros b' Hb. unfold view, elements. cbn [m_objects m_slices]. destruct (Nat.ltb b' (length (m_objects m))) eqn:El.
    + now rewrite nth_error_app1 by (apply Nat.ltb_lt; exact El).
    + apply Nat.ltb_ge in El. rewrite nth_error_app2 by exact El. rewrite (proj2 (nth_error_None (m_objects m) b')) by exact El.
      destruct (b' - length (m_objects m))%nat as [|k] eqn:Ek; [lia|]. cbn. now destruct k.
Qed.

(** Assignment to an element. *)
Lemma run_set : forall {A} (T : traits A) m a i v cfg es, well m -> view m a = Some (cfg, es) -> (i < length es)%nat ->
  exists m', run T m (Set_ a i v) = (m', Done) /\ m_objects m' = m_objects m /\
    forall b o o', nth_error (m_objects m) a = Some o -> nth_error (m_objects m) b = Some o' ->
      view m' b = if Nat.eqb (o_raw o') (o_raw o) then Some (o_cfg o', replace es i v) else view m b.
Proof.
  intros A T m a i v cfg es Hw H Hi. apply view_object in H as (o & Ho & <- & <-). cbn [run]. rewrite Ho.
  replace (Nat.ltb i (length (elements m o))) with true by lia.
  eexists. split; [reflexivity|]. split; [reflexivity|]. intros b o0 o' H0 Hb. assert (o0 = o) as -> by congruence.
  unfold view. cbn [m_objects]. rewrite Hb. destruct (Nat.eqb (o_raw o') (o_raw o)) eqn:E.
  - apply Nat.eqb_eq in E. unfold elements at 1. cbn [m_slices]. rewrite E, nth_of_error.
    destruct (nth_error (m_slices m) (o_raw o)) as [x|] eqn:Ex.
    + now rewrite (replace_same _ _ _ x Ex).
    + apply nth_error_None in Ex. pose proof (proj1 (Hw a o Ho)). lia.
  - apply Nat.eqb_neq in E. f_equal. f_equal. unfold elements at 1 3. cbn [m_slices]. rewrite !nth_of_error.
    now rewrite replace_other by congruence.
Qed.

(** Objects have slices of their own when nothing has been copied. *)
Definition apart {A} (m : memory A) : Prop :=
  forall a b o o', nth_error (m_objects m) a = Some o -> nth_error (m_objects m) b = Some o' -> a <> b -> o_raw o <> o_raw o'.

Lemma nth_combine_seq : forall {X} (l : list X) s i, nth_error (combine (seq s (length l)) l) i =
  match nth_error l i with Some x => Some ((s + i)%nat, x) | None => None end.
Proof.
  intros X. induction l as [|x l IH]; intros s [|i]; cbn; try reflexivity; [now rewrite Nat.add_0_r|].
  rewrite IH. replace (S s + i)%nat with (s + S i)%nat by lia. reflexivity.
Qed.

Lemma apart_new : forall {A} (l : list (acfg * list A)), apart (new_objects l).
Proof.
  intros A l a b o o' Ha Hb Hn. cbn [new_objects m_objects] in *. rewrite nth_error_map, nth_combine_seq in Ha, Hb.
  destruct (nth_error l a) as [[c1 e1]|]; [|discriminate]. destruct (nth_error l b) as [[c2 e2]|]; [|discriminate].
  injection Ha as <-. injection Hb as <-. cbn. lia.
Qed.

Lemma apart_same_raw : forall {A} (m m' : memory A), apart m ->
  (forall a o', nth_error (m_objects m') a = Some o' -> exists o, nth_error (m_objects m) a = Some o /\ o_raw o' = o_raw o) -> apart m'.
Proof.
  intros A m m' H Hs a b o o' Ha Hb Hn. apply Hs in Ha as (o1 & Ha & ->). apply Hs in Hb as (o2 & Hb & ->).
  now apply (H a b).
Qed.

Lemma apart_store_new : forall {A} (m : memory A) a o c, apart m -> nth_error (m_objects m) a = Some o -> apart (store_new m a o c).
Proof.
  intros A m a o [d|] H Ho; [|exact H]. apply (apart_same_raw m); [exact H|]. intros b o' Hb. cbn [store_new m_objects] in Hb.
  apply nth_replace in Hb as [[<- ->]|Hb]; [now exists o|now exists o'].
Qed.

Lemma apart_store_old : forall {A} (m : memory A) o c, apart m -> apart (store_old m o c).
Proof. intros A m o c H. unfold store_old. destruct (o_context o), c; exact H. Qed.

Lemma apart_store_raw : forall {A} (m : memory A) a es, well m -> apart m -> apart (store_raw m a es).
Proof.
  intros A m a es Hw H. unfold store_raw. destruct (nth_error (m_objects m) a) as [o|] eqn:Ho; [|exact H].
  intros b b' x y Hb Hb' Hn. cbn [m_objects] in *. apply nth_replace in Hb as [[<- ->]|Hb]; apply nth_replace in Hb' as [[<- ->]|Hb'].
  - congruence.
  - cbn. pose proof (proj1 (Hw b' y Hb')). lia.
  - cbn. pose proof (proj1 (Hw b x Hb)). lia.
  - now apply (H b b').
Qed.

Lemma apart_run : forall {A} (T : traits A) m c, well m -> apart m -> not_clone c -> apart (fst (run T m c)).
Proof.
  intros A T m c Hw H Hn. destruct c as [a w|a r|a pos|a pos|a|a i v|a es]; cbn [run];
    destruct (nth_error (m_objects m) a) as [o|] eqn:Ho; try exact H.
  - destruct (array_marshal (trait_ops T) (o_cfg o) (elements m o) (context m o, w)) as [[c' w'] out]. cbn [fst].
    destruct (makes_context _ _ _) eqn:Em; [|exact H]. now apply apart_store_new.
  - destruct (read_length (o_cfg o) r) as [r1 [size|x| |]]; try exact H. destruct (size <? 0); [exact H|].
    destruct (size =? 0); [now apply apart_store_raw|].
    destruct (read_some _ _ _ _ _) as [[[c' r2] es] out]. cbn [fst].
    set (m1 := if a_packed (o_cfg o) then store_new m a o (Some d_empty) else m).
    assert (Hw1 : well m1 /\ apart m1).
    { subst m1. destruct (a_packed (o_cfg o)) eqn:Ep; [split; [now apply well_store_new|now apply apart_store_new]|now split]. }
    apply apart_store_raw; [now apply well_store_old|now apply apart_store_old].
  - destruct (array_bitsize_packed T (o_cfg o) (elements m o) (context m o) pos) as [c' out]. cbn [fst]. now apply apart_store_old.
  - contradiction.
  - destruct (Nat.ltb i (length (elements m o))); exact H.
  - now apply apart_store_raw.
Qed.

Lemma apart_reached : forall {A} (T : traits A) l history, Forall not_clone history -> apart (run_all T (new_objects l) history).
Proof.
  intros A T l history. assert (H : forall h m, well m -> apart m -> Forall not_clone h -> apart (run_all T m h)).
  { induction h as [|c h IH]; intros m Hw H Hn; [exact H|]. apply Forall_cons_iff in Hn as [Hc Hn]. cbn [run_all].
    apply IH; [now apply well_run|now apply apart_run|exact Hn]. }
  intros Hn. apply H; [apply well_new|apply apart_new|exact Hn].
Qed.

Lemma run_independent : forall {A} (T : traits A) m c b, well m -> apart m -> not_clone c -> b <> target c ->
  view (fst (run T m c)) b = view m b.
Proof.
  intros A T m c b Hw Ha Hn Hb. destruct (view m (target c)) as [[cfg es]|] eqn:Hv.
  2:{ unfold view in Hv. destruct c; cbn [target] in *; cbn [run];
        destruct (nth_error (m_objects m) a) as [o|]; try discriminate; reflexivity. }
  destruct c as [a w|a r|a pos|a pos|a|a i v|a es']; cbn [target] in *.
  - destruct (run_marshal T m a cfg es w Hv) as (m' & -> & H). apply H.
  - destruct (run_unmarshal T m a cfg es r Hw Hv) as (m' & -> & _ & H). now apply H.
  - now destruct (run_sizes T m a cfg es pos Hv) as [-> _].
  - now destruct (run_sizes T m a cfg es pos Hv) as [_ H].
  - contradiction.
  - destruct (Nat.ltb i (length es)) eqn:Ei.
    + destruct (run_set T m a i v cfg es Hw Hv ltac:(lia)) as (m' & Hr & Hobj & H). rewrite Hr. cbn [fst].
      apply view_object in Hv as (o & Ho & _ & _). destruct (nth_error (m_objects m) b) as [o'|] eqn:Hob.
      * rewrite (H b o o' Ho Hob). replace (Nat.eqb (o_raw o') (o_raw o)) with false; [reflexivity|].
        symmetry. apply Nat.eqb_neq. now apply (Ha b a).
      * unfold view. now rewrite Hobj, Hob.
    + apply view_object in Hv as (o & Ho & _ & <-). cbn [run]. rewrite Ho, Ei. reflexivity.
  - destruct (run_assign T m a cfg es es' Hw Hv) as (m' & -> & _ & H). now apply H.
Qed.

(** ** The packed size *)

Lemma d_write_context : forall {A} (T : traits A) e d w, let d' := fst (fst (d_write T e (d, w))) in
  d_started d' = true /\ d_max d' = d_max d /\
  d_packed d' = (if d_started d then d_packed d else d_packed (finishInit d)).
Proof.
  intros A T e d w. unfold d_write, get_ctx, sbind. cbn [fst]. destruct (d_started d) eqn:Es; cbn [negb].
  - destruct (d_packed d) eqn:Ep; cbn [negb].
    + destruct (0 <? d_max d); [|cbn; auto]. destruct (d_prev d) as [p|]; [|cbn; auto]. unfold on_stream.
      destruct (write_bits _ _ w) as [w1 [v|x| |]]; cbn; auto.
    + unfold writeUnpacked, sbind, on_ctx, on_stream. destruct (t_write T e w) as [w1 o]. cbn. auto.
  - unfold on_ctx, on_stream. rewrite finishInit_started. destruct (finishInit_fields d) as (F1 & F2 & F3).
    destruct (WriteDescriptor _ w) as [w1 [v|x| |]]; cbn; auto.
    unfold writeUnpacked, sbind, on_ctx, on_stream. destruct (t_write T e w1) as [w2 o]. cbn. auto.
Qed.

Lemma write_elems_started : forall {A} (T : traits A) cfg es i d w, a_packed cfg = true -> a_check cfg = false ->
  d_started d = true ->
  exists d', fst (fst (write_elems (trait_ops T) cfg i es (Some d, w))) = Some d' /\
    d_started d' = true /\ d_max d' = d_max d /\ d_packed d' = d_packed d.
Proof.
  intros A T cfg. induction es as [|e es IH]; intros i d w Hp Hc Hs; [now exists d|].
  cbn [write_elems]. unfold write_elem. rewrite Hp, Hc. unfold sbind, sret, signore, on_packed.
  cbn [trait_ops k_pwrite]. pose proof (d_write_context T e d w) as H. rewrite Hs in H. cbv zeta in H.
  destruct (d_write T e (d, w)) as [[d1 w1] o]. cbn [fst] in H. destruct H as (H1 & H2 & H3).
  destruct o; try (exists d1; now rewrite <- H2, <- H3); rewrite <- H2, <- H3; now apply IH.
Qed.

Lemma write_elems_context : forall {A} (T : traits A) cfg e es i d w, a_packed cfg = true -> a_check cfg = false ->
  d_started d = false ->
  exists d', fst (fst (write_elems (trait_ops T) cfg i (e :: es) (Some d, w))) = Some d' /\
    d_started d' = true /\ d_max d' = d_max d /\ d_packed d' = d_packed (finishInit d).
Proof.
  intros A T cfg e es i d w Hp Hc Hs.
  cbn [write_elems]. unfold write_elem. rewrite Hp, Hc. unfold sbind, sret, signore, on_packed.
  cbn [trait_ops k_pwrite]. pose proof (d_write_context T e d w) as H. rewrite Hs in H. cbv zeta in H.
  destruct (d_write T e (d, w)) as [[d1 w1] o]. cbn [fst] in H. destruct H as (H1 & H2 & H3).
  destruct o; try (exists d1; now rewrite <- H2, <- H3); rewrite <- H2, <- H3; now apply (write_elems_started T cfg es).
Qed.

Lemma packed_sizes_all : forall {A} (T : traits A) cfg es c pos c' s, a_set cfg = false ->
  d_bitsize_all T es c = (c', Ok s) -> packed_sizes T cfg es c pos = (c', Ok (pos + s)).
Proof.
  intros A T cfg. induction es as [|e es IH]; intros c pos c' s Hs H; cbn [d_bitsize_all packed_sizes] in *.
  - injection H as <- <-. now rewrite Z.add_0_r.
  - rewrite Hs. destruct (d_bitsize T e c) as [c1 [s1|x| |]]; try discriminate.
    destruct (d_bitsize_all T es c1) as [c2 [s2|x| |]] eqn:E; try discriminate. injection H as <- <-.
    rewrite (IH c1 (pos + s1) c2 s2 Hs E). f_equal. f_equal. lia.
Qed.

Lemma marshal_context : forall {A} (T : traits A) cfg e es c w,
  a_packed cfg = true -> a_check cfg = false -> Forall (sized T) (e :: es) -> Forall (numbered T) (e :: es) ->
  makes_context cfg (e :: es) w = true ->
  let sizes := map (size_of T) (e :: es) in let m := width (t_as T e) (map (t_as T) es) in
  exists d, fst (fst (array_marshal (trait_ops T) cfg (e :: es) (c, w))) = Some d /\
    d_started d = true /\ 0 <= d_max d /\ d_packed d = packs sizes m /\ (packs sizes m = true -> d_max d = m).
Proof.
  intros A T cfg e es c w Hp Hc Hs Hn Hm sizes m.
  pose proof (init_all T e es Hs Hn) as Hi. cbv zeta in Hi. set (c0 := mkD _ _ _ _ _ _ _) in Hi.
  destruct (finish_packed T e es c0 Hs Hn Hi) as (P1 & P2 & P3). fold sizes m in P1, P2.
  assert (Hmain : forall w1, exists d,
    fst (fst (sbind (sbind (new_context (trait_ops T)) (fun _ => init_context (trait_ops T) (e :: es)))
      (fun _ => write_elems (trait_ops T) cfg 0 (e :: es)) (c, w1))) = Some d /\
    d_started d = true /\ 0 <= d_max d /\ d_packed d = packs sizes m /\ (packs sizes m = true -> d_max d = m)).
  { intros w1. unfold sbind, new_context, init_context. cbn [trait_ops k_create snd].
    change (mkOps _ _ _ _ _ _) with (trait_ops T). rewrite (init_trait_elems T (e :: es) d_empty c0 0 Hi).
    destruct (write_elems_context T cfg e es 0 c0 w1 Hp Hc P3) as (d & H1 & H2 & H3 & H4).
    exists d. split; [exact H1|]. split; [exact H2|]. split.
    - rewrite H3. subst c0. cbn [d_max]. pose proof (mx_ge (map (t_as T) es) 0 (t_as T e)). lia.
    - split; [now rewrite H4|]. intros Hk. rewrite H3. apply P2. now rewrite P1. }
  unfold array_marshal. unfold sbind at 1. rewrite Hp. unfold makes_context in Hm. rewrite Hp in Hm. cbn [andb] in Hm.
  destruct (a_auto cfg).
  - unfold on_stream. destruct (WriteVarsize (u64 (Z.of_nat (length (e :: es)))) w) as [w1 [v|x| |]]; cbn [snd] in Hm; try discriminate.
    apply Hmain.
  - unfold sret at 1. apply Hmain.
Qed.

Lemma varsize_no_faults : forall n w, 0 <= n <= MaxVarsize -> wfaults w = [] -> snd (WriteVarsize n w) = Ok tt.
Proof.
  intros n w Hn Hw. destruct (varsize_len n Hn) as (bs & s & He & _ & _). now rewrite (He w Hw).
Qed.

Lemma width_of : forall {A} (T : traits A) e es m, delta_width (map (t_as T) (e :: es)) m ->
  m = width (t_as T e) (map (t_as T) es).
Proof. intros A T e es m H. eapply delta_width_unique; [exact H|]. apply width_delta_width. Qed.

Lemma packed_written_length : forall b cfg e es m, wf_builtin b -> integer_like b -> Forall (in_range b) (e :: es) ->
  Forall (size_right b) (e :: es) -> a_packed cfg = true -> a_check cfg = false -> holds cfg (length (e :: es)) ->
  delta_width (map (t_as (traits_of b)) (e :: es)) m ->
  let sizes := map (size_of (traits_of b)) (e :: es) in
  Z.of_nat (length (output (write_array (trait_ops (traits_of b)) cfg (e :: es)))) =
    Z.of_nat (length (length_bits cfg (length (e :: es)))) + (1 + if packs sizes m then packed_size sizes m else plain_size sizes).
Proof.
  intros b cfg e es m Hb Hi Hes Hr Hp Hc Hh Hm sizes.
  destruct (packed_integers b cfg (e :: es) Hb Hi Hes Hp Hh) as (encs & Hl & [Hw _] & Hx).
  specialize (Hx m ltac:(discriminate) Hm).
  unfold output at 1. rewrite (Hw (mkW [] []) eq_refl). cbn [fst wbits app].
  rewrite array_bits_plain by exact Hc. rewrite Hl, app_length, Nat2Z.inj_add, Hx. f_equal.
  apply delta_wire_length; [exact (proj1 Hm)|].
  rewrite Forall_forall in *. intros x Hin. unfold size_of.
  now rewrite (proj2 (builtin_size_right b x Hb (Hes x Hin)) (Hr x Hin)).
Qed.

Lemma run_packed_after_marshal : forall b mem a cfg es m w pos,
  let T := traits_of b in
  well mem -> view mem a = Some (cfg, es) -> es <> [] -> wf_builtin b -> integer_like b ->
  Forall (in_range b) es -> Forall (size_right b) es -> a_packed cfg = true -> a_check cfg = false -> a_set cfg = false ->
  holds cfg (length es) -> length_size_right cfg (length es) -> wfaults w = [] -> delta_width (map (t_as T) es) m ->
  snd (run T (fst (run T mem (Marshal a w))) (BitSizePacked a pos)) =
    Size (Ok (Z.of_nat (length (output (write_array (trait_ops T) cfg es))) - left_out (map (size_of T) es) m)).
Proof.
  intros b mem a cfg es m w pos T Hwell Hv Hne Hb Hi Hes Hr Hp Hc Hset Hh Hl Hw Hm.
  destruct es as [|e es]; [congruence|]. clear Hne.
  assert (Hbl : builtin_list b (e :: es)) by (split; [exact Hb|split; [exact Hi|exact Hes]]).
  pose proof (number_ok_numbered _ _ (builtin_numbers b (e :: es) Hbl)) as Hnum.
  pose proof (builtin_sizes b (e :: es) Hbl) as Hsz.
  assert (Hlen : a_auto cfg = true -> Z.of_nat (length (e :: es)) <= MaxVarsize).
  { intros Ha. unfold holds in Hh. now rewrite Ha in Hh. }
  assert (Hmk : makes_context cfg (e :: es) w = true).
  { unfold makes_context. rewrite Hp. cbn [andb]. destruct (a_auto cfg); [|reflexivity]. specialize (Hlen eq_refl).
    unfold u64. rewrite to_u_small by (unfold MaxVarsize in Hlen; lia). now rewrite varsize_no_faults by (assumption || lia). }
  apply view_object in Hv as (o & Ho & Hcfg & Hel).
  destruct (marshal_context T cfg e es (context mem o) w Hp Hc Hsz Hnum Hmk) as (d & H1 & H2 & H3 & H4 & H5).
  rewrite <- (width_of T e es m Hm) in H4, H5. set (sizes := map (size_of T) (e :: es)) in *.
  cbn [run]. rewrite Ho, Hcfg, Hel, Hmk.
  destruct (array_marshal (trait_ops T) cfg (e :: es) (context mem o, w)) as [[c' w'] out]. cbn [fst] in H1. subst c'. cbn [fst].
  set (m1 := store_new mem a o (Some d)).
  assert (Ho1 : nth_error (m_objects m1) a = Some (mkO (o_cfg o) (o_raw o) (Some (length (m_contexts mem))))).
  { subst m1. cbn [store_new m_objects]. exact (replace_same _ _ _ o Ho). }
  rewrite Ho1. cbn [o_cfg]. rewrite Hcfg.
  assert (He1 : elements m1 (mkO cfg (o_raw o) (Some (length (m_contexts mem)))) = e :: es) by exact Hel.
  assert (Hc1 : context m1 (mkO cfg (o_raw o) (Some (length (m_contexts mem)))) = Some d).
  { unfold context. cbn [o_context]. subst m1. cbn [store_new m_contexts]. now rewrite nth_error_app2, Nat.sub_diag by apply le_n. }
  rewrite He1, Hc1. unfold array_bitsize_packed.
  pose proof (length_size_spec cfg (length (e :: es)) Hlen) as Hls. cbv zeta in Hls.
  destruct (length_size cfg (length (e :: es))) as [dl|x| |]; try contradiction.
  destruct Hls as (_ & Hls & _). apply Hls in Hl. subst dl. clear Hls.
  rewrite (packed_sizes_all T cfg (e :: es) d _ _ _ Hset (bitsize_started T (e :: es) d Hsz H2 H3)).
  cbn [snd]. f_equal. f_equal. subst T.
  rewrite (packed_written_length b cfg e es m Hb Hi Hes Hr Hp Hc Hh Hm). fold sizes. unfold left_out. rewrite H4.
  destruct (packs sizes m) eqn:Ek.
  - rewrite (H5 eq_refl). unfold packed_size. subst sizes. rewrite map_length. cbn [map hd]. lia.
  - unfold plain_size. lia.
Qed.

Lemma never_packed : forall {A} (T : traits A) mem a cfg es pos d, well mem -> view mem a = Some (cfg, es) -> es <> [] ->
  a_packed cfg = false -> length_size cfg (length es) = Ok d -> snd (run T mem (BitSizePacked a pos)) = Size Panic.
Proof.
  intros A T mem a cfg es pos d Hw Hv Hne Hp Hl. apply view_object in Hv as (o & Ho & <- & <-).
  cbn [run]. rewrite Ho. unfold array_bitsize_packed. rewrite Hl. unfold context. destruct (Hw a o Ho) as (_ & _ & H3).
  rewrite (H3 Hp). destruct (elements mem o); [congruence|reflexivity].
Qed.

Lemma constant_left_out : forall b es m s, wf_builtin b -> integer_like b -> t_const (traits_of b) = true ->
  t_size (traits_of b) (t_zero (traits_of b)) = Ok s ->
  es <> [] -> Forall (in_range b) es -> delta_width (map (t_as (traits_of b)) es) m ->
  1 <= left_out (map (size_of (traits_of b)) es) m.
Proof.
  intros b es m s Hb Hi Hk Hs Hne Hes (Hm0 & Hle & Hm). unfold left_out. destruct (packs _ _) eqn:Ep; [|lia].
  assert (H62 : m <= 62) by (unfold packs in Ep; lia).
  destruct (const_size b Hb Hk) as (s' & Hs0 & Hsz & _). assert (s' = s) as -> by (rewrite Hsz in Hs; congruence).
  assert (Hhd : hd 0 (map (size_of (traits_of b)) es) = s).
  { destruct es as [|e es]; [congruence|]. cbn [map hd]. unfold size_of. now rewrite Hsz. }
  rewrite Hhd. enough (m <= s) by (unfold delta_cost; destruct (m =? 0); lia).
  destruct Hm as [->|(x & y & Hin & Hd)]; [lia|]. pose proof (Hle x y Hin) as Hu. apply in_combine_l in Hin as Hx.
  assert (Hy : In y (map (t_as (traits_of b)) es)).
  { apply in_combine_r in Hin. destruct (map (t_as (traits_of b)) es); [destruct Hin|]. now right. }
  apply in_map_iff in Hx as (vx & <- & Hx). apply in_map_iff in Hy as (vy & <- & Hy).
  rewrite Forall_forall in Hes. pose proof (Hes vx Hx) as Rx. pose proof (Hes vy Hy) as Ry.
  destruct (Z.leb_spec m s) as [|Hlt]; [assumption|exfalso].
  assert (H2 : 2 ^ s <= 2 ^ (m - 1)) by (apply Z.pow_le_mono_r; lia).
  destruct b as [| | | | | | | | | | | | | | | |g n|g n]; cbn in Hk; try discriminate; try contradiction.
  - cbn in Hs. injection Hs as <-. cbn [traits_of t_as BooleanArrayTraits] in Hd. destruct vx, vy; cbn in Hd; lia.
  - cbn in Hs. injection Hs as <-. cbn in Rx, Ry. destruct g as [gw|gw]; [|contradiction]. destruct Hb as [Hgw Hn].
    assert (n <= 64) by (unfold go_width in Hgw; lia). assert (2 ^ n <= 2 ^ 64) by (apply Z.pow_le_mono_r; lia).
    cbn [traits_of t_as BitFieldArrayTraits] in Hd. unfold u64 in Hd. rewrite !to_u_small in Hd by lia. lia.
  - cbn in Hs. injection Hs as <-. cbn in Rx, Ry. destruct g as [gw|gw]; [contradiction|]. destruct Hb as [Hgw Hn].
    assert (n <= 61) by lia.
    assert (H3 : 2 ^ (n - 1) <= 2 ^ 60) by (apply Z.pow_le_mono_r; lia).
    assert (H4 : 2 ^ n = 2 * 2 ^ (n - 1)) by (rewrite <- Z.pow_succ_r by lia; f_equal; lia).
    assert (H5 : 2 ^ m <= 2 ^ 62) by (apply Z.pow_le_mono_r; lia).
    cbn [traits_of t_as SignedBitFieldArrayTraits] in Hd, Hu.
    assert (Hw : forall v, - 2 ^ (n - 1) <= v < 2 ^ (n - 1) -> u64 v = if v <? 0 then v + 2 ^ 64 else v).
    { intros v Hv. unfold u64, to_u. destruct (v <? 0) eqn:E.
      - symmetry. apply Z.mod_unique with (q := -1); lia.
      - apply Z.mod_small. lia. }
    rewrite (Hw vx Rx), (Hw vy Ry) in Hd, Hu. destruct (vx <? 0) eqn:E1, (vy <? 0) eqn:E2; lia.
Qed.

(** A copy shares the elements. *)
Lemma clone_shares : forall {A} (T : traits A) m a cfg es i v, well m -> view m a = Some (cfg, es) -> (i < length es)%nat ->
  exists m1 b m2 m3, run T m (Clone a) = (m1, Made b) /\ b <> a /\
    run T m1 (Set_ b i v) = (m2, Done) /\ view m2 b = Some (cfg, replace es i v) /\ view m2 a = Some (cfg, replace es i v) /\
    run T m1 (Set_ a i v) = (m3, Done) /\ view m3 b = Some (cfg, replace es i v) /\ view m3 a = Some (cfg, replace es i v).
Proof.
  intros A T m a cfg es i v Hw Hv Hi. pose proof (well_run T m (Clone a) Hw) as Hw1.
  pose proof Hv as Hv0. apply view_object in Hv0 as (o & Ho & Hcfg & Hel).
  assert (Hlt : (a < length (m_objects m))%nat) by (apply nth_error_Some; congruence).
  destruct (run_clone T m a cfg es Hv) as (m1 & b & Hr & Hn & Hb & Hoth).
  assert (Em : m1 = mkM (m_slices m) (m_contexts m) (m_objects m ++ [o]) /\ b = length (m_objects m)).
  { cbn [run] in Hr. rewrite Ho in Hr. injection Hr as <- <-. now split. }
  destruct Em as [Em Eb]. rewrite Hr in Hw1. cbn [fst] in Hw1.
  assert (Hab : b <> a) by lia.
  assert (Ha1 : view m1 a = Some (cfg, es)) by (rewrite Hoth by congruence; exact Hv).
  assert (Oa : nth_error (m_objects m1) a = Some o) by (subst m1; cbn [m_objects]; now rewrite nth_error_app1 by exact Hlt).
  assert (Ob : nth_error (m_objects m1) b = Some o).
  { subst m1 b. cbn [m_objects]. now rewrite nth_error_app2, Nat.sub_diag by apply le_n. }
  destruct (run_set T m1 b i v cfg es Hw1 Hb Hi) as (m2 & R2 & _ & V2).
  destruct (run_set T m1 a i v cfg es Hw1 Ha1 Hi) as (m3 & R3 & _ & V3).
  exists m1, b, m2, m3. split; [exact Hr|]. split; [exact Hab|]. split; [exact R2|].
  split; [rewrite (V2 b o o Ob Ob), Nat.eqb_refl, Hcfg; reflexivity|].
  split; [rewrite (V2 a o o Ob Oa), Nat.eqb_refl, Hcfg; reflexivity|]. split; [exact R3|].
  split; [rewrite (V3 b o o Oa Ob), Nat.eqb_refl, Hcfg; reflexivity|].
  rewrite (V3 a o o Oa Oa), Nat.eqb_refl, Hcfg. reflexivity.
Qed.
