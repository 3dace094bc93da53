(** Theorems about arrays, in the form of the properties. *)

Require Import ZArith List Bool Lia ZifyBool ZifyNat.
From Verif Require Import Bits BitsFacts Stream Spec PosSpec StreamFacts StreamThms Scalars ScalarFacts ScalarTable ScalarThms
  Traits TraitSpec Delta DeltaSpec DeltaFacts TraitFacts SizeFacts TraitThms PosFacts Array ArraySpec ArrayFacts.
Import ListNotations.
Open Scope Z_scope.

(** ** C17 *)

Lemma elements_ok_nth : forall {A N} (K : elemops A N) (enc : nat -> pbits) es i,
  (forall j e, nth_error es j = Some e -> roundtrips_at (k_write K (i + j) e) (k_read K (i + j)) (enc (i + j)%nat) e) ->
  elements_ok K i es (map enc (seq i (length es))).
Proof.
  intros A N K enc. induction es as [|e es IH]; intros i H; [exact I|]. cbn. split.
  - specialize (H 0%nat e eq_refl). now rewrite Nat.add_0_r in H.
  - apply IH. intros j e' Hj. specialize (H (S j) e' Hj). now replace (S i + j)%nat with (i + S j)%nat by lia.
Qed.

Lemma array_any_elements : forall A N (K : elemops A N) cfg (es : list A) (enc : nat -> pbits),
  a_packed cfg = false -> holds cfg (length es) ->
  (forall i e, nth_error es i = Some e -> roundtrips_at (k_write K i e) (k_read K i) (enc i) e) ->
  roundtrips_at (write_array K cfg es) (read_array K cfg) (array_bits cfg (map enc (seq 0 (length es)))) es.
Proof.
  intros A N K cfg es enc Hp Hh He. apply plain_array_roundtrip; [exact Hp|exact Hh|].
  apply elements_ok_nth. exact He.
Qed.

Lemma array_builtin : forall b cfg es, wf_builtin b -> a_packed cfg = false -> holds cfg (length es) ->
  Forall (in_range b) es ->
  roundtrips_at (write_array (trait_ops (traits_of b)) cfg es) (read_array (trait_ops (traits_of b)) cfg)
    (array_bits cfg (map (fun e => pfix (wire b e)) es)) es.
Proof.
  intros b cfg es Hb Hp Hh Hes. apply plain_array_roundtrip; [exact Hp|exact Hh|].
  clear Hh. generalize 0%nat as i. induction Hes as [|e es He Hes IH]; intros i; [exact I|]. cbn. split; [|apply IH].
  apply roundtrips_pfix. now apply builtin_element.
Qed.

Lemma array_too_long : forall A N (K : elemops A N) cfg (es : list A), a_auto cfg = true ->
  MaxVarsize < Z.of_nat (length es) < 2 ^ 64 ->
  rejects (write_array K cfg es) ErrOutOfBounds.
Proof.
  intros A N K cfg es Ha Hl w. unfold write_array, with_ctx, array_marshal. rewrite Ha. unfold sbind, on_stream.
  unfold u64. rewrite to_u_small by lia. rewrite WriteVarsize_rejects by lia. reflexivity.
Qed.

(** ** C18 *)

Lemma neighbours_zero_width : forall {A} (es : list A), delta_width (map (fun _ => 0) es) 0.
Proof.
  intros A es. split; [lia|]. split; [|now left]. intros a b H. unfold neighbours in H.
  assert (In a (map (fun _ => 0) es) /\ In b (tl (map (fun _ => 0) es))) as [H1 H2].
  { split; [eapply in_combine_l; exact H|eapply in_combine_r; exact H]. }
  apply in_map_iff in H1 as (? & <- & _).
  assert (In b (map (fun _ : A => 0) es)) as H3 by (destruct es; [contradiction|right; exact H2]).
  apply in_map_iff in H3 as (? & <- & _). cbn. lia.
Qed.

Lemma width_exists : forall us, us <> [] -> exists m, delta_width us m.
Proof. intros [|u us] H; [congruence|]. eexists. apply width_delta_width. Qed.

Lemma arrives_all : forall {A} (T : traits A) es m, Forall (number_ok T) es -> arrives T es m = es.
Proof.
  intros A T [|e l] m H; [reflexivity|]. apply Forall_cons_iff in H as [_ H]. unfold arrives. f_equal.
  destruct (packs _ _); [|reflexivity]. rewrite <- (map_id l) at 2. apply map_ext_in. intros x Hx.
  rewrite Forall_forall in H. now apply H.
Qed.

Lemma packed_integers : forall b cfg es, wf_builtin b -> integer_like b -> Forall (in_range b) es ->
  a_packed cfg = true -> holds cfg (length es) ->
  exists encs, length encs = length es /\
    roundtrips_at (write_array (trait_ops (traits_of b)) cfg es) (read_array (trait_ops (traits_of b)) cfg)
      (array_bits cfg (map pfix encs)) es /\
    (forall m, es <> [] -> delta_width (map (t_as (traits_of b)) es) m ->
       concat encs = delta_wire (map (wire b) es) (map (size_of (traits_of b)) es) (map (t_as (traits_of b)) es) m).
Proof.
  intros b cfg es Hb Hi Hes Hp Hh. assert (H : builtin_list b es) by (repeat split; assumption).
  pose proof (builtin_elements b es H) as H1. pose proof (builtin_numbers b es H) as H2.
  pose proof (builtin_sizes b es H) as H3.
  destruct es as [|e l].
  { exists []. split; [reflexivity|]. split; [now apply array_empty|]. congruence. }
  set (es := e :: l) in *.
  destruct (width_exists (map (t_as (traits_of b)) es)) as [m0 Hm0]; [discriminate|].
  destruct (packed_trait_array (traits_of b) (wire b) cfg es m0 Hp Hh Hm0 H1 (number_ok_numbered _ _ H2) H3)
    as (encs & El & Er & Ew).
  exists encs. split; [exact El|]. split.
  - rewrite arrives_all in Er by exact H2. exact Er.
  - intros m Hne Hm. rewrite (delta_width_unique _ _ _ Hm Hm0). now apply Ew.
Qed.

Lemma not_integer : forall b, ~ integer_like b ->
  (forall e, t_as (traits_of b) e = 0) /\ t_from (traits_of b) 0 = t_zero (traits_of b).
Proof. intros b H. destruct b; try (exfalso; apply H; exact I); split; intros; reflexivity. Qed.

Lemma map_const_repeat : forall {A B} (c : B) (l : list A), map (fun _ => c) l = repeat c (length l).
Proof. intros A B c l. induction l as [|x l IH]; [reflexivity|]. cbn. now rewrite IH. Qed.

Lemma packed_others : forall b cfg e l, wf_builtin b -> ~ integer_like b -> Forall (in_range b) (e :: l) ->
  a_packed cfg = true -> holds cfg (length (e :: l)) ->
  exists bits, roundtrips_at (write_array (trait_ops (traits_of b)) cfg (e :: l))
    (read_array (trait_ops (traits_of b)) cfg) bits
    (e :: (if 6 <? sum (map (size_of (traits_of b)) l) then repeat (t_zero (traits_of b)) (length l) else l)).
Proof.
  intros b cfg e l Hb Hi Hes Hp Hh. destruct (not_integer b Hi) as [Has Hfrom].
  set (es := e :: l) in *.
  assert (H1 : Forall (fun e => element_ok (traits_of b) (wire b e) e) es).
  { eapply Forall_impl; [|exact Hes]. intros a. now apply builtin_element. }
  assert (H2 : Forall (numbered (traits_of b)) es).
  { apply Forall_forall. intros a _. unfold numbered. rewrite Has. lia. }
  assert (H3 : Forall (sized (traits_of b)) es).
  { eapply Forall_impl; [|exact Hes]. intros a. now apply builtin_sized. }
  assert (Em : map (t_as (traits_of b)) es = map (fun _ => 0) es) by (apply map_ext; exact Has).
  assert (Hm : delta_width (map (t_as (traits_of b)) es) 0) by (rewrite Em; apply neighbours_zero_width).
  destruct (packed_trait_array (traits_of b) (wire b) cfg es 0 Hp Hh Hm H1 H2 H3) as (encs & El & Er & Ew).
  eexists. unfold es in Er at 2. unfold arrives in Er. fold es in Er.
  assert (E1 : map (fun x => t_from (traits_of b) (t_as (traits_of b) x)) l = repeat (t_zero (traits_of b)) (length l)).
  { rewrite map_ext with (g := fun _ => t_zero (traits_of b)) by (intros a; now rewrite Has). apply map_const_repeat. }
  rewrite E1 in Er.
  assert (E2 : packs (map (size_of (traits_of b)) es) 0 = (6 <? sum (map (size_of (traits_of b)) l))).
  { unfold packs, packed_size, plain_size, delta_cost. cbn [Z.eqb]. rewrite map_length.
    unfold es. cbn [map hd length]. change (sum (?a :: ?x)) with (a + sum x).
    destruct l as [|e2 l]; [reflexivity|]. cbn [length]. lia. }
  rewrite E2 in Er. exact Er.
Qed.

(** ** C19 *)

Definition noerr {A} (o : outcome A) : Prop := match o with Err _ => False | _ => True end.

Lemma write_elems_noerr : forall {A N} (K : elemops A N) cfg es i s, a_check cfg = false ->
  noerr (snd (write_elems K cfg i es s)).
Proof.
  intros A N K cfg. induction es as [|e es IH]; intros i s Hc; [exact I|]. cbn [write_elems]. unfold write_elem.
  rewrite Hc. unfold sbind at 1 2. cbn [sret]. unfold signore.
  match goal with |- context [(if a_packed cfg then ?a else ?b) s] =>
    destruct ((if a_packed cfg then a else b) s) as [s' []] end; cbn [snd]; try exact I; now apply IH.
Qed.

Lemma init_elems_noerr : forall {A N} (K : elemops A N) es i n, noerr (snd (init_elems K i es n)).
Proof.
  intros A N K. induction es as [|e es IH]; intros i n; [exact I|]. cbn.
  destruct (k_init K i e n) as [n' []]; cbn; try exact I; apply IH.
Qed.

(** Errors of an array writer can only come from its length (or from creating
    the packing context). *)
Lemma array_errors : forall A N (K : elemops A N) cfg es w e, a_check cfg = false ->
  (forall x, k_create K <> Err x) -> snd (write_array K cfg es w) = Err e ->
  a_auto cfg = true /\ snd (WriteVarsize (u64 (Z.of_nat (length es))) w) = Err e.
Proof.
  intros A N K cfg es w e Hc Hk H. unfold write_array, with_ctx, array_marshal in H. unfold sbind at 1 in H.
  destruct (a_auto cfg) eqn:Ha.
  - unfold on_stream in H. destruct (WriteVarsize _ w) as [w1 o] eqn:E. split; [reflexivity|]. cbn [snd].
    destruct o as [[]| | |]; cbn [snd] in H; try discriminate; [|exact H]. exfalso.
    destruct es as [|x es]; [discriminate|]. unfold sbind at 1 in H.
    destruct (a_packed cfg).
    + unfold sbind at 1 in H. unfold new_context in H. destruct (k_create K) as [n| | |]; try discriminate.
      2:{ cbn in H. now apply (Hk e0). }
      cbn [snd] in H. unfold init_context in H. pose proof (init_elems_noerr K (x :: es) 0 n) as Hn.
      destruct (init_elems K 0 (x :: es) n) as [n' o]. cbn [snd] in Hn.
      destruct o as [[]| | |]; try contradiction; try discriminate.
      pose proof (write_elems_noerr K cfg (x :: es) 0 (Some n', w1) Hc) as Hw.
      destruct (write_elems K cfg 0 (x :: es) (Some n', w1)) as [[? ?] o]. cbn [snd] in *. subst o. exact Hw.
    + cbn [sret] in H. pose proof (write_elems_noerr K cfg (x :: es) 0 (None, w1) Hc) as Hw.
      destruct (write_elems K cfg 0 (x :: es) (None, w1)) as [[? ?] o]. cbn [snd] in *. subst o. exact Hw.
  - exfalso. cbn [sret] in H. destruct es as [|x es]; [discriminate|]. unfold sbind at 1 in H.
    destruct (a_packed cfg).
    + unfold sbind at 1 in H. unfold new_context in H. destruct (k_create K) as [n| | |]; try discriminate.
      2:{ cbn in H. now apply (Hk e0). }
      cbn [snd] in H. unfold init_context in H. pose proof (init_elems_noerr K (x :: es) 0 n) as Hn.
      destruct (init_elems K 0 (x :: es) n) as [n' o]. cbn [snd] in Hn.
      destruct o as [[]| | |]; try contradiction; try discriminate.
      pose proof (write_elems_noerr K cfg (x :: es) 0 (Some n', w) Hc) as Hw.
      destruct (write_elems K cfg 0 (x :: es) (Some n', w)) as [[? ?] o]. cbn [snd] in *. subst o. exact Hw.
    + cbn [sret] in H. pose proof (write_elems_noerr K cfg (x :: es) 0 (None, w) Hc) as Hw.
      destruct (write_elems K cfg 0 (x :: es) (None, w)) as [[? ?] o]. cbn [snd] in *. subst o. exact Hw.
Qed.

(** Without a length field and without packing there is no error at all. *)
Lemma write_elems_ok : forall {A N} (K : elemops A N) cfg, a_check cfg = false -> a_packed cfg = false ->
  (forall i e w, exists w', k_write K i e w = (w', Ok tt) \/ exists x, k_write K i e w = (w', Err x)) ->
  forall es i s, snd (write_elems K cfg i es s) = Ok tt.
Proof.
  intros A N K cfg Hc Hp He. induction es as [|e es IH]; intros i [c w]; [reflexivity|].
  cbn [write_elems]. unfold write_elem. rewrite Hc, Hp. unfold sbind at 1 2. cbn [sret]. unfold signore, on_stream.
  destruct (He i e w) as [w' [E|[x E]]]; rewrite E; apply IH.
Qed.

Lemma array_always_ok : forall A N (K : elemops A N) cfg es w, a_check cfg = false -> a_packed cfg = false ->
  a_auto cfg = false ->
  (forall i e w, exists w', k_write K i e w = (w', Ok tt) \/ exists x, k_write K i e w = (w', Err x)) ->
  snd (write_array K cfg es w) = Ok tt.
Proof.
  intros A N K cfg es w Hc Hp Ha He. unfold write_array, with_ctx, array_marshal. rewrite Ha, Hp.
  unfold sbind at 1. cbn [sret]. destruct es as [|e es]; [reflexivity|]. unfold sbind at 1. cbn [sret].
  pose proof (write_elems_ok K cfg Hc Hp He (e :: es) 0 (None, w)) as H.
  destruct (write_elems K cfg 0 (e :: es) (None, w)) as [[? ?] o]. exact H.
Qed.

(** Rejected elements are left out, the rest is written. *)
Lemma write_elems_marked : forall {A N} (K : elemops A N) cfg (wires : A -> list bool) x,
  a_check cfg = false -> a_packed cfg = false -> forall (es : list A) (good : list bool), length good = length es ->
  (forall j e b, nth_error es j = Some e -> nth_error good j = Some b ->
     if b : bool then (forall i, encodes (k_write K i e) (wires e)) else (forall i, rejects (k_write K i e) x)) ->
  forall i (c : option N), pencodes (write_elems K cfg i es) c c
    (pfix (concat (map (fun p => if snd p : bool then wires (fst p) else []) (combine es good)))).
Proof.
  intros A N K cfg wires x Hc Hp.
  induction es as [|e es IH]; intros [|b good] Hlen Hall i c; try discriminate; [apply pencodes_ret|].
  cbn [write_elems combine map concat fst snd]. eapply pencodes_ext; [intros p; apply papp_pfix|].
  eapply pencodes_bind.
  - unfold write_elem. rewrite Hc, Hp. eapply pencodes_bind_ctx; [reflexivity|].
    pose proof (Hall 0%nat e b eq_refl eq_refl) as H0. destruct b.
    + apply pencodes_ignore, pencodes_stream, encodes_pfix, H0.
    + intros w0 Hw0. unfold signore, on_stream. rewrite H0. unfold pfix. rewrite app_nil_r.
      destruct w0 as [wb wf]; cbn in *; now subst wf.
  - apply IH; [now injection Hlen|]. intros j e' b' H1 H2. exact (Hall (S j) e' b' H1 H2).
Qed.

(** In the form of the property: one rejected element between good ones. *)
Lemma array_drops_element : forall A N (K : elemops A N) cfg (wires : A -> list bool) pre bad post x,
  a_check cfg = false -> a_packed cfg = false ->
  (a_auto cfg = true -> Z.of_nat (length (pre ++ bad :: post)) <= MaxVarsize) ->
  (forall i e, In e (pre ++ post) -> encodes (k_write K i e) (wires e)) ->
  (forall i, rejects (k_write K i bad) x) ->
  encodes (write_array K cfg (pre ++ bad :: post))
    (length_bits cfg (length (pre ++ bad :: post)) ++ concat (map wires pre) ++ concat (map wires post)).
Proof.
  intros A N K cfg wires pre bad post x Hc Hp Hl Hg Hb w Hw.
    set (es := pre ++ bad :: post) in *.
  set (good := repeat true (length pre) ++ false :: repeat true (length post)).
  assert (Hlen : length good = length es).
  { unfold good, es. rewrite !app_length. cbn. now rewrite !repeat_length. }
  assert (Hall : forall j e (b : bool), nth_error es j = Some e -> nth_error good j = Some b ->
       if b then forall i, encodes (k_write K i e) (wires e) else forall i, rejects (k_write K i e) x).
  { intros j e b H1 H2. unfold es, good in *.
    destruct (Nat.lt_ge_cases j (length pre)) as [Hj|Hj].
    - rewrite nth_error_app1 in H1 by exact Hj. rewrite nth_error_app1 in H2 by (rewrite repeat_length; exact Hj).
      apply nth_error_In in H2. apply repeat_spec in H2. subst b. intros i. apply Hg. apply in_or_app. left.
      eapply nth_error_In. exact H1.
    - rewrite nth_error_app2 in H1 by exact Hj. rewrite nth_error_app2 in H2 by (rewrite repeat_length; exact Hj).
      rewrite repeat_length in H2. destruct (j - length pre)%nat as [|k]; cbn in H1, H2.
      + injection H1 as <-. injection H2 as <-. exact Hb.
      + apply nth_error_In in H2. apply repeat_spec in H2. subst b. intros i. apply Hg. apply in_or_app. right.
        eapply nth_error_In. exact H1. }
  assert (E : concat (map (fun p : A * bool => if snd p then wires (fst p) else []) (combine es good)) =
              concat (map wires pre) ++ concat (map wires post)).
  { unfold es, good. clear. assert (Hrep : forall l, concat (map (fun p : A * bool => if snd p then wires (fst p) else [])
      (combine l (repeat true (length l)))) = concat (map wires l)).
    { induction l as [|a l IH]; [reflexivity|]. cbn. now rewrite IH. }
    induction pre as [|a pre IH]; [cbn; apply Hrep|]. cbn. rewrite IH. now rewrite app_assoc. }
  assert (Hat : encodes_at (write_array K cfg es) (papp (pfix (length_bits cfg (length es)))
    (pfix (concat (map (fun p : A * bool => if snd p then wires (fst p) else []) (combine es good)))))).
  { unfold write_array, array_marshal, length_bits in *. eapply pencodes_with_ctx. eapply pencodes_bind with (c1 := None).
    - destruct (a_auto cfg); [|apply pencodes_ret]. apply pencodes_stream, encodes_pfix.
      specialize (Hl eq_refl). unfold u64. rewrite to_u_small by (unfold MaxVarsize in Hl; lia).
      apply varsize_output. lia.
    - assert (es <> []) as Hne by (unfold es; destruct pre; discriminate).
      pose proof (write_elems_marked K cfg wires x Hc Hp es good Hlen Hall 0%nat None) as He. destruct es as [|e0 es0]; [congruence|].
      rewrite Hp. eapply pencodes_bind_ctx; [reflexivity|]. exact He. }
  specialize (Hat w Hw). rewrite Hat. unfold papp, pfix. now rewrite E.
Qed.

(** ** C49: predicted sizes *)

Lemma length_size_spec : forall cfg n, (a_auto cfg = true -> Z.of_nat n <= MaxVarsize) ->
  let actual := Z.of_nat (length (length_bits cfg n)) in
  match length_size cfg n with
  | Ok d => actual <= d /\ (d = actual <-> length_size_right cfg n) /\ d mod 8 = 0 /\ 0 <= d
  | Err _ => ~ length_size_right cfg n
  | _ => False
  end.
Proof.
  intros cfg n Hn. unfold length_size, length_bits, length_size_right. destruct (a_auto cfg).
  2:{ cbn. repeat split; try reflexivity; try lia. }
  specialize (Hn eq_refl). cbn zeta.
  destruct (varsize_len (Z.of_nat n) ltac:(lia)) as (bs & s & He & Hs & Hl).
  rewrite (encodes_output _ _ He), Hl. unfold MaxVarsize in Hn. change (2 ^ 31 - 1) with 2147483647 in Hn.
  rewrite ssize4_eq by (unfold in_s, MinInt64; change (2 ^ (64 - 1)) with (2 ^ 63); lia).
  rewrite Z.abs_eq by lia. rewrite usize5 in Hs. unfold ssize4.
  change (2 ^ 6) with 64. change (2 ^ 7) with 128. change (2 ^ 13) with 8192. change (2 ^ 14) with 16384.
  change (2 ^ 20) with 1048576. change (2 ^ 21) with 2097152. change (2 ^ 28) with 268435456.
  clear He Hl. set (k := Z.of_nat n) in *. assert (0 <= k) by lia. clearbody k.
  split_ifs; try (injection Hs as <-); try discriminate; repeat split; try reflexivity; try lia;
    try (intros ?; lia).
Qed.

Lemma sum_sizes_ok : forall {A} (T : traits A) cfg es i pos, a_set cfg = false -> Forall (sized T) es ->
  sum_sizes (fun _ e _ => t_size T e) cfg i es pos = Ok (pos + sum (map (size_of T) es)).
Proof.
  intros A T cfg. induction es as [|e es IH]; intros i pos Hs H; [cbn; f_equal; lia|].
  apply Forall_cons_iff in H as [H1 H2]. cbn [sum_sizes]. rewrite Hs, (size_of_eq T e H1), IH by assumption.
  f_equal. cbn [map]. change (sum (?x :: ?y)) with (x + sum y). lia.
Qed.

Lemma written_length : forall b cfg es, wf_builtin b -> a_packed cfg = false -> a_check cfg = false ->
  holds cfg (length es) -> Forall (in_range b) es ->
  Z.of_nat (length (output (write_array (trait_ops (traits_of b)) cfg es))) =
    Z.of_nat (length (length_bits cfg (length es))) + sum (map (fun e => Z.of_nat (length (wire b e))) es).
Proof.
  intros b cfg es Hb Hp Hc Hh Hes. pose proof (array_builtin b cfg es Hb Hp Hh Hes) as [H _].
  unfold output at 1. rewrite (H (mkW [] []) eq_refl). cbn [fst wbits app length].
  rewrite <- map_map. rewrite array_bits_plain by exact Hc. rewrite map_length, app_length, Nat2Z.inj_add. f_equal.
  clear. induction es as [|e es IH]; [reflexivity|]. cbn [map concat]. rewrite app_length, Nat2Z.inj_add, IH. reflexivity.
Qed.

Lemma sum_right : forall b es, wf_builtin b -> Forall (in_range b) es -> Forall (size_right b) es ->
  sum (map (size_of (traits_of b)) es) = sum (map (fun e => Z.of_nat (length (wire b e))) es).
Proof.
  intros b es Hb Hes Hr. f_equal. apply map_ext_in. intros e He. rewrite Forall_forall in *.
  pose proof (proj2 (builtin_size_right b e Hb (Hes e He)) (Hr e He)) as H. unfold size_of. unfold exact_size in H.
  now rewrite H.
Qed.

Lemma array_size_variable : forall b cfg es pos, wf_builtin b -> t_const (traits_of b) = false ->
  a_packed cfg = false -> a_check cfg = false -> a_set cfg = false ->
  holds cfg (length es) -> Forall (in_range b) es -> Forall (size_right b) es ->
  (array_bitsize (traits_of b) cfg es pos =
     Ok (Z.of_nat (length (output (write_array (trait_ops (traits_of b)) cfg es)))) <-> length_size_right cfg (length es)).
Proof.
  intros b cfg es pos Hb Hk Hp Hc Hs Hh Hes Hr. rewrite written_length by assumption.
  unfold array_bitsize. rewrite Hk. cbn [andb].
  assert (Hz : Forall (sized (traits_of b)) es).
  { eapply Forall_impl; [|exact Hes]. intros a. now apply builtin_sized. }
  assert (Hn : a_auto cfg = true -> Z.of_nat (length es) <= MaxVarsize).
  { intros Ha. unfold holds in Hh. now rewrite Ha in Hh. }
  pose proof (length_size_spec cfg (length es) Hn) as H. cbn zeta in H.
  destruct (length_size cfg (length es)) as [d| | |]; try contradiction.
  - destruct H as (H1 & H2 & _). rewrite sum_sizes_ok by assumption. rewrite ok_eq. rewrite <- H2.
    rewrite sum_right by assumption. lia.
  - split; [discriminate|contradiction].
Qed.

(** Element types of constant size. *)
Lemma const_size : forall b, wf_builtin b -> t_const (traits_of b) = true ->
  exists s, 0 < s /\ (forall e, t_size (traits_of b) e = Ok s) /\ (forall e, size_right b e).
Proof.
  intros b Hb H. destruct b as [| | | | | | | | | | | | | | | |g n|g n]; cbn in H; try discriminate.
  1-4: eexists; split; [|split; [intros e; reflexivity|intros e; exact I]]; lia.
  all: exists n; (split; [|split; [intros e; reflexivity|intros e; exact I]]); destruct g; cbn in Hb; lia.
Qed.

Lemma alignTo_8 : forall p, 0 <= p -> p <= alignTo 8 p /\ (alignTo 8 p = p <-> p mod 8 = 0).
Proof.
  intros p Hp. unfold alignTo. destruct (p <=? 0) eqn:E; cbn [orb].
  - replace p with 0 by lia. cbn. lia.
  - cbn [Z.eqb]. rewrite Z.quot_div_nonneg by lia. pose proof (Z.div_mod (p - 1) 8 ltac:(lia)).
    pose proof (Z.mod_pos_bound (p - 1) 8 ltac:(lia)).
    pose proof (Z.div_mod p 8 ltac:(lia)). pose proof (Z.mod_pos_bound p 8 ltac:(lia)). split; [lia|].
    split; intros; lia.
Qed.

Lemma sum_const : forall {A} (f : A -> Z) s l, (forall e, In e l -> f e = s) -> sum (map f l) = Z.of_nat (length l) * s.
Proof.
  intros A f s. induction l as [|a l IH]; intros H; [reflexivity|]. cbn [map length]. change (sum (?x :: ?y)) with (x + sum y).
  rewrite IH by (intros; apply H; now right). rewrite H by now left. lia.
Qed.

Lemma array_size_constant : forall b cfg es pos s, wf_builtin b -> t_const (traits_of b) = true ->
  t_size (traits_of b) (t_zero (traits_of b)) = Ok s ->
  a_packed cfg = false -> a_check cfg = false -> a_set cfg = false ->
  holds cfg (length es) -> Forall (in_range b) es -> es <> [] -> 0 <= pos ->
  (forall p, array_bitsize (traits_of b) cfg es pos = Ok p ->
     Z.of_nat (length (output (write_array (trait_ops (traits_of b)) cfg es))) <= p) /\
  (array_bitsize (traits_of b) cfg es pos =
     Ok (Z.of_nat (length (output (write_array (trait_ops (traits_of b)) cfg es)))) <->
   length_size_right cfg (length es) /\ pos mod 8 = 0 /\ (length es = 1%nat \/ s mod 8 = 0)).
Proof.
  intros b cfg es pos s Hb Hk Hz Hp Hc Hs Hh Hes Hne Hpos. rewrite written_length by assumption.
  destruct (const_size b Hb Hk) as (s' & Hs0 & Hsz & Hr).
  assert (s' = s) as -> by (specialize (Hsz (t_zero (traits_of b))); congruence).
  assert (Hw : sum (map (fun e => Z.of_nat (length (wire b e))) es) = Z.of_nat (length es) * s).
  { apply sum_const. intros e He. rewrite Forall_forall in Hes.
    pose proof (proj2 (builtin_size_right b e Hb (Hes e He)) (Hr e)) as H. unfold exact_size in H. rewrite Hsz in H.
    now injection H. }
  rewrite Hw. unfold array_bitsize. rewrite Hk. cbn [andb].
  set (n := Z.of_nat (length es)). assert (1 <= n) by (unfold n; destruct es; [congruence|cbn; lia]).
  replace (0 <? n) with true by lia. rewrite Hz, Hs.
  assert (Hn : a_auto cfg = true -> Z.of_nat (length es) <= MaxVarsize).
  { intros Ha. unfold holds in Hh. now rewrite Ha in Hh. }
  pose proof (length_size_spec cfg (length es) Hn) as H0. cbn zeta in H0.
  destruct (length_size cfg (length es)) as [d| | |]; try contradiction.
  - destruct H0 as (H1 & H2 & H3 & H4). rewrite ok_eq. rewrite <- H2.
    set (l := Z.of_nat (length (length_bits cfg (length es)))) in *.
    destruct (alignTo_8 (pos + d) ltac:(lia)) as [A1 A2]. destruct (alignTo_8 s ltac:(lia)) as [B1 B2].
    set (a := alignTo 8 (pos + d)) in *. set (c := alignTo 8 s) in *. clearbody a c l.
    assert (Hm : pos mod 8 = 0 <-> (pos + d) mod 8 = 0).
    { rewrite Z.add_mod, H3, Z.add_0_r, Z.mod_mod by lia. tauto. }
    assert (Hnn : length es = 1%nat <-> n = 1) by (unfold n; lia). clearbody n.
    assert (Hmul : (n - 1) * s <= (n - 1) * c) by nia.
    split.
    + intros p E. injection E as <-. nia.
    + rewrite Hm, Hnn, <- A2, <- B2. split.
      * intros E. assert (a = pos + d) by nia. assert (d = l) by nia. split; [assumption|]. split; [assumption|].
        destruct (Z.eq_dec n 1); [now left|right]. nia.
      * intros (E1 & E2 & [E3|E3]); subst; nia.
  - split; [discriminate|]. split; [discriminate|]. intros [H5 _]. contradiction.
Qed.
