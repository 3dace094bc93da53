(** Columns of packed arrays: the contexts of all columns as one store. *)

Require Import ZArith List Bool Lia ZifyBool ZifyNat.
From Verif Require Import Bits BitsFacts Stream Spec PosSpec StreamFacts Scalars Traits Delta DeltaSpec DeltaFacts
  PosFacts ArrayFacts WireSpec.
Import ListNotations.
Open Scope Z_scope.

(** A cell as an element of a codec. *)
Definition cellT : traits cell :=
  mkTraits false (mkCell [] 0 0 false) (fun c => Ok (c_size c)) (rret (mkCell [] 0 0 false))
    (fun c => put (c_bits c)) c_num (fun z => mkCell [] 0 z false).

Definition inited (c : cell) (x : dctx) : dctx := match d_init cellT c x with Ok x' => x' | _ => x end.

Definition store := path -> dctx.
Definition upd (st : store) (p : path) (x : dctx) : store := fun q => if path_eqb p q then x else st q.
Definition same (st st' : store) : Prop := forall p, st p = st' p.

Fixpoint run_state (st : store) (l : list item) : store :=
  match l with
  | [] => st
  | Raw _ :: l' => run_state st l'
  | Cell p c :: l' => run_state (upd st p (next_ctx cellT (st p) c)) l'
  end.
Fixpoint run_out (st : store) (l : list item) : pbits :=
  match l with
  | [] => pnil
  | Raw e :: l' => papp e (run_out st l')
  | Cell p c :: l' =>
      papp (pfix (step_bits cellT (st p) (c_bits c) c)) (run_out (upd st p (next_ctx cellT (st p) c)) l')
  end.
Fixpoint init_state (st : store) (l : list item) : store :=
  match l with
  | [] => st
  | Raw _ :: l' => init_state st l'
  | Cell p c :: l' => init_state (if c_counted c then upd st p (inited c (st p)) else st) l'
  end.

(** ** Paths *)

Lemma path_eqb_refl : forall p, path_eqb p p = true.
Proof. intros p. unfold path_eqb. now destruct (list_eq_dec Nat.eq_dec p p). Qed.
Lemma path_eqb_true : forall p q, path_eqb p q = true -> p = q.
Proof. intros p q. unfold path_eqb. now destruct (list_eq_dec Nat.eq_dec p q). Qed.
Lemma path_eqb_false : forall p q, p <> q -> path_eqb p q = false.
Proof. intros p q H. unfold path_eqb. now destruct (list_eq_dec Nat.eq_dec p q). Qed.
Lemma path_eqb_sym : forall p q, path_eqb p q = path_eqb q p.
Proof.
  intros p q. unfold path_eqb. destruct (list_eq_dec Nat.eq_dec p q), (list_eq_dec Nat.eq_dec q p); congruence.
Qed.
Lemma path_eqb_cons : forall i p q, path_eqb (i :: p) (i :: q) = path_eqb p q.
Proof.
  intros i p q. unfold path_eqb. destruct (list_eq_dec Nat.eq_dec (i :: p) (i :: q)), (list_eq_dec Nat.eq_dec p q); congruence.
Qed.

(** ** Stores *)

Lemma upd_same : forall st st' p x, same st st' -> same (upd st p x) (upd st' p x).
Proof. intros st st' p x H q. unfold upd. destruct (path_eqb p q); [reflexivity|apply H]. Qed.

Lemma run_state_ext : forall l st st', same st st' -> same (run_state st l) (run_state st' l).
Proof.
  induction l as [|[e|p c] l IH]; intros st st' H; cbn [run_state]; [exact H|now apply IH|].
  apply IH. rewrite (H p). now apply upd_same.
Qed.
Lemma init_state_ext : forall l st st', same st st' -> same (init_state st l) (init_state st' l).
Proof.
  induction l as [|[e|p c] l IH]; intros st st' H; cbn [init_state]; [exact H|now apply IH|].
  apply IH. destruct (c_counted c); [|exact H]. rewrite (H p). now apply upd_same.
Qed.
Lemma run_out_ext : forall l st st' pos, same st st' -> run_out st l pos = run_out st' l pos.
Proof.
  induction l as [|[e|p c] l IH]; intros st st' pos H; cbn [run_out]; [reflexivity| |].
  - apply papp_ext; [reflexivity|]. intros q. now apply IH.
  - rewrite (H p). apply papp_ext; [reflexivity|]. intros q. apply IH. now apply upd_same.
Qed.

Lemma run_state_app : forall l1 l2 st, run_state st (l1 ++ l2) = run_state (run_state st l1) l2.
Proof. induction l1 as [|[e|p c] l1 IH]; intros l2 st; cbn [app run_state]; [reflexivity|apply IH|apply IH]. Qed.
Lemma init_state_app : forall l1 l2 st, init_state st (l1 ++ l2) = init_state (init_state st l1) l2.
Proof. induction l1 as [|[e|p c] l1 IH]; intros l2 st; cbn [app init_state]; [reflexivity|apply IH|apply IH]. Qed.
Lemma run_out_app : forall l1 l2 st pos, run_out st (l1 ++ l2) pos = papp (run_out st l1) (run_out (run_state st l1) l2) pos.
Proof.
  induction l1 as [|[e|p c] l1 IH]; intros l2 st pos; cbn [app run_state run_out].
  - now rewrite papp_nil_l.
  - rewrite papp_assoc. apply papp_ext; [reflexivity|]. intros q. apply IH.
  - rewrite papp_assoc. apply papp_ext; [reflexivity|]. intros q. apply IH.
Qed.

(** The part of a store below field [i]. *)
Definition below (st : store) (i : nat) : store := fun p => st (i :: p).

Lemma below_upd : forall st i p x, same (below (upd st (i :: p) x) i) (upd (below st i) p x).
Proof. intros st i p x q. unfold below, upd. now rewrite path_eqb_cons. Qed.
Lemma upd_other : forall st i p x q, (forall r, q <> i :: r) -> upd st (i :: p) x q = st q.
Proof. intros st i p x q H. unfold upd. rewrite path_eqb_false; [reflexivity|]. intros E. now apply (H p). Qed.

Lemma run_state_under : forall i l st, same (below (run_state st (map (under i) l)) i) (run_state (below st i) l).
Proof.
  intros i. induction l as [|[e|p c] l IH]; intros st; cbn [map under run_state]; [intros q; reflexivity|apply IH|].
  intros q. rewrite (IH _ q). apply run_state_ext. apply below_upd.
Qed.
Lemma init_state_under : forall i l st, same (below (init_state st (map (under i) l)) i) (init_state (below st i) l).
Proof.
  intros i. induction l as [|[e|p c] l IH]; intros st; cbn [map under init_state]; [intros q; reflexivity|apply IH|].
  intros q. rewrite (IH _ q). apply init_state_ext. destruct (c_counted c); [apply below_upd|intros r; reflexivity].
Qed.
Lemma run_out_under : forall i l st pos, run_out st (map (under i) l) pos = run_out (below st i) l pos.
Proof.
  intros i. induction l as [|[e|p c] l IH]; intros st pos; cbn [map under run_out]; [reflexivity| |].
  - apply papp_ext; [reflexivity|]. intros q. apply IH.
  - apply papp_ext; [reflexivity|]. intros q. rewrite IH. apply run_out_ext. apply below_upd.
Qed.
Lemma run_state_other : forall i l st q, (forall r, q <> i :: r) -> run_state st (map (under i) l) q = st q.
Proof.
  intros i. induction l as [|[e|p c] l IH]; intros st q H; cbn [map under run_state]; [reflexivity|now apply IH|].
  rewrite IH by assumption. now apply upd_other.
Qed.
Lemma init_state_other : forall i l st q, (forall r, q <> i :: r) -> init_state st (map (under i) l) q = st q.
Proof.
  intros i. induction l as [|[e|p c] l IH]; intros st q H; cbn [map under init_state]; [reflexivity|now apply IH|].
  rewrite IH by assumption. destruct (c_counted c); [now apply upd_other|reflexivity].
Qed.

(** ** Contexts that can be written to *)

Definition good (c : dctx) : Prop :=
  0 <= d_max c /\ (d_packed (finishInit c) = true -> d_max c <= 62) /\
  (d_started c = true -> d_packed c = true -> exists p, d_prev c = Some p /\ d_max c <= 62).
Definition fresh (c : dctx) : Prop :=
  d_started c = false /\ 0 <= d_max c /\ (d_packed c = true -> d_max c <= 62).
Definition goods (st : store) : Prop := forall p, good (st p).
Definition freshs (st : store) : Prop := forall p, fresh (st p).

Lemma finish_unpacked : forall c, d_packed (finishInit c) = true -> d_packed c = true.
Proof. intros c H. destruct (d_packed c) eqn:E; [reflexivity|]. unfold finishInit in H. rewrite E in H. congruence. Qed.
Lemma fresh_good : forall c, fresh c -> good c.
Proof.
  intros c (H1 & H2 & H3). split; [exact H2|]. split; [|congruence]. intros H. apply H3. now apply finish_unpacked.
Qed.
Lemma fresh_empty : fresh d_empty.
Proof. split; [reflexivity|]. cbn. split; [lia|discriminate]. Qed.

Lemma set_prev_finish : forall z c, d_packed (finishInit (set_prev z c)) = d_packed (finishInit c).
Proof. intros z c. unfold finishInit, deltaBitsize. cbn [set_prev d_packed d_first d_num d_max d_unpacked]. destruct (d_packed c) eqn:E; [|now cbn; rewrite E]. destruct (_ <=? _); [reflexivity|]. cbn. now rewrite E. Qed.

Lemma next_good : forall {A} (T : traits A) c e, good c -> good (next_ctx T c e).
Proof.
  intros A T c e (H1 & H2 & H3). split; [now rewrite next_max|]. rewrite next_max. unfold next_ctx.
  destruct (d_started c) eqn:Es; cbn [negb].
  - destruct (d_packed c && (d_max c <=? 0)) eqn:E.
    + split; [exact H2|]. rewrite Es. exact H3.
    + rewrite set_prev_finish. split; [exact H2|]. cbn [set_prev d_prev d_started d_packed]. intros _ Hp.
      exists (t_as T e). split; [reflexivity|]. now destruct (H3 eq_refl Hp) as (p & _ & H).
  - rewrite set_prev_finish, finishInit_idem, finishInit_started. cbn [set_started d_packed set_prev d_prev d_started].
    split; [exact H2|]. intros _ Hp. exists (t_as T e). split; [reflexivity|now apply H2].
Qed.
Lemma inited_fresh : forall c x, fresh x -> fresh (inited c x).
Proof.
  intros c x (H1 & H2 & H3). unfold inited, d_init. cbn [cellT t_size t_as]. destruct (d_prev x) as [p|].
  - change maxBitNumberLimit with 62. destruct (d_max x <=? 62) eqn:E.
    + pose proof (len64_nonneg (absDiff (c_num c) p)).
      destruct (d_max x <? len64 (absDiff (c_num c) p)) eqn:E1; unfold fresh; cbn [d_started d_max d_packed];
        (split; [exact H1|split; [lia|intros; lia]]).
    + unfold fresh; cbn [d_started d_max d_packed]; (split; [exact H1|split; [lia|exact H3]]).
  - unfold fresh; cbn [d_started d_max d_packed]; (split; [exact H1|split; [lia|exact H3]]).
Qed.

Lemma run_goods : forall l st, goods st -> goods (run_state st l).
Proof.
  induction l as [|[e|p c] l IH]; intros st H; cbn [run_state]; [exact H|now apply IH|]. apply IH.
  intros q. unfold upd. destruct (path_eqb p q); [apply next_good, H|apply H].
Qed.
Lemma init_freshs : forall l st, freshs st -> freshs (init_state st l).
Proof.
  induction l as [|[e|p c] l IH]; intros st H; cbn [init_state]; [exact H|now apply IH|]. apply IH.
  destruct (c_counted c); [|exact H]. intros q. unfold upd. destruct (path_eqb p q); [apply inited_fresh, H|apply H].
Qed.
Lemma goods_same : forall st st', same st st' -> goods st -> goods st'.
Proof. intros st st' H G p. rewrite <- H. apply G. Qed.
Lemma goods_below : forall st i, goods st -> goods (below st i).
Proof. intros st i H p. apply H. Qed.
Lemma freshs_goods : forall st, freshs st -> goods st.
Proof. intros st H p. apply fresh_good, H. Qed.

(** Writing an element like writing its cell. *)
Lemma cell_write : forall {A} (T : traits A) e c x, encodes (t_write T e) (c_bits c) -> t_as T e = c_num c -> good x ->
  pencodes (d_write T e) x (next_ctx cellT x c) (pfix (step_bits cellT x (c_bits c) c)).
Proof.
  intros A T e c x He Hn (H1 & H2 & H3) w Hw. rewrite (write_step T x (c_bits c) e w Hw He H1 H2 H3).
  unfold next_ctx, step_bits, pfix. cbn [cellT t_as]. now rewrite Hn.
Qed.
Lemma cell_init : forall {A} (T : traits A) e c x, t_size T e = Ok (c_size c) -> t_as T e = c_num c ->
  d_init T e x = Ok (inited c x).
Proof.
  intros A T e c x Hs Hn. unfold inited, d_init. rewrite Hs, Hn. cbn [cellT t_size t_as].
  destruct (d_prev x); [|reflexivity]. destruct (_ <=? _); [|reflexivity]. destruct (_ <? _); reflexivity.
Qed.

(** ** One column *)

Lemma run_state_column : forall l st p, run_state st l p = fold_left (next_ctx cellT) (column p l) (st p).
Proof.
  induction l as [|[e|q c] l IH]; intros st p; cbn [run_state column flat_map fold_left app]; [reflexivity|apply IH|].
  rewrite IH. fold (column p l). unfold upd. rewrite (path_eqb_sym p q). destruct (path_eqb q p) eqn:E.
  - apply path_eqb_true in E. subst q. reflexivity.
  - reflexivity.
Qed.
Lemma init_state_column : forall l st p,
  init_state st l p = fold_left (fun x c => inited c x) (filter c_counted (column p l)) (st p).
Proof.
  induction l as [|[e|q c] l IH]; intros st p; cbn [init_state column flat_map fold_left app filter]; [reflexivity|apply IH|].
  rewrite IH. fold (column p l). rewrite (path_eqb_sym p q). destruct (path_eqb q p) eqn:E.
  - apply path_eqb_true in E. subst q. cbn [app filter]. destruct (c_counted c); [|reflexivity].
    cbn [fold_left]. unfold upd. now rewrite path_eqb_refl.
  - cbn [app]. destruct (c_counted c); [|reflexivity]. unfold upd. now rewrite E.
Qed.

Lemma column_app : forall p l1 l2, column p (l1 ++ l2) = column p l1 ++ column p l2.
Proof. intros. unfold column. apply flat_map_app. Qed.

Lemma init_fold : forall col x, d_init_all cellT col x = Ok (fold_left (fun x c => inited c x) col x).
Proof.
  induction col as [|c col IH]; intros x; [reflexivity|]. cbn [d_init_all fold_left].
  rewrite (cell_init cellT c c x eq_refl eq_refl). apply IH.
Qed.

Lemma magnitude_len64 : forall d, magnitude d = len64 (Z.abs d).
Proof.
  intros d. unfold magnitude, len64. destruct (d =? 0) eqn:E.
  - replace d with 0 by lia. reflexivity.
  - replace (Z.abs d <=? 0) with false by lia. reflexivity.
Qed.
Lemma delta_bits_width : forall us u, delta_bits (u :: us) = width u us.
Proof.
  induction us as [|u' us IH]; intros u; [reflexivity|].
  change (delta_bits (u :: u' :: us)) with (Z.max (magnitude (u' - u)) (delta_bits (u' :: us))).
  rewrite IH, magnitude_len64. reflexivity.
Qed.

Lemma steps_packed : forall es c p, d_started c = true -> d_packed c = true -> d_prev c = Some p ->
  fits (d_max c) p (map c_num es) -> 0 <= d_max c ->
  step_encs cellT c_bits c es =
    map (fun q => bits_of (Z.to_nat (delta_cost (d_max c))) (snd q - fst q)) (neighbours (p :: map c_num es)).
Proof.
  induction es as [|e es IH]; intros c p Hs Hp Hpr Hf Hm; [reflexivity|].
  cbn [map fits] in Hf. destruct Hf as [Hf1 Hf2].
  change (neighbours (p :: map c_num (e :: es))) with ((p, c_num e) :: neighbours (c_num e :: map c_num es)).
  cbn [step_encs map fst snd]. unfold step_bits at 1. rewrite Hs, Hp, Hpr. cbn [negb]. f_equal.
  rewrite (IH (next_ctx cellT c e) (c_num e)).
  - now rewrite next_max.
  - unfold next_ctx. rewrite Hs. cbn [negb]. destruct (_ && _); exact Hs.
  - unfold next_ctx. rewrite Hs. cbn [negb]. destruct (_ && _); exact Hp.
  - unfold next_ctx. rewrite Hs, Hp. cbn [negb andb]. destruct (d_max c <=? 0) eqn:E0; [|reflexivity].
    rewrite Hpr. f_equal. assert (E1 : d_max c = 0) by lia. rewrite E1 in Hf1. cbn in Hf1. lia.
  - now rewrite next_max.
  - now rewrite next_max.
Qed.
Lemma steps_plain : forall es c, d_started c = true -> d_packed c = false -> step_encs cellT c_bits c es = map c_bits es.
Proof.
  induction es as [|e es IH]; intros c Hs Hp; [reflexivity|].
  cbn [step_encs map]. unfold step_bits. rewrite Hs, Hp. cbn [negb]. f_equal.
  apply IH; unfold next_ctx; rewrite Hs, Hp; cbn; assumption.
Qed.
Lemma next_first : forall c e, d_started c = false -> next_ctx cellT c e = set_prev (c_num e) (set_started (finishInit c)).
Proof. intros c e H. unfold next_ctx. rewrite H. cbn [negb cellT t_as]. now rewrite finishInit_started. Qed.

Definition cell_ok (c : cell) : Prop := 0 <= c_num c < 2 ^ 64.

Lemma uncounted : forall col, (exists b, Forall (fun c => c_counted c = b) col) -> forallb c_counted col = false ->
  filter c_counted col = [].
Proof.
  intros col ([|] & H) E.
  - exfalso. rewrite (proj2 (forallb_forall c_counted col)) in E; [discriminate|].
    intros c Hc. rewrite Forall_forall in H. now apply H.
  - clear E. induction H as [|c col Hc H IH]; [reflexivity|]. cbn [filter]. now rewrite Hc.
Qed.
Lemma all_counted : forall col, forallb c_counted col = true -> filter c_counted col = col.
Proof.
  induction col as [|c col IH]; intros H; [reflexivity|]. cbn [forallb filter] in *.
  destruct (c_counted c); [|discriminate]. now rewrite IH.
Qed.

Lemma column_pieces : forall col, Forall cell_ok col -> (exists b, Forall (fun c => c_counted c = b) col) ->
  step_encs cellT c_bits (fold_left (fun x c => inited c x) (filter c_counted col) d_empty) col = pieces col.
Proof.
  intros [|c col] Hok Hb; [reflexivity|].
  destruct (forallb c_counted (c :: col)) eqn:Ec.
  - rewrite (all_counted _ Ec). unfold pieces. rewrite Ec. cbn [andb].
    assert (Hs : Forall (sized cellT) (c :: col)) by (apply Forall_forall; intros x _; now exists (c_size x)).
    destruct (finish_packed cellT c col _ Hs Hok (init_fold (c :: col) d_empty)) as (H1 & H2 & H3).
    set (x := fold_left (fun x c => inited c x) (c :: col) d_empty) in *.
    change (map c_num (c :: col)) with (c_num c :: map c_num col). rewrite delta_bits_width.
    change (map (size_of cellT) (c :: col)) with (map c_size (c :: col)) in H1. cbn [cellT t_as] in H1, H2.
    rewrite <- H1. cbn [step_encs]. unfold step_bits at 1. rewrite H3. cbn [negb].
    rewrite (next_first x c H3). destruct (finishInit_fields x) as (F1 & F2 & F3).
    destruct (d_packed (finishInit x)) eqn:Ep.
    + destruct (H2 eq_refl) as [E1 E2]. pose proof (width_nonneg (map c_num col) (c_num c)).
      cbn [map hd app]. rewrite <- E1. f_equal.
      erewrite steps_packed; [|reflexivity|exact Ep|reflexivity| |].
      * cbn [set_prev set_started d_max]. now rewrite F2.
      * cbn [set_prev set_started d_max]. rewrite F2, E1. apply width_fits; lia.
      * cbn [set_prev set_started d_max]. lia.
    + cbn [app]. f_equal. apply steps_plain; [reflexivity|exact Ep].
  - rewrite (uncounted _ Hb Ec). cbn [fold_left]. unfold pieces. rewrite Ec. cbn [andb step_encs].
    rewrite (next_first d_empty c eq_refl). unfold step_bits. cbn [d_empty d_started negb finishInit d_packed app].
    f_equal. apply steps_plain; reflexivity.
Qed.

Lemma step_encs_nth : forall pre c post x,
  nth (length pre) (step_encs cellT c_bits x (pre ++ c :: post)) [] =
    step_bits cellT (fold_left (next_ctx cellT) pre x) (c_bits c) c.
Proof.
  induction pre as [|d pre IH]; intros c post x; cbn [app length step_encs nth fold_left]; [reflexivity|]. apply IH.
Qed.

(** ** All columns *)

(** The cells of a column are counted all or none. *)
Definition uniform (l : list item) : Prop := forall p, exists b, Forall (fun c => c_counted c = b) (column p l).
Definition cells_ok (l : list item) : Prop := forall p c, In (Cell p c) l -> cell_ok c.

Lemma column_in : forall p c l, In c (column p l) -> In (Cell p c) l.
Proof.
  intros p c l H. unfold column in H. apply in_flat_map in H as ([e|q d] & H1 & H2); [destruct H2|].
  destruct (path_eqb p q) eqn:E; [|destruct H2]. apply path_eqb_true in E. subst q.
  destruct H2 as [->|[]]. exact H1.
Qed.

Lemma items_run_gen : forall todo done pos, cells_ok (done ++ todo) -> uniform (done ++ todo) ->
  run_out (run_state (init_state (fun _ => d_empty) (done ++ todo)) done) todo pos = items_bits (done ++ todo) done todo pos.
Proof.
  induction todo as [|it todo IH]; intros done pos Hok Hu; cbn [run_out items_bits]; [reflexivity|].
  pose proof (IH (done ++ [it])) as IH'. rewrite <- app_assoc in IH'. cbn [app] in IH'.
  rewrite run_state_app in IH'.
  destruct it as [e|p c]; cbn [run_state] in IH'.
  - apply papp_ext; [reflexivity|]. intros q. now apply IH'.
  - assert (E : step_bits cellT (run_state (init_state (fun _ => d_empty) (done ++ Cell p c :: todo)) done p) (c_bits c) c =
               nth (length (column p done)) (pieces (column p (done ++ Cell p c :: todo))) []).
    { rewrite run_state_column, init_state_column. rewrite <- column_pieces.
      - rewrite (column_app p done (Cell p c :: todo)). cbn [column flat_map]. rewrite path_eqb_refl. cbn [app].
        fold (column p todo). now rewrite step_encs_nth.
      - apply Forall_forall. intros x Hx. apply (Hok p). now apply column_in.
      - apply Hu. }
    rewrite E. apply papp_ext; [reflexivity|]. intros q. now apply IH'.
Qed.

Lemma items_run : forall l pos, cells_ok l -> uniform l ->
  run_out (init_state (fun _ => d_empty) l) l pos = items_bits l [] l pos.
Proof. intros l pos H1 H2. apply (items_run_gen l [] pos H1 H2). Qed.

(** One column only. *)
Lemma column_single : forall l, column [] (map (Cell []) l) = l.
Proof. induction l as [|c l IH]; [reflexivity|]. cbn [map column flat_map]. rewrite path_eqb_refl. cbn [app]. f_equal. exact IH. Qed.

Lemma pieces_length : forall col, length (pieces col) = length col.
Proof.
  intros [|c col].
  - unfold pieces. destruct (_ && _) eqn:E; [|reflexivity]. discriminate E.
  - unfold pieces. destruct (_ && _); cbn [length map]; [|now rewrite map_length].
    rewrite map_length. unfold neighbours. rewrite combine_length. cbn [tl length]. rewrite map_length. f_equal. lia.
Qed.

Lemma items_single_gen : forall todo done pos,
  items_bits (map (Cell []) (done ++ todo)) (map (Cell []) done) (map (Cell []) todo) pos =
    concat (skipn (length done) (pieces (done ++ todo))).
Proof.
  induction todo as [|c todo IH]; intros done pos; cbn [map items_bits].
  - rewrite app_nil_r, skipn_all2 by (rewrite pieces_length; lia). reflexivity.
  - specialize (IH (done ++ [c])). rewrite <- app_assoc in IH. cbn [app] in IH.
    rewrite (map_app (Cell []) done [c]) in IH. cbn [map] in IH.
    unfold papp. rewrite !column_single. unfold pfix. rewrite IH. rewrite app_length. cbn [length].
    pose proof (pieces_length (done ++ c :: todo)) as Hl. revert Hl. generalize (pieces (done ++ c :: todo)) as ps.
    rewrite app_length. cbn [length]. generalize (length done) as k. generalize (length todo) as j. clear.
    intros j k ps. revert k. induction ps as [|x ps IH]; intros k Hl; cbn [length] in Hl; [lia|].
    destruct k as [|k]; [reflexivity|]. cbn [Nat.add skipn nth]. apply IH. lia.
Qed.

Lemma items_single : forall l pos, let items := map (Cell []) l in items_bits items [] items pos = concat (pieces l).
Proof. intros l pos items. apply (items_single_gen l [] pos). Qed.
