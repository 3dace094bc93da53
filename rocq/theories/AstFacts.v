(** The evaluator of expressions: termination and what it keeps. *)

Require Import ZArith String List Bool Lia ZifyBool ZifyNat.
From Verif Require Import Bits AstExpr AstExprSpec.
Import ListNotations.
Open Scope nat_scope.

Lemma root_eqb_spec : forall a b, root_eqb a b = true <-> a = b.
Proof.
  intros [x|x i|x i] [y|y j|y j]; cbn; split; intros H; try discriminate; try congruence; try lia;
    try (apply Nat.eqb_eq in H; congruence);
    try (apply andb_true_iff in H; destruct H as [H1 H2]; apply Nat.eqb_eq in H1, H2; congruence);
    injection H; intros; subst; rewrite ?Nat.eqb_refl; reflexivity.
Qed.
Lemma root_eqb_refl : forall a, root_eqb a a = true.
Proof. intros. apply root_eqb_spec. reflexivity. Qed.
Lemma root_eqb_neq : forall a b, a <> b -> root_eqb a b = false.
Proof. intros a b H. destruct (root_eqb a b) eqn:E; [apply root_eqb_spec in E; contradiction|reflexivity]. Qed.
Lemma set_same : forall s r v, set s r v r = v.
Proof. intros. unfold set. rewrite root_eqb_refl. reflexivity. Qed.
Lemma set_other : forall s r v r', r <> r' -> set s r v r' = s r'.
Proof. intros. unfold set. rewrite root_eqb_neq by assumption. reflexivity. Qed.

(** ** Counting the roots that have not been started *)

Definition is_fresh (s : store) (r : root) : bool := match s r with Slot NotStarted _ => true | _ => false end.
Definition roots (P : program) : list root :=
  map RConst (seq 0 (length (p_consts P))) ++
  flat_map (fun e => map (REnum e) (seq 0 (length (nth e (p_enums P) [])))) (seq 0 (length (p_enums P))) ++
  flat_map (fun m => map (RMask m) (seq 0 (length (nth m (p_masks P) [])))) (seq 0 (length (p_masks P))).
Definition fresh (P : program) (s : store) : nat := length (filter (is_fresh s) (roots P)).

Lemma flat_map_ext_in : forall {A B} (f g : A -> list B) l, (forall x, In x l -> f x = g x) -> flat_map f l = flat_map g l.
Proof.
  intros A B f g l H. induction l as [|x l IH]; [reflexivity|]. cbn. rewrite H by (left; reflexivity).
  rewrite IH; [reflexivity|]. intros y Hy. apply H. right. exact Hy.
Qed.
Lemma flat_map_length : forall {A} (mk : nat -> nat -> root) (l : list (list A)),
  length (flat_map (fun e => map (mk e) (seq 0 (length (nth e l [])))) (seq 0 (length l))) = list_sum (map (@length _) l).
Proof.
  intros A mk l. induction l as [|x l IH] using rev_ind; [reflexivity|].
  rewrite app_length. cbn [length]. rewrite Nat.add_1_r, seq_S, flat_map_app, app_length, map_app, list_sum_app.
  cbn [flat_map Nat.add]. rewrite app_nil_r, map_length, seq_length, app_nth2, Nat.sub_diag by lia. cbn [nth map].
  change (list_sum [length x]) with (length x + 0). rewrite Nat.add_0_r. f_equal. rewrite <- IH. f_equal.
  apply flat_map_ext_in. intros y Hy. apply in_seq in Hy. rewrite app_nth1 by lia. reflexivity.
Qed.

Lemma roots_count : forall P, length (roots P) = root_count P.
Proof. intros P. unfold roots, root_count. rewrite !app_length, map_length, seq_length, !flat_map_length. lia. Qed.

Lemma fresh_le : forall P s, fresh P s <= root_count P.
Proof.
  intros P s. rewrite <- roots_count. unfold fresh. induction (roots P) as [|r l IH]; [cbn; lia|].
  cbn [filter]. destruct (is_fresh s r); cbn [length]; lia.
Qed.

Lemma root_in : forall P r e, root_expr P r = Some e -> In r (roots P).
Proof.
  intros P r e H. unfold roots. rewrite !in_app_iff.
  destruct r as [c|e' k|m k]; cbn [root_expr] in H.
  - left. apply in_map, in_seq. split; [lia|]. cbn. apply nth_error_Some. congruence.
  - right. left. unfold item_expr in H. destruct (nth_error (p_enums P) e') as [items|] eqn:E; [|discriminate].
    apply in_flat_map. exists e'. split; [apply in_seq; split; [lia|]; apply nth_error_Some; congruence|].
    apply in_map, in_seq. split; [lia|]. cbn. rewrite (nth_error_nth _ _ [] E).
    apply nth_error_Some. intros Hn. rewrite Hn in H. discriminate.
  - right. right. unfold item_expr in H. destruct (nth_error (p_masks P) m) as [items|] eqn:E; [|discriminate].
    apply in_flat_map. exists m. split; [apply in_seq; split; [lia|]; apply nth_error_Some; congruence|].
    apply in_map, in_seq. split; [lia|]. cbn. rewrite (nth_error_nth _ _ [] E).
    apply nth_error_Some. intros Hn. rewrite Hn in H. discriminate.
Qed.

Lemma filter_le : forall (f g : root -> bool) l, (forall r, In r l -> f r = true -> g r = true) ->
  length (filter f l) <= length (filter g l).
Proof.
  intros f g l H. induction l as [|r l IH]; [cbn; lia|]. cbn [filter].
  assert (IH' : length (filter f l) <= length (filter g l)) by (apply IH; intros; apply H; [right|]; assumption).
  destruct (f r) eqn:Ef; [rewrite (H r (or_introl eq_refl) Ef)|destruct (g r)]; cbn [length]; lia.
Qed.
Lemma filter_lt : forall (f g : root -> bool) l r, (forall r, In r l -> f r = true -> g r = true) ->
  In r l -> f r = false -> g r = true -> length (filter f l) < length (filter g l).
Proof.
  intros f g l r H Hin Hf Hg. induction l as [|x l IH]; [destruct Hin|]. cbn [filter].
  assert (Hl : length (filter f l) <= length (filter g l)) by (apply filter_le; intros; apply H; [right|]; assumption).
  destruct Hin as [->|Hin].
  - rewrite Hf, Hg. cbn [length]. lia.
  - assert (IH' : length (filter f l) < length (filter g l)) by (apply IH; [intros; apply H; [right|]; assumption|exact Hin]).
    destruct (f x) eqn:Ef; [rewrite (H x (or_introl eq_refl) Ef)|destruct (g x)]; cbn [length]; lia.
Qed.

(** ** Invariants *)

(** Later stores: roots are not reset, those in progress or complete are left
    alone. *)
Definition later (s s' : store) : Prop :=
  (forall r, is_fresh s' r = true -> is_fresh s r = true) /\
  (forall r v, s r = Slot Complete v -> s' r = Slot Complete v) /\
  (forall r v, s r = Slot InProgress v -> s' r = Slot InProgress v).
Lemma later_refl : forall s, later s s.
Proof. unfold later. auto. Qed.
Lemma later_trans : forall a b c, later a b -> later b c -> later a c.
Proof. unfold later. intros a b c (A1 & A2 & A3) (B1 & B2 & B3). auto. Qed.
Lemma later_fresh : forall P s s', later s s' -> fresh P s' <= fresh P s.
Proof. intros P s s' (H & _). apply filter_le. auto. Qed.

(** Items without expression, once they have a value, have the right one. *)
Definition items_right (mk : nat -> root) (next : option result -> option result) (items : list (string * option expr)) (s : store) : Prop :=
  forall k name v p, nth_error items k = Some (name, None) -> s (mk k) = Slot p v ->
  p = Complete /\
  match k with
  | O => next None = Some v
  | S j => exists w, s (mk j) = Slot Complete w /\ next (Some w) = Some v
  end.
Definition sound (P : program) (s : store) : Prop :=
  (forall r e, root_expr P r = Some e -> s r <> Absent) /\
  (forall e items, nth_error (p_enums P) e = Some items -> items_right (REnum e) enum_next items s) /\
  (forall m items, nth_error (p_masks P) m = Some items -> items_right (RMask m) mask_next items s).

Lemma sound_initial : forall P, sound P (initial P).
Proof.
  intros P. split; [|split].
  - intros r e H. unfold initial. rewrite H. discriminate.
  - intros e items He k name v p Hk Hs. unfold initial in Hs. cbn [root_expr] in Hs. unfold item_expr in Hs.
    rewrite He, Hk in Hs. discriminate.
  - intros e items He k name v p Hk Hs. unfold initial in Hs. cbn [root_expr] in Hs. unfold item_expr in Hs.
    rewrite He, Hk in Hs. discriminate.
Qed.

Definition no_expr (P : program) (r : root) : Prop :=
  match r with
  | RConst _ => False
  | REnum e k => exists items name, nth_error (p_enums P) e = Some items /\ nth_error items k = Some (name, None)
  | RMask m k => exists items name, nth_error (p_masks P) m = Some items /\ nth_error items k = Some (name, None)
  end.

Lemma items_right_set : forall mk next items s r v,
  (forall a b, mk a = mk b -> a = b) ->
  items_right mk next items s ->
  (forall k, mk k = r -> forall name, nth_error items k <> Some (name, None)) ->
  (forall w, s r <> Slot Complete w) ->
  items_right mk next items (set s r v).
Proof.
  intros mk next items s r v Hinj H Hr Hc k name w p Hk Hs.
  destruct (root_eqb r (mk k)) eqn:E.
  { apply root_eqb_spec in E. symmetry in E. exfalso. exact (Hr k E name Hk). }
  unfold set in Hs. rewrite E in Hs. destruct (H k name w p Hk Hs) as (Hp & Hm). split; [exact Hp|].
  destruct k as [|j]; [exact Hm|]. destruct Hm as (x & Hx & Hn). exists x. split; [|exact Hn].
  unfold set. destruct (root_eqb r (mk j)) eqn:E'; [|exact Hx]. apply root_eqb_spec in E'. subst r. exfalso. exact (Hc _ Hx).
Qed.

(** Setting a root that has an expression and is not complete. *)
Lemma sound_set : forall P s r e p v, sound P s -> root_expr P r = Some e -> (forall w, s r <> Slot Complete w) ->
  sound P (set s r (Slot p v)).
Proof.
  intros P s r e p v (H1 & H2 & H3) Hr Hc. split; [|split].
  - intros r' e' Hr'. unfold set. destruct (root_eqb r r'); [discriminate|exact (H1 _ _ Hr')].
  - intros en items He. apply items_right_set; auto.
    + congruence.
    + intros k <- name Hk. cbn [root_expr] in Hr. unfold item_expr in Hr. rewrite He, Hk in Hr. discriminate.
  - intros en items He. apply items_right_set; auto.
    + congruence.
    + intros k <- name Hk. cbn [root_expr] in Hr. unfold item_expr in Hr. rewrite He, Hk in Hr. discriminate.
Qed.

Definition good (P : program) (n : nat) (s : store) : Prop := fresh P s <= n /\ sound P s.

(** What is assumed of evaluating a root, and shown of everything else. *)
Definition steps (P : program) (n : nat) (s s' : store) (x : status) : Prop :=
  good P n s' /\ later s s' /\ x <> SNoFuel.
Definition deref_ok (P : program) (n : nat) (deref : root -> store -> store * status) : Prop :=
  forall r s, good P n s ->
  steps P n s (fst (deref r s)) (snd (deref r s)) /\
  (snd (deref r s) = SOk -> exists v, fst (deref r s) r = Slot Complete v).

Lemma steps_refl : forall P n s x, good P n s -> x <> SNoFuel -> steps P n s s x.
Proof. intros. split; [assumption|]. split; [apply later_refl|assumption]. Qed.
Lemma steps_trans : forall P n a b c x y, steps P n a b x -> steps P n b c y -> steps P n a c y.
Proof.
  intros P n a b c x y (A1 & A2 & A3) (B1 & B2 & B3). split; [exact B1|]. split; [eapply later_trans; eassumption|exact B3].
Qed.

Lemma items_ok : forall P n deref mk next (items : list (string * option expr)),
  deref_ok P n deref ->
  (forall a b, mk a = mk b -> a = b) ->
  (forall s k v, good P n s -> (exists name, nth_error items k = Some (name, None)) -> s (mk k) = Absent ->
     (match k with O => next None = Some v | S j => exists w, s (mk j) = Slot Complete w /\ next (Some w) = Some v end) ->
     good P n (set s (mk k) (Slot Complete v))) ->
  (forall s k, good P n s -> k < length items -> s (mk k) = Absent -> exists name, nth_error items k = Some (name, None)) ->
  forall todo k s, good P n s -> k + todo = length items ->
  (forall j, j < k -> exists v, s (mk j) = Slot Complete v) ->
  let x := eval_items deref mk next todo k s in
  steps P n s (fst x) (snd x) /\
  (snd x = SOk -> forall j, j < length items -> exists v, fst x (mk j) = Slot Complete v).
Proof.
  intros P n deref mk next items Hd Hinj Hset Habs. induction todo as [|todo IH]; intros k s Hg Hk Hj; cbn [eval_items].
  - split; [apply steps_refl; [exact Hg|discriminate]|]. cbn [fst snd]. intros _ j Hl. apply Hj. lia.
  - destruct (s (mk k)) as [|p v] eqn:Es.
    + set (prev := match k with O => None | S j => Some (slot_result (s (mk j))) end).
      destruct (next prev) as [r|] eqn:En.
      * assert (Hm : match k with O => next None = Some r | S j => exists w, s (mk j) = Slot Complete w /\ next (Some w) = Some r end).
        { subst prev. destruct k as [|j]; [exact En|]. destruct (Hj j ltac:(lia)) as (w & Hw). exists w. split; [exact Hw|].
          rewrite Hw in En. exact En. }
        assert (Hg' : good P n (set s (mk k) (Slot Complete r))) by (apply Hset; [exact Hg|apply (Habs s); [exact Hg|lia|exact Es]|exact Es|exact Hm]).
        assert (Hl : later s (set s (mk k) (Slot Complete r))).
        { split; [|split].
          - intros r'. unfold is_fresh, set. destruct (root_eqb (mk k) r'); [discriminate|auto].
          - intros r' v Hv. rewrite set_other; [exact Hv|]. intros <-. congruence.
          - intros r' v Hv. rewrite set_other; [exact Hv|]. intros <-. congruence. }
        destruct (IH (S k) (set s (mk k) (Slot Complete r))) as (S1 & S2).
        { exact Hg'. } { lia. }
        { intros j Hjk. destruct (Nat.eq_dec j k) as [->|Hne]; [exists r; apply set_same|].
          destruct (Hj j ltac:(lia)) as (w & Hw). exists w. rewrite set_other; [exact Hw|]. intros Heq. apply Hinj in Heq. lia. }
        split; [|exact S2]. eapply steps_trans; [|exact S1]. split; [exact Hg'|]. split; [exact Hl|]. instantiate (1 := SOk). discriminate.
      * split; [apply steps_refl; [exact Hg|discriminate]|]. cbn. discriminate.
    + destruct (Hd (mk k) s Hg) as (S1 & S2). destruct (deref (mk k) s) as [s' x]. cbn [fst snd] in *.
      destruct x; try (split; [exact S1|cbn; discriminate]).
      destruct S1 as (G1 & L1 & _). destruct (IH (S k) s') as (T1 & T2).
      { exact G1. } { lia. }
      { intros j Hjk. destruct (Nat.eq_dec j k) as [->|Hne]; [apply S2; reflexivity|].
        destruct (Hj j ltac:(lia)) as (w & Hw). exists w. apply L1. exact Hw. }
      split; [|exact T2]. eapply steps_trans; [|exact T1]. split; [exact G1|]. split; [exact L1|]. instantiate (1 := SOk). discriminate.
Qed.

(** Giving a value to an item that has no expression. *)
Lemma items_right_value : forall mk next items s k v,
  (forall a b, mk a = mk b -> a = b) ->
  items_right mk next items s -> s (mk k) = Absent ->
  (match k with O => next None = Some v | S j => exists w, s (mk j) = Slot Complete w /\ next (Some w) = Some v end) ->
  items_right mk next items (set s (mk k) (Slot Complete v)).
Proof.
  intros mk next items s k v Hinj H Ha Hm k' name w p Hk' Hs.
  destruct (Nat.eq_dec k k') as [<-|Hne].
  - rewrite set_same in Hs. injection Hs as <- <-. split; [reflexivity|]. destruct k as [|j]; [exact Hm|].
    destruct Hm as (x & Hx & Hn). exists x. split; [|exact Hn]. rewrite set_other; [exact Hx|]. intros Heq. apply Hinj in Heq. lia.
  - rewrite set_other in Hs by (intros Heq; apply Hinj in Heq; contradiction).
    destruct (H k' name w p Hk' Hs) as (Hp & Hm'). split; [exact Hp|]. destruct k' as [|j]; [exact Hm'|].
    destruct Hm' as (x & Hx & Hn). exists x. split; [|exact Hn]. rewrite set_other; [exact Hx|].
    intros Heq. rewrite Heq in Ha. congruence.
Qed.
Lemma items_right_other : forall mk next items s r v, (forall k, mk k <> r) ->
  items_right mk next items s -> items_right mk next items (set s r v).
Proof.
  intros mk next items s r v Hr H k name w p Hk Hs. rewrite set_other in Hs by (intros Heq; exact (Hr k (eq_sym Heq))).
  destruct (H k name w p Hk Hs) as (Hp & Hm). split; [exact Hp|]. destruct k as [|j]; [exact Hm|].
  destruct Hm as (x & Hx & Hn). exists x. split; [|exact Hn]. rewrite set_other by (intros Heq; exact (Hr j (eq_sym Heq))). exact Hx.
Qed.

Lemma good_value_enum : forall P n e items, nth_error (p_enums P) e = Some items ->
  forall s k v, good P n s -> (exists name, nth_error items k = Some (name, None)) -> s (REnum e k) = Absent ->
  (match k with O => enum_next None = Some v | S j => exists w, s (REnum e j) = Slot Complete w /\ enum_next (Some w) = Some v end) ->
  good P n (set s (REnum e k) (Slot Complete v)).
Proof.
  intros P n e items He s k v (Hf & H1 & H2 & H3) (name & Hk) Ha Hm. split.
  - etransitivity; [|exact Hf]. apply filter_le. intros r _. unfold is_fresh, set.
    destruct (root_eqb (REnum e k) r) eqn:E; [discriminate|auto].
  - split; [|split].
    + intros r x Hr. unfold set. destruct (root_eqb (REnum e k) r); [discriminate|exact (H1 _ _ Hr)].
    + intros e' items' He'. destruct (Nat.eq_dec e e') as [<-|Hne].
      * apply items_right_value; [congruence|apply H2; exact He'|exact Ha|exact Hm].
      * apply items_right_other; [congruence|apply H2; exact He'].
    + intros m items' Hm'. apply items_right_other; [congruence|apply H3; exact Hm'].
Qed.
Lemma good_value_mask : forall P n e items, nth_error (p_masks P) e = Some items ->
  forall s k v, good P n s -> (exists name, nth_error items k = Some (name, None)) -> s (RMask e k) = Absent ->
  (match k with O => mask_next None = Some v | S j => exists w, s (RMask e j) = Slot Complete w /\ mask_next (Some w) = Some v end) ->
  good P n (set s (RMask e k) (Slot Complete v)).
Proof.
  intros P n e items He s k v (Hf & H1 & H2 & H3) (name & Hk) Ha Hm. split.
  - etransitivity; [|exact Hf]. apply filter_le. intros r _. unfold is_fresh, set.
    destruct (root_eqb (RMask e k) r) eqn:E; [discriminate|auto].
  - split; [|split].
    + intros r x Hr. unfold set. destruct (root_eqb (RMask e k) r); [discriminate|exact (H1 _ _ Hr)].
    + intros m items' Hm'. apply items_right_other; [congruence|apply H2; exact Hm'].
    + intros e' items' He'. destruct (Nat.eq_dec e e') as [<-|Hne].
      * apply items_right_value; [congruence|apply H3; exact He'|exact Ha|exact Hm].
      * apply items_right_other; [congruence|apply H3; exact He'].
Qed.

Lemma enum_ok : forall P n deref e s, deref_ok P n deref -> good P n s ->
  let x := eval_enum deref P e s in
  steps P n s (fst x) (snd x) /\
  (snd x = SOk -> forall items, nth_error (p_enums P) e = Some items -> forall j, j < length items -> exists v, fst x (REnum e j) = Slot Complete v).
Proof.
  intros P n deref e s Hd Hg. unfold eval_enum. destruct (nth_error (p_enums P) e) as [items|] eqn:He; cbn zeta.
  - destruct (items_ok P n deref (REnum e) enum_next items Hd ltac:(congruence) (good_value_enum P n e items He)) with (todo := length items) (k := 0) (s := s) as (S1 & S2).
    + intros s' k (_ & H1 & _) Hk Ha. destruct (nth_error items k) as [[name [x|]]|] eqn:Ek.
      * exfalso. apply (H1 (REnum e k) x); [|exact Ha]. cbn [root_expr]. unfold item_expr. rewrite He, Ek. reflexivity.
      * exists name. reflexivity.
      * apply nth_error_None in Ek. lia.
    + exact Hg.
    + reflexivity.
    + intros j Hj. lia.
    + split; [exact S1|]. intros Hx items' Hi. injection Hi as <-. apply S2. exact Hx.
  - split; [apply steps_refl; [exact Hg|discriminate]|]. cbn. discriminate.
Qed.
Lemma mask_ok : forall P n deref e s, deref_ok P n deref -> good P n s ->
  let x := eval_mask deref P e s in
  steps P n s (fst x) (snd x) /\
  (snd x = SOk -> forall items, nth_error (p_masks P) e = Some items -> forall j, j < length items -> exists v, fst x (RMask e j) = Slot Complete v).
Proof.
  intros P n deref e s Hd Hg. unfold eval_mask. destruct (nth_error (p_masks P) e) as [items|] eqn:He; cbn zeta.
  - destruct (items_ok P n deref (RMask e) mask_next items Hd ltac:(congruence) (good_value_mask P n e items He)) with (todo := length items) (k := 0) (s := s) as (S1 & S2).
    + intros s' k (_ & H1 & _) Hk Ha. destruct (nth_error items k) as [[name [x|]]|] eqn:Ek.
      * exfalso. apply (H1 (RMask e k) x); [|exact Ha]. cbn [root_expr]. unfold item_expr. rewrite He, Ek. reflexivity.
      * exists name. reflexivity.
      * apply nth_error_None in Ek. lia.
    + exact Hg.
    + reflexivity.
    + intros j Hj. lia.
    + split; [exact S1|]. intros Hx items' Hi. injection Hi as <-. apply S2. exact Hx.
  - split; [apply steps_refl; [exact Hg|discriminate]|]. cbn. discriminate.
Qed.

Lemma name_ok : forall P n deref look name s, deref_ok P n deref -> good P n s ->
  steps P n s (fst (eval_name deref look name s)) (snd (snd (eval_name deref look name s))).
Proof.
  intros P n deref look name s Hd Hg. unfold eval_name.
  assert (F : forall r, let x := (match s r with
    | Absent => (s, (blank true, SPanic))
    | Slot _ _ => match deref r s with
        | (s', SPanic) => (s', (blank true, SPanic))
        | (s', SNoFuel) => (s', (blank true, SNoFuel))
        | (s', _) => (s', (copy_result true (slot_result (s' r)), SOk))
        end end) in steps P n s (fst x) (snd (snd x))).
  { intros r. destruct (s r); cbn zeta; [apply steps_refl; [exact Hg|discriminate]|].
    destruct (Hd r s Hg) as ((S1 & S2 & S3) & _). destruct (deref r s) as [s' x]. cbn [fst snd] in *.
    destruct x; cbn [fst snd]; (split; [exact S1|split; [exact S2|]]); try discriminate. exact S3. }
  destruct (look name) as [[c|e|m|e k|t nat]|]; try exact (F _); apply steps_refl; try exact Hg; discriminate.
Qed.

Lemma dot_ok : forall P n deref look t i s, deref_ok P n deref -> good P n s ->
  steps P n s (fst (eval_dot deref P look t i s)) (snd (snd (eval_dot deref P look t i s))).
Proof.
  intros P n deref look t i s Hd Hg. unfold eval_dot.
  destruct (look t) as [[c|e|m|e k|ty nat]|]; try (apply steps_refl; [exact Hg|discriminate]).
  - destruct (find_item i (nth e (p_enums P) []) 0) as [k|]; [|apply steps_refl; [exact Hg|discriminate]].
    assert (F : let x := (match eval_enum deref P e s with
              | (s', SOk) => (s', (copy_result false (slot_result (s' (REnum e k))), SOk))
              | (s', x) => (s', (blank false, x)) end) in steps P n s (fst x) (snd (snd x))).
    { destruct (enum_ok P n deref e s Hd Hg) as (S1 & _). destruct (eval_enum deref P e s) as [s' x].
      cbn [fst snd] in S1. destruct x; cbn [fst snd]; exact S1. }
    destruct (s (REnum e k)) as [|[]]; try exact F; apply steps_refl; try exact Hg; discriminate.
  - destruct (find_item i (nth m (p_masks P) []) 0) as [k|]; [|apply steps_refl; [exact Hg|discriminate]].
    destruct (s (RMask m k)); apply steps_refl; try exact Hg; discriminate.
Qed.

(** No operator needs fuel. *)
Lemma unary_fuel : forall op, In op [eval_paren; eval_unary true; eval_unary false; eval_not; eval_tilde; eval_valueof; eval_numbits] ->
  forall full a, snd (op full a) <> SNoFuel.
Proof.
  intros op H full a. cbn [In] in H.
  destruct H as [<-|[<-|[<-|[<-|[<-|[<-|[<-|[]]]]]]]];
    unfold eval_paren, eval_unary, eval_not, eval_tilde, eval_valueof, eval_numbits;
    repeat match goal with |- context [if ?b then _ else _] => destruct b end; discriminate.
Qed.
Lemma arith_fuel : forall op full a b, snd (eval_arith op full a b) <> SNoFuel.
Proof.
  intros op full a b. unfold eval_arith.
  repeat (match goal with
  | |- context [if ?b then _ else _] => destruct b
  | |- context [match arithmetic_type a b with _ => _ end] => destruct (arithmetic_type a b) as [[? ?]|]
  | |- context [match int_arith ?o ?x ?y with _ => _ end] => destruct (int_arith o x y)
  | |- context [match float_arith ?o ?x ?y with _ => _ end] => destruct (float_arith o x y)
  end; try discriminate); destruct op; discriminate.
Qed.
Lemma compare_fuel : forall op full a b, snd (eval_compare op full a b) <> SNoFuel.
Proof.
  intros op full a b. unfold eval_compare.
  destruct (negb _ && _ && _ && _ && _); [discriminate|].
  destruct (int_type _); [discriminate|]. destruct (ety_eqb _ TyFloat).
  - destruct (float_compare _ _ _); discriminate.
  - destruct (ety_eqb _ TyString); [|discriminate]. destruct (string_compare _ _ _); discriminate.
Qed.
Lemma bitwise_fuel : forall op full a b, snd (eval_bitwise op full a b) <> SNoFuel.
Proof.
  intros op full a b. unfold eval_bitwise. destruct (_ && _); [|discriminate].
  destruct (int_bitwise _ _ _); discriminate.
Qed.
Lemma logic_fuel : forall op full a b, snd (eval_logic op full a b) <> SNoFuel.
Proof. intros. unfold eval_logic. destruct (_ && _); discriminate. Qed.
Lemma isset_fuel : forall full a b, snd (eval_isset full a b) <> SNoFuel.
Proof. intros. unfold eval_isset. destruct (_ && _); discriminate. Qed.
Lemma ternary_fuel : forall full a b c, snd (eval_ternary full a b c) <> SNoFuel.
Proof. intros. unfold eval_ternary. destruct (ety_eqb _ _); discriminate. Qed.

Lemma expr_ok : forall P n deref look e, deref_ok P n deref -> forall s, good P n s ->
  steps P n s (fst (eval_expr deref P look e s)) (snd (snd (eval_expr deref P look e s))).
Proof.
  intros P n deref look e Hd.
  assert (U : forall op a, (forall full r, snd (op full r) <> SNoFuel) ->
    (forall s, good P n s -> steps P n s (fst (eval_expr deref P look a s)) (snd (snd (eval_expr deref P look a s)))) ->
    forall s, good P n s ->
    let x := match eval_expr deref P look a s with
             | (s1, (ra, SOk)) => (s1, op (r_full ra) ra)
             | (s1, (_, x)) => (s1, (blank true, x)) end in
    steps P n s (fst x) (snd (snd x))).
  { intros op a Hop IH s Hg. specialize (IH s Hg). destruct (eval_expr deref P look a s) as [s1 [ra x]].
    cbn [fst snd] in IH. destruct IH as (G & L & F). destruct x; cbn [fst snd]; (split; [exact G|split; [exact L|]]); try discriminate.
    - apply Hop.
    - exact F. }
  assert (B : forall op a b, (forall full r r', snd (op full r r') <> SNoFuel) ->
    (forall s, good P n s -> steps P n s (fst (eval_expr deref P look a s)) (snd (snd (eval_expr deref P look a s)))) ->
    (forall s, good P n s -> steps P n s (fst (eval_expr deref P look b s)) (snd (snd (eval_expr deref P look b s)))) ->
    forall s, good P n s ->
    let x := match eval_expr deref P look a s with
             | (s1, (ra, SOk)) =>
                 match eval_expr deref P look b s1 with
                 | (s2, (rb, SOk)) => (s2, op (r_full ra && r_full rb) ra rb)
                 | (s2, (_, x)) => (s2, (blank (r_full ra), x)) end
             | (s1, (_, x)) => (s1, (blank true, x)) end in
    steps P n s (fst x) (snd (snd x))).
  { intros op a b Hop IHa IHb s Hg. specialize (IHa s Hg). destruct (eval_expr deref P look a s) as [s1 [ra x]].
    cbn [fst snd] in IHa. destruct IHa as (G & L & F).
    destruct x; try (cbn [fst snd]; split; [exact G|split; [exact L|exact F]]).
    specialize (IHb s1 G). destruct (eval_expr deref P look b s1) as [s2 [rb y]]. cbn [fst snd] in IHb.
    assert (T : steps P n s s2 y) by (eapply steps_trans; [|exact IHb]; split; [exact G|split; [exact L|exact F]]).
    destruct T as (G2 & L2 & F2).
    destruct y; cbn [fst snd]; (split; [exact G2|split; [exact L2|]]); try discriminate; [apply Hop|exact F2]. }
  assert (UF : forall op, In op [eval_paren; eval_unary true; eval_unary false; eval_not; eval_tilde; eval_valueof; eval_numbits] ->
    forall full a, snd (op full a) <> SNoFuel) by exact unary_fuel.
  induction e; intros s Hg; cbn [eval_expr]; cbn zeta;
    try (apply steps_refl; [exact Hg|discriminate]).
  - destruct (z <=? MaxInt64)%Z; apply steps_refl; try exact Hg; discriminate.
  - apply name_ok; assumption.
  - apply dot_ok; assumption.
  - apply (U eval_paren e); [apply UF; cbn; tauto|exact IHe|exact Hg].
  - apply (U (eval_unary minus) e); [apply UF; destruct minus; cbn; tauto|exact IHe|exact Hg].
  - apply (B (eval_arith op) e1 e2); [apply arith_fuel|exact IHe1|exact IHe2|exact Hg].
  - apply (U eval_not e); [apply UF; cbn; tauto|exact IHe|exact Hg].
  - apply (B (eval_logic both) e1 e2); [apply logic_fuel|exact IHe1|exact IHe2|exact Hg].
  - apply (B (eval_compare op) e1 e2); [apply compare_fuel|exact IHe1|exact IHe2|exact Hg].
  - specialize (IHe1 s Hg). destruct (eval_expr deref P look e1 s) as [s1 [ra x]]. cbn [fst snd] in IHe1.
    destruct IHe1 as (G & L & F). destruct x; try (cbn [fst snd]; split; [exact G|split; [exact L|exact F]]).
    specialize (IHe2 s1 G). destruct (eval_expr deref P look e2 s1) as [s2 [rb y]]. cbn [fst snd] in IHe2.
    assert (T : steps P n s s2 y) by (eapply steps_trans; [|exact IHe2]; split; [exact G|split; [exact L|exact F]]).
    clear G L F IHe2. destruct T as (G & L & F).
    destruct y; try (cbn [fst snd]; split; [exact G|split; [exact L|exact F]]).
    specialize (IHe3 s2 G). destruct (eval_expr deref P look e3 s2) as [s3 [rc z]]. cbn [fst snd] in IHe3.
    assert (T : steps P n s s3 z) by (eapply steps_trans; [|exact IHe3]; split; [exact G|split; [exact L|exact F]]).
    clear G L F IHe3. destruct T as (G & L & F).
    destruct z; cbn [fst snd]; (split; [exact G|split; [exact L|]]); try discriminate; [apply ternary_fuel|exact F].
  - apply (U eval_tilde e); [apply UF; cbn; tauto|exact IHe|exact Hg].
  - apply (B (eval_bitwise op) e1 e2); [apply bitwise_fuel|exact IHe1|exact IHe2|exact Hg].
  - apply (U eval_valueof e); [apply UF; cbn; tauto|exact IHe|exact Hg].
  - apply (U eval_numbits e); [apply UF; cbn; tauto|exact IHe|exact Hg].
  - apply (B eval_isset e1 e2); [apply isset_fuel|exact IHe1|exact IHe2|exact Hg].
Qed.

Lemma root_ok : forall P look fuel, deref_ok P fuel (eval_root fuel P look).
Proof.
  intros P look. induction fuel as [|f IH]; intros r s Hg.
  - cbn [eval_root]. destruct (s r) as [|[] v] eqn:Es; cbn [fst snd].
    + split; [apply steps_refl; [exact Hg|discriminate]|discriminate].
    + destruct (root_expr P r) as [e|] eqn:Er.
      * exfalso. destruct Hg as (Hf & _). unfold fresh in Hf.
        assert (length (filter (fun _ : root => false) (roots P)) < length (filter (is_fresh s) (roots P))).
        { apply filter_lt with (r := r); [discriminate|eapply root_in; exact Er|reflexivity|unfold is_fresh; rewrite Es; reflexivity]. }
        lia.
      * split; [apply steps_refl; [exact Hg|discriminate]|discriminate].
    + split; [apply steps_refl; [exact Hg|discriminate]|discriminate].
    + split; [apply steps_refl; [exact Hg|discriminate]|]. intros _. exists v. exact Es.
  - cbn [eval_root]. destruct (s r) as [|[] v] eqn:Es; cbn [fst snd].
    + split; [apply steps_refl; [exact Hg|discriminate]|discriminate].
    + destruct (root_expr P r) as [e|] eqn:Er; [|split; [apply steps_refl; [exact Hg|discriminate]|discriminate]].
      set (s0 := set s r (Slot InProgress (blank true))).
      destruct Hg as (Hf & Hs).
      assert (G0 : good P f s0).
      { split.
        - assert (fresh P s0 < fresh P s); [|lia]. unfold fresh. apply filter_lt with (r := r).
          + intros r' _. unfold s0, is_fresh, set. destruct (root_eqb r r'); [discriminate|auto].
          + eapply root_in. exact Er.
          + unfold is_fresh, s0. rewrite set_same. reflexivity.
          + unfold is_fresh. rewrite Es. reflexivity.
        - eapply sound_set; [exact Hs|exact Er|]. intros w. rewrite Es. discriminate. }
      assert (L0 : later s s0).
      { split; [|split].
        - intros r'. unfold s0, is_fresh, set. destruct (root_eqb r r'); [discriminate|auto].
        - intros r' x Hx. unfold s0. rewrite set_other; [exact Hx|]. intros <-. congruence.
        - intros r' x Hx. unfold s0. rewrite set_other; [exact Hx|]. intros <-. congruence. }
      pose proof (expr_ok P f (eval_root f P look) look e IH s0 G0) as T.
      destruct (eval_expr (eval_root f P look) P look e s0) as [s1 [res x]]. cbn [fst snd] in T.
      destruct T as ((F1 & Sd1) & L1 & NF).
      assert (Hr1 : s1 r = Slot InProgress (blank true)) by (apply L1; unfold s0; apply set_same).
      assert (K : forall p w, p <> NotStarted -> good P (S f) (set s1 r (Slot p w)) /\ later s (set s1 r (Slot p w))).
      { intros p w Hp. split; [split|].
        - assert (fresh P (set s1 r (Slot p w)) <= fresh P s1); [|lia]. apply filter_le. intros r' _.
          unfold is_fresh, set. destruct (root_eqb r r'); [destruct p; [contradiction|discriminate|discriminate]|auto].
        - eapply sound_set; [exact Sd1|exact Er|]. intros x'. rewrite Hr1. discriminate.
        - assert (L2 : later s s1) by (eapply later_trans; eassumption). destruct L2 as (A1 & A2 & A3). split; [|split].
          + intros r'. unfold is_fresh at 1. unfold set. destruct (root_eqb r r'); [destruct p; [contradiction|discriminate|discriminate]|apply A1].
          + intros r' y Hy. rewrite set_other; [apply A2; exact Hy|]. intros <-. congruence.
          + intros r' y Hy. rewrite set_other; [apply A3; exact Hy|]. intros <-. congruence. }
      destruct x; cbn [fst snd].
      * destruct (K Complete res ltac:(discriminate)) as (K1 & K2). split; [split; [exact K1|split; [exact K2|discriminate]]|].
        intros _. exists res. apply set_same.
      * destruct (K InProgress res ltac:(discriminate)) as (K1 & K2). split; [split; [exact K1|split; [exact K2|discriminate]]|discriminate].
      * destruct (K InProgress res ltac:(discriminate)) as (K1 & K2). split; [split; [exact K1|split; [exact K2|discriminate]]|discriminate].
      * contradiction.
    + split; [apply steps_refl; [exact Hg|discriminate]|discriminate].
    + split; [apply steps_refl; [exact Hg|discriminate]|]. intros _. exists v. exact Es.
Qed.
