(** Facts about instances, CapitalizeNames and JSON names. *)

Require Import ZArith String Ascii List Bool Arith Lia Permutation.
From Verif Require Import Members Capitalize CapitalizeSpec.
Import ListNotations.
Open Scope string_scope.
Local Open Scope list_scope.

(** ** title *)

Lemma upper_upper : forall c, upper (upper c) = upper c.
Proof. intro c. destruct c as [[] [] [] [] [] [] [] []]; reflexivity. Qed.
Lemma title_title : forall s, title (title s) = title s.
Proof. intros [|c s]; [reflexivity|]. cbn. now rewrite upper_upper. Qed.

Lemma exported_title : forall n, letter_first n -> exported (title n) = true.
Proof.
  intros [|c s] H; [destruct H|]. cbn in *. destruct c as [[] [] [] [] [] [] [] []]; try reflexivity; exfalso; cbn in H; lia.
Qed.

(** ** Visits *)

Lemma assign_length : forall A (l : list A) p x, length (assign l p x) = length l.
Proof. induction l as [|y l IH]; intros [|p] x; cbn; try reflexivity. now rewrite IH. Qed.
Lemma nth_assign : forall A (l : list A) p q x, (p < length l)%nat -> nth_error (assign l p x) q = if (p =? q)%nat then Some x else nth_error l q.
Proof.
  induction l as [|y l IH]; intros [|p] [|q] x H; cbn in *; try lia; try reflexivity. apply IH. lia.
Qed.

Definition step (f : field) (d : bool) : field := if d then visit_default f else visit_case f.
Definition flags (p : nat) (l : list (nat * bool)) : list bool := map snd (filter (fun v => (fst v =? p)%nat) l).

Lemma nth_visit : forall h v p, nth_error (visit h v) p = if (fst v =? p)%nat then option_map (fun f => step f (snd v)) (nth_error h p) else nth_error h p.
Proof.
  intros h [q d] p. unfold visit. cbn [fst snd]. destruct (nth_error h q) as [f|] eqn:E.
  - rewrite nth_assign by (apply nth_error_Some; congruence). destruct (Nat.eqb_spec q p) as [->|]; [|reflexivity]. rewrite E. reflexivity.
  - destruct (Nat.eqb_spec q p) as [->|]; [|reflexivity]. now rewrite E.
Qed.

Lemma nth_visits : forall l h p, nth_error (fold_left visit l h) p = option_map (fun f => fold_left step (flags p l) f) (nth_error h p).
Proof.
  induction l as [|v l IH]; intros h p; cbn [fold_left flags filter map].
  - now destruct (nth_error h p).
  - rewrite IH, nth_visit. unfold flags. destruct (fst v =? p)%nat; cbn [map fold_left]; [|reflexivity]. now destruct (nth_error h p).
Qed.

Lemma title_type_twice : forall t, title_type (title_type t) = title_type t.
Proof. intros [b p n a]. unfold title_type. cbn. destruct b; cbn; [reflexivity|]. now rewrite title_title. Qed.

Lemma cases_twice : forall l f, Forall (eq false) l -> fold_left step l (visit_case (visit_case f)) = visit_case (visit_case f).
Proof.
  intros l f H. induction H as [|d l Hd H IH]; [reflexivity|]. subst d. cbn [fold_left step].
  replace (visit_case (visit_case (visit_case f))) with (visit_case (visit_case f)); [exact IH|].
  unfold visit_case. cbn. now rewrite !title_title, !title_type_twice.
Qed.
Lemma visited_cases : forall l f, Forall (eq false) l -> (2 <= length l)%nat ->
  let f' := fold_left step l f in f_name f' = title (f_name f) /\ f_zserio f' = title (f_name f).
Proof.
  intros [|a [|b l]] f H Hl; cbn in Hl; try lia. inversion H as [|? ? Ha H1]; subst. inversion H1 as [|? ? Hb H2]; subst.
  cbn [fold_left step]. rewrite cases_twice by assumption. cbn. now rewrite title_title.
Qed.
Lemma visited_defaults : forall l f, Forall (eq true) l -> (1 <= length l)%nat ->
  let f' := fold_left step l f in f_name f' = title (f_name f) /\ f_zserio f' = f_zserio f.
Proof.
  intros [|a l] f H Hl; cbn in Hl; [lia|]. clear Hl. inversion H as [|? ? Ha H1]; subst. cbn [fold_left step].
  assert (Hg : forall g, f_name g = title (f_name g) -> f_name (fold_left step l g) = f_name g /\ f_zserio (fold_left step l g) = f_zserio g).
  { clear H. induction H1 as [|d l Hd H IH]; intros g Hg; [now split|]. subst d. cbn [fold_left step].
    destruct (IH (visit_default g)) as [E1 E2]; [cbn; now rewrite title_title|]. rewrite E1, E2. cbn. now split. }
  destruct (Hg (visit_default f)) as [E1 E2]; [cbn; now rewrite title_title|]. rewrite E1, E2. now split.
Qed.

(** ** Flags *)

Lemma flags_app : forall p l l', flags p (l ++ l') = (flags p l ++ flags p l')%list.
Proof. intros. unfold flags. now rewrite filter_app, map_app. Qed.

Lemma Permutation_filter : forall A (f : A -> bool) l l', Permutation l l' -> Permutation (filter f l) (filter f l').
Proof.
  intros A f l l' H. induction H as [|x l l' H IH|x y l|l l' l'' H1 IH1 H2 IH2]; cbn.
  - constructor.
  - destruct (f x); [now constructor|assumption].
  - destruct (f x), (f y); try reflexivity. apply perm_swap.
  - now transitivity (filter f l').
Qed.
Lemma Permutation_flat : forall A B (f : A -> list B) l l', Permutation l l' -> Permutation (flat_map f l) (flat_map f l').
Proof.
  intros A B f l l' H. induction H as [|x l l' H IH|x y l|l l' l'' H1 IH1 H2 IH2]; cbn.
  - constructor.
  - now apply Permutation_app_head.
  - rewrite !app_assoc. apply Permutation_app_tail, Permutation_app_comm.
  - now transitivity (flat_map f l').
Qed.
Lemma flags_order : forall p cs order, Permutation order cs -> Permutation (flags p (flat_map visits_of order)) (flags p (flat_map visits_of cs)).
Proof. intros. unfold flags. now apply Permutation_map, Permutation_filter, Permutation_flat. Qed.

Lemma visits_pointers : forall c, map fst (visits_of c) = pointers c.
Proof.
  intros [i t fs d]. unfold visits_of, pointers. cbn. rewrite map_app, map_map. cbn. rewrite map_id. now destruct d.
Qed.
Lemma all_pointers : forall cs, map fst (flat_map visits_of cs) = flat_map pointers cs.
Proof. induction cs as [|c cs IH]; [reflexivity|]. cbn. now rewrite map_app, visits_pointers, IH. Qed.

Lemma in_flags : forall p d l, In d (flags p l) <-> In (p, d) l.
Proof.
  intros p d l. unfold flags. rewrite in_map_iff. split.
  - intros ((q, e) & He & H). apply filter_In in H as [H Hq]. cbn in *. apply Nat.eqb_eq in Hq. now subst.
  - intro H. exists (p, d). split; [reflexivity|]. apply filter_In. split; [assumption|apply Nat.eqb_refl].
Qed.
Lemma flags_length : forall p l, length (flags p l) = count_occ Nat.eq_dec (map fst l) p.
Proof.
  intros p l. unfold flags. rewrite map_length. induction l as [|[q d] l IH]; [reflexivity|]. cbn [filter map count_occ fst].
  destruct (Nat.eq_dec q p) as [->|Hn]; [rewrite Nat.eqb_refl|rewrite (proj2 (Nat.eqb_neq q p) Hn)]; cbn [length]; now rewrite ?IH.
Qed.

(** ** Instances *)

Definition templated (T : list (string * ftype)) (f : field) : bool :=
  match ft_args (f_type f) with
  | _ :: _ => true
  | [] => match lookup (ft_name (f_type f)) T with Some _ => ft_package (f_type f) =? "" | None => false end
  end.

(** The field at [p'] is made from that at [p]. *)
Definition made (h0 h : heap) (T : list (string * ftype)) (p p' : nat) : Prop :=
  exists f, nth_error h0 p = Some f /\
    (templated T f = true -> (length h0 <= p')%nat /\ exists f', nth_error h p' = Some f' /\ f_name f' = f_name f /\ f_zserio f' = f_zserio f) /\
    (templated T f = false -> p' = p).

Lemma field_made : forall inst T h p h' p', instantiateField inst T h p = Some (h', p') ->
  exists f, nth_error h p = Some f /\
   ((templated T f = true /\ p' = length h /\ exists f', h' = (h ++ [f'])%list /\ f_name f' = f_name f /\ f_zserio f' = f_zserio f) \/
    (templated T f = false /\ p' = p /\ h' = h)).
Proof.
  intros inst T h p h' p' H. unfold instantiateField in H. destruct (nth_error h p) as [f|] eqn:E; [|discriminate]. exists f. split; [reflexivity|].
  unfold templated. destruct (ft_args (f_type f)) as [|a l].
  - destruct (lookup (ft_name (f_type f)) T) as [t|].
    + destruct (ft_package (f_type f) =? ""); injection H as <- <-; [left|right]; repeat split. now eexists.
    + injection H as <- <-. right. now repeat split.
  - injection H as <- <-. left. repeat split. now eexists.
Qed.

(** The pointers from [n] on. *)
Definition fresh (n : nat) (l : list nat) : list nat := filter (fun p => (n <=? p)%nat) l.

Lemma made_grows : forall h0 h x T p p', made h0 h T p p' -> made h0 (h ++ x) T p p'.
Proof.
  intros h0 h x T p p' (f & Hf & Ht & Hn). exists f. split; [assumption|]. split; [|assumption]. intro E. destruct (Ht E) as (Hl & f' & Hf' & H).
  split; [assumption|]. exists f'. split; [|assumption]. rewrite nth_error_app1; [assumption|]. apply nth_error_Some. congruence.
Qed.

Lemma fields_made : forall inst T h0 l h h' r, instantiate_fields inst T h l = Some (h', r) -> (exists x, h = (h0 ++ x)%list) -> (forall p, In p l -> (p < length h0)%nat) ->
  (exists x, h' = (h ++ x)%list) /\ Forall2 (made h0 h' T) l r /\ NoDup (fresh (length h0) r) /\
  (forall p, In p (fresh (length h0) r) -> (length h <= p < length h')%nat).
Proof.
  intros inst T h0. induction l as [|p l IH]; intros h h' r H Hx Hl; cbn in H.
  - injection H as <- <-. split; [exists []; now rewrite app_nil_r|]. split; [constructor|]. split; [constructor|]. intros p [].
  - destruct (instantiateField inst T h p) as [[h1 p1]|] eqn:E1; [|discriminate].
    destruct (instantiate_fields inst T h1 l) as [[h2 r2]|] eqn:E2; [|discriminate]. injection H as <- <-.
    destruct (field_made _ _ _ _ _ _ E1) as (f & Hf & Hc). destruct Hx as (x & Hx).
    assert (Hp : (p < length h0)%nat) by (apply Hl; now left).
    assert (Hf0 : nth_error h0 p = Some f) by (rewrite Hx, nth_error_app1 in Hf by assumption; assumption).
    assert (Hg : exists y, h1 = (h ++ y)%list).
    { destruct Hc as [(_ & _ & f' & -> & _)|(_ & _ & ->)]; [now exists [f']|]. exists []. now rewrite app_nil_r. }
    destruct Hg as (y & Hy). destruct (IH h1 h2 r2 E2) as ((z & Hz) & Hm & Hnd & Hin).
    { exists (x ++ y)%list. now rewrite Hy, Hx, app_assoc. }
    { intros q Hq. apply Hl. now right. }
    assert (Hlen : (length h0 <= length h)%nat) by (rewrite Hx, app_length; lia).
    split; [exists (y ++ z)%list; now rewrite Hz, Hy, app_assoc|].
    destruct Hc as [(Ht & -> & f' & Hh1 & Hn & Hzs)|(Ht & -> & Hh1)].
    + split; [|split].
      * constructor; [|assumption]. exists f. split; [assumption|]. split; [|congruence]. intros _. split; [assumption|].
        exists f'. rewrite Hz, Hh1, nth_error_app1 by (rewrite app_length; cbn; lia). rewrite nth_error_app2, Nat.sub_diag by lia. now repeat split.
      * cbn [fresh filter]. replace (length h0 <=? length h)%nat with true by (symmetry; apply Nat.leb_le; lia). constructor; [|assumption].
        intro Hi. apply Hin in Hi. rewrite Hh1, app_length in Hi. cbn in Hi. lia.
      * intros q Hq. cbn [fresh filter] in Hq. replace (length h0 <=? length h)%nat with true in Hq by (symmetry; apply Nat.leb_le; lia).
        assert (Hl2 : (length h1 <= length h2)%nat) by (rewrite Hz, app_length; lia). rewrite Hh1, app_length in Hl2. cbn in Hl2.
        destruct Hq as [<-|Hq]; [lia|]. apply Hin in Hq. rewrite Hh1, app_length in Hq. cbn in Hq. lia.
    + subst h1. split; [|split].
      * constructor; [|assumption]. exists f. split; [assumption|]. split; [congruence|]. reflexivity.
      * cbn [fresh filter]. replace (length h0 <=? p)%nat with false by (symmetry; apply Nat.leb_gt; lia). assumption.
      * intros q Hq. cbn [fresh filter] in Hq. replace (length h0 <=? p)%nat with false in Hq by (symmetry; apply Nat.leb_gt; lia). now apply Hin.
Qed.

Lemma default_made : forall inst T h0 d h h' r, instantiate_default inst T h d = Some (h', r) -> (exists x, h = (h0 ++ x)%list) -> (forall p, d = Some p -> (p < length h0)%nat) ->
  (exists x, h' = (h ++ x)%list) /\
  match d, r with None, None => True | Some p, Some p' => made h0 h' T p p' | _, _ => False end /\
  (forall p, r = Some p -> (length h0 <= p)%nat -> (length h <= p < length h')%nat).
Proof.
  intros inst T h0 d h h' r H Hx Hl. destruct d as [p|]; cbn in H.
  - destruct (instantiateField inst T h p) as [[h1 p1]|] eqn:E; [|discriminate]. injection H as <- <-.
    assert (Hf : instantiate_fields inst T h [p] = Some (h1, [p1])) by (cbn; now rewrite E).
    destruct (fields_made _ _ h0 _ _ _ _ Hf Hx) as (Hy & Hm & _ & Hin); [intros q [<-|[]]; now apply Hl|].
    split; [assumption|]. split; [now inversion Hm|]. intros q Hq Hle. injection Hq as <-. apply Hin. cbn. now rewrite (proj2 (Nat.leb_le _ _) Hle); left.
  - injection H as <- <-. split; [exists []; now rewrite app_nil_r|]. split; [exact I|]. discriminate.
Qed.

(** An instance of a template of [cs0]. *)
Definition instance (h0 : heap) (cs0 : list compound) (h : heap) (c' : compound) : Prop :=
  exists c arguments, In c cs0 /\ c_templates c <> [] /\ length (c_templates c) = length arguments /\
    let T := combine (c_templates c) arguments in
    Forall2 (made h0 h T) (c_fields c) (c_fields c') /\
    match c_default c, c_default c' with None, None => True | Some p, Some p' => made h0 h T p p' | _, _ => False end.

Definition grown (h0 : heap) (cs0 : list compound) (m : model) : Prop :=
  (exists x, fst m = (h0 ++ x)%list) /\
  exists is, snd m = (cs0 ++ is)%list /\ Forall (instance h0 cs0 (fst m)) is /\ Forall (fun c => c_templates c = []) is /\
    NoDup (fresh (length h0) (flat_map pointers is)) /\ (forall p, In p (flat_map pointers is) -> (p < length (fst m))%nat).

Lemma Forall2_weaken : forall A B (P Q : A -> B -> Prop) l l', (forall a b, P a b -> Q a b) -> Forall2 P l l' -> Forall2 Q l l'.
Proof. intros A B P Q l l' H Hf. induction Hf; constructor; auto. Qed.
Lemma instance_grows : forall h0 cs0 h x c, instance h0 cs0 h c -> instance h0 cs0 (h ++ x) c.
Proof.
  intros h0 cs0 h x c (t & args & Ht & Hn & Hl & Hf & Hd). exists t, args. split; [assumption|]. split; [assumption|]. split; [assumption|]. cbn in *. split.
  - eapply Forall2_weaken; [|exact Hf]. intros p p'. apply made_grows.
  - destruct (c_default t), (c_default c); try assumption. now apply made_grows.
Qed.

Lemma fresh_app : forall n l l', fresh n (l ++ l') = fresh n l ++ fresh n l'.
Proof. intros. apply filter_app. Qed.
Lemma NoDup_app : forall A (l l' : list A), NoDup l -> NoDup l' -> (forall x, In x l -> ~ In x l') -> NoDup (l ++ l').
Proof.
  intros A l l' Hl Hl' H. induction Hl as [|x l Hx Hl IH]; [assumption|]. cbn. constructor.
  - intro Hi. apply in_app_or in Hi as [Hi|Hi]; [contradiction|]. apply (H x); [now left|assumption].
  - apply IH. intros y Hy. apply H. now right.
Qed.

Lemma instantiate_grown : forall h0 cs0 m q m', parsed (h0, cs0) -> grown h0 cs0 m -> instantiate m q = Some m' -> grown h0 cs0 m'.
Proof.
  intros h0 cs0 [h cs] q m' (Hnd & Hrange & _) Hg H. pose proof Hg as ((x & Hx) & is & Hcs & Hi & Ht & Hfr & Hlt). cbn [fst snd] in *.
  unfold instantiate in H. destruct (nth_error cs (q_template q)) as [c|] eqn:Ec; [|discriminate].
  destruct (q_arguments q) as [|a args] eqn:Ea; [discriminate|]. destruct (length (c_templates c) =? length (a :: args))%nat eqn:El; [|discriminate].
  cbn [negb] in H. destruct (existsb _ cs); [injection H as <-; exact Hg|].
  apply Nat.eqb_eq in El.
  assert (Hc : In c cs0).
  { apply nth_error_In in Ec. rewrite Hcs in Ec. apply in_app_or in Ec as [Ec|Ec]; [assumption|].
    rewrite Forall_forall in Ht. rewrite (Ht c Ec) in El. discriminate El. }
  destruct (instantiate_fields (q_inst q) _ h (c_fields c)) as [[h1 fs]|] eqn:E1; [|discriminate].
  destruct (instantiate_default (q_inst q) _ h1 (c_default c)) as [[h2 d]|] eqn:E2; [|discriminate]. injection H as <-.
  destruct (fields_made _ _ h0 _ _ _ _ E1) as ((y & Hy) & Hm & Hn & Hin); [now exists x| |].
  { intros p Hp. apply (Hrange c p Hc). apply in_or_app. now left. }
  destruct (default_made _ _ h0 _ _ _ _ E2) as ((z & Hz) & Hdm & Hd); [exists (x ++ y); now rewrite Hy, Hx, app_assoc| |].
  { intros p Hp. apply (Hrange c p Hc). apply in_or_app. right. rewrite Hp. now left. }
  assert (L1 : (length h0 <= length h)%nat) by (rewrite Hx, app_length; lia).
  assert (L2 : (length h <= length h1)%nat) by (rewrite Hy, app_length; lia).
  assert (L3 : (length h1 <= length h2)%nat) by (rewrite Hz, app_length; lia).
  set (new := mkC (q_id q) [] fs d).
  assert (Hnew : instance h0 cs0 h2 new).
  { exists c, (a :: args). split; [assumption|]. split; [intro E; rewrite E in El; discriminate El|]. split; [assumption|]. cbn [c_fields c_default new]. split; [|exact Hdm].
    rewrite Hz. eapply Forall2_weaken; [|exact Hm]. intros p p'. apply made_grows. }
  assert (Hall : forall l l', Forall2 (made h0 h1 (combine (c_templates c) (a :: args))) l l' -> forall p, In p l' -> (p < length h1)%nat).
  { intros l l' Hf. induction Hf as [|u v l l' Hu Hl IH]; intros p [].
    - subst v. destruct Hu as (f & Hf & Htr & Hfa). destruct (templated _ f).
      + destruct (Htr eq_refl) as (_ & f' & Hf' & _). apply nth_error_Some. congruence.
      + rewrite (Hfa eq_refl). apply Nat.lt_le_trans with (length h0); [|lia]. apply nth_error_Some. congruence.
    - now apply IH. }
  assert (Hdr : forall p, d = Some p -> (p < length h2)%nat).
  { intros p ->. destruct (c_default c) as [u|]; [|destruct Hdm]. destruct Hdm as (f & Hf & Htr & Hfa). destruct (templated _ f).
    - destruct (Htr eq_refl) as (_ & f' & Hf' & _). apply nth_error_Some. congruence.
    - rewrite (Hfa eq_refl). apply Nat.lt_le_trans with (length h0); [|lia]. apply nth_error_Some. congruence. }
  split; [exists (x ++ y ++ z); cbn [fst]; now rewrite Hz, Hy, Hx, !app_assoc|]. exists (is ++ [new]). cbn [fst snd]. split; [now rewrite Hcs, app_assoc|].
  split; [apply Forall_app; split; [|now constructor]; eapply Forall_impl; [|exact Hi]; intros c0 Hc0; rewrite Hz, Hy, <- app_assoc; now apply instance_grows|].
  split; [apply Forall_app; split; [assumption|now repeat constructor]|].
  rewrite flat_map_app. cbn [flat_map]. rewrite app_nil_r.
  assert (Hp : forall p, In p (fresh (length h0) (pointers new)) -> (length h <= p)%nat).
  { intros p Hp. unfold pointers in Hp. cbn [c_fields c_default new] in Hp. rewrite fresh_app in Hp. apply in_app_or in Hp as [Hp|Hp]; [apply Hin in Hp; lia|].
    destruct d as [u|]; [|destruct Hp]. apply filter_In in Hp as [[<-|[]] Hle]. apply Nat.leb_le in Hle. apply (Hd u) in Hle; [lia|reflexivity]. }
  split.
  - rewrite fresh_app. apply NoDup_app; [assumption| |].
    + unfold pointers. cbn [c_fields c_default new]. rewrite fresh_app. apply NoDup_app; [assumption| |].
      * destruct d as [u|]; [|constructor]. cbn. destruct (length h0 <=? u)%nat; repeat constructor. intros [].
      * intros p Hp1 Hp2. destruct d as [u|]; [|destruct Hp2]. apply filter_In in Hp2 as [[<-|[]] Hle]. apply Nat.leb_le in Hle.
        apply Hin in Hp1. apply (Hd u) in Hle; [lia|reflexivity].
    + intros p Hp1 Hp2. apply Hp in Hp2. apply filter_In in Hp1 as [Hp1 _]. apply Hlt in Hp1. lia.
  - intros p Hpp. apply in_app_or in Hpp as [Hpp|Hpp]; [apply Hlt in Hpp; lia|]. unfold pointers in Hpp. cbn [c_fields c_default new] in Hpp.
    apply in_app_or in Hpp as [Hpp|Hpp]; [apply (Hall _ _ Hm) in Hpp; lia|]. destruct d as [u|]; [|destruct Hpp]. destruct Hpp as [<-|[]]. now apply Hdr.
Qed.

Lemma all_grown : forall h0 cs0 qs m m', parsed (h0, cs0) -> grown h0 cs0 m -> instantiate_all m qs = Some m' -> grown h0 cs0 m'.
Proof.
  intros h0 cs0. induction qs as [|q qs IH]; intros m m' Hp Hg H; cbn in H; [injection H as <-; assumption|].
  destruct (instantiate m q) as [m1|] eqn:E; [|discriminate]. apply (IH m1); try assumption. now apply (instantiate_grown h0 cs0 m q).
Qed.
Lemma start_grown : forall h0 cs0 qs m', parsed (h0, cs0) -> instantiate_all (h0, cs0) qs = Some m' -> grown h0 cs0 m'.
Proof.
  intros h0 cs0 qs m' Hp H. apply (all_grown h0 cs0 qs (h0, cs0)); try assumption. split; [exists []; cbn; now rewrite app_nil_r|].
  exists []. cbn. rewrite app_nil_r. split; [reflexivity|]. split; [constructor|]. split; [constructor|]. split; [constructor|]. intros p [].
Qed.

(** ** Who visits a field *)

Lemma lookup_combine : forall A n ts (args : list A), length ts = length args -> (exists t, lookup n (combine ts args) = Some t) <-> In n ts.
Proof.
  induction ts as [|t ts IH]; intros [|a args] H; try discriminate; cbn.
  - split; [intros (t & Ht); discriminate|intros []].
  - injection H as H. destruct (String.eqb_spec t n) as [->|Hn].
    + split; [now left|]. intros _. now exists a.
    + rewrite (IH args H). split; [now right|]. intros [->|Hi]; [congruence|assumption].
Qed.
Lemma templated_depends : forall ts args f, length ts = length args -> templated (combine ts args) f = true <-> depends ts f.
Proof.
  intros ts args f H. unfold templated, depends. destruct (ft_args (f_type f)) as [|a l].
  - pose proof (lookup_combine _ (ft_name (f_type f)) ts args H) as Hl. destruct (lookup (ft_name (f_type f)) (combine ts args)) as [t|].
    + rewrite String.eqb_eq. split; [|tauto]. intro E. right. split; [assumption|]. apply Hl. now exists t.
    + split; [discriminate|]. intros [[]|[_ Hi]]; [reflexivity|]. apply Hl in Hi as (t & Ht). discriminate.
  - split; [|reflexivity]. intros _. left. discriminate.
Qed.

Lemma in_visits : forall c p, In p (pointers c) <-> exists d, In (p, d) (visits_of c).
Proof.
  intros c p. rewrite <- visits_pointers, in_map_iff. split.
  - intros ((q, d) & <- & H). now exists d.
  - intros (d & H). now exists (p, d).
Qed.
Lemma case_visits : forall c p, In (p, false) (visits_of c) <-> In p (c_fields c).
Proof.
  intros c p. unfold visits_of. rewrite in_app_iff, in_map_iff. split.
  - intros [(q & Hq & H)|H]; [congruence|]. destruct (c_default c); [|destruct H]. destruct H as [H|[]]. discriminate.
  - intro H. left. now exists p.
Qed.
Lemma default_visits : forall c p, In (p, true) (visits_of c) <-> c_default c = Some p.
Proof.
  intros c p. unfold visits_of. rewrite in_app_iff, in_map_iff. split.
  - intros [(q & Hq & H)|H]; [congruence|]. destruct (c_default c); [|destruct H]. destruct H as [H|[]]. congruence.
  - intros ->. right. now left.
Qed.

Lemma NoDup_owner : forall A B (f : A -> list B) l a b x, NoDup (flat_map f l) -> In a l -> In b l -> In x (f a) -> In x (f b) -> a = b.
Proof.
  induction l as [|y l IH]; intros a b x H Ha Hb Hxa Hxb; [destruct Ha|]. cbn in H.
  assert (Hd : forall z, In z (f y) -> ~ In z (flat_map f l)).
  { intros z Hz Hz'. clear -H Hz Hz'. induction (f y) as [|w r IHr]; [destruct Hz|]. cbn in H. inversion H as [|? ? Hw Hr]; subst.
    destruct Hz as [->|Hz]; [apply Hw, in_or_app; now right|now apply IHr]. }
  assert (Hl : NoDup (flat_map f l)) by (clear -H; induction (f y) as [|w r IHr]; [assumption|]; inversion H; subst; now apply IHr).
  destruct Ha as [<-|Ha], Hb as [<-|Hb]; try reflexivity.
  - exfalso. apply (Hd x Hxa). apply in_flat_map. now exists b.
  - exfalso. apply (Hd x Hxb). apply in_flat_map. now exists a.
  - now apply (IH a b x).
Qed.

Lemma once : forall p d l, NoDup (map fst l) -> In (p, d) l -> flags p l = [d].
Proof.
  intros p d l Hn Hi. assert (Hl : length (flags p l) = 1%nat).
  { rewrite flags_length. apply NoDup_count_occ'; [assumption|]. now apply (in_map fst) in Hi. }
  apply in_flags in Hi. destruct (flags p l) as [|a [|b r]]; try discriminate Hl. destruct Hi as [->|[]]. reflexivity.
Qed.
Lemma never : forall p l, ~ In p (map fst l) -> flags p l = [].
Proof.
  intros p l H. destruct (flags p l) as [|d r] eqn:E; [reflexivity|]. exfalso. apply H. apply (in_map fst l (p, d)). apply in_flags. rewrite E. now left.
Qed.

Lemma made_old : forall h0 h T p p', made h0 h T p p' -> (p' < length h0)%nat -> p' = p.
Proof. intros h0 h T p p' (f & Hf & Ht & Hn) H. destruct (templated T f); [destruct (Ht eq_refl); lia|now apply Hn]. Qed.

Lemma shared_visits : forall h0 cs0 h i p d, instance h0 cs0 h i -> In (p, d) (visits_of i) -> (p < length h0)%nat ->
  exists c, In c cs0 /\ c_templates c <> [] /\ In (p, d) (visits_of c).
Proof.
  intros h0 cs0 h i p d (c & args & Hc & Hn & _ & Hf & Hd) Hv Hp. exists c. split; [assumption|]. split; [assumption|]. destruct d.
  - apply default_visits in Hv. apply default_visits. rewrite Hv in Hd. destruct (c_default c) as [u|]; [|destruct Hd]. f_equal. symmetry. now apply (made_old _ _ _ _ _ Hd).
  - apply case_visits in Hv. apply case_visits. clear -Hf Hv Hp. induction Hf as [|u v l l' Hu Hl IH]; [destruct Hv|].
    destruct Hv as [->|Hv]; [left; symmetry; now apply (made_old _ _ _ _ _ Hu)|right; now apply IH].
Qed.


(** The visits of the types that were read, and of the instances. *)
Lemma whole : forall h0 cs0 qs h cs order, parsed (h0, cs0) -> instantiate_all (h0, cs0) qs = Some (h, cs) -> Permutation order cs ->
  exists x is, h = h0 ++ x /\ cs = cs0 ++ is /\ (Forall (instance h0 cs0 h) is /\ NoDup (fresh (length h0) (flat_map pointers is))) /\
    forall p, exists l, (forall f, nth_error h p = Some f -> nth_error (CapitalizeNames h order) p = Some (fold_left step l f)) /\
      Permutation l (flags p (flat_map visits_of cs0) ++ flags p (flat_map visits_of is)).
Proof.
  intros h0 cs0 qs h cs order Hp H Ho. destruct (start_grown _ _ _ _ Hp H) as ((x & Hx) & is & Hcs & Hi & _ & Hfr & _). cbn [fst snd] in *.
  exists x, is. split; [assumption|]. split; [assumption|]. split; [now split|]. intro p. exists (flags p (flat_map visits_of order)). split.
  - intros f Hf. unfold CapitalizeNames. now rewrite nth_visits, Hf.
  - rewrite <- flags_app, <- flat_map_app, <- Hcs. now apply flags_order.
Qed.

Lemma old_flags : forall h0 cs0 p d c, parsed (h0, cs0) -> In c cs0 -> In (p, d) (visits_of c) -> flags p (flat_map visits_of cs0) = [d].
Proof.
  intros h0 cs0 p d c (Hn & _) Hc Hv. apply once; [now rewrite all_pointers|]. apply in_flat_map. now exists c.
Qed.
Lemma old_range : forall h0 cs0 p d c, parsed (h0, cs0) -> In c cs0 -> In (p, d) (visits_of c) -> (p < length h0)%nat.
Proof. intros h0 cs0 p d c (_ & Hr & _) Hc Hv. apply (Hr c p Hc). apply in_visits. now exists d. Qed.

(** A field of a type that is not a template. *)
Lemma declared_flags : forall h0 cs0 h is p d c, parsed (h0, cs0) -> Forall (instance h0 cs0 h) is -> In c cs0 -> c_templates c = [] -> In (p, d) (visits_of c) ->
  flags p (flat_map visits_of is) = [].
Proof.
  intros h0 cs0 h is p d c Hp Hi Hc Ht Hv. apply never. intro Hin. apply in_map_iff in Hin as ((q & e) & He & Hin). cbn in He. subst q.
  apply in_flat_map in Hin as (i & Hii & Hin). rewrite Forall_forall in Hi.
  destruct (shared_visits _ _ _ _ _ _ (Hi i Hii) Hin) as (t & Htc & Htt & Htv); [now apply (old_range h0 cs0 p d c)|].
  assert (c = t); [|congruence]. destruct Hp as (Hn & _). apply (NoDup_owner _ _ pointers cs0 c t p Hn Hc Htc); apply in_visits; eauto.
Qed.

Theorem declared_names : forall h0 cs0 qs h cs order c p f, parsed (h0, cs0) -> instantiate_all (h0, cs0) qs = Some (h, cs) -> Permutation order cs ->
  In c cs0 -> c_templates c = [] -> In p (c_fields c) -> nth_error h0 p = Some f ->
  exists f', nth_error (CapitalizeNames h order) p = Some f' /\ f_name f' = title (f_name f) /\ f_zserio f' = f_name f.
Proof.
  intros h0 cs0 qs h cs order c p f Hp H Ho Hc Ht Hpc Hf. destruct (whole _ _ _ _ _ _ Hp H Ho) as (x & is & Hh & Hcs & (Hi & Hfr) & Hw).
  destruct (Hw p) as (l & Hl & Hperm). apply case_visits in Hpc. rewrite (old_flags h0 cs0 p false c Hp Hc Hpc), (declared_flags h0 cs0 h is p false c Hp Hi Hc Ht Hpc) in Hperm.
  apply Permutation_sym, Permutation_length_1_inv in Hperm. subst l. eexists. split; [apply Hl; rewrite Hh, nth_error_app1; [eassumption|]; apply nth_error_Some; congruence|].
  now split.
Qed.

(** A field that an instance shares with its template. *)
Lemma shared_names : forall h0 cs0 qs h cs order c i p f, parsed (h0, cs0) -> instantiate_all (h0, cs0) qs = Some (h, cs) -> Permutation order cs ->
  In c cs0 -> In (p, false) (visits_of c) -> In i cs -> ~ In i cs0 -> In (p, false) (visits_of i) -> nth_error h0 p = Some f ->
  exists f', nth_error (CapitalizeNames h order) p = Some f' /\ f_name f' = title (f_name f) /\ f_zserio f' = title (f_name f).
Proof.
  intros h0 cs0 qs h cs order c i p f Hp H Ho Hc Hpc Hic Hin Hpi Hf. destruct (whole _ _ _ _ _ _ Hp H Ho) as (x & is & Hh & Hcs & (Hi & Hfr) & Hw).
  destruct (Hw p) as (l & Hl & Hperm). pose proof (old_flags h0 cs0 p false c Hp Hc Hpc) as Hold.
  assert (His : In i is) by (rewrite Hcs in Hic; apply in_app_or in Hic as [|]; [contradiction|assumption]).
  eexists. split; [apply Hl; rewrite Hh, nth_error_app1; [eassumption|]; apply nth_error_Some; congruence|]. apply visited_cases.
  - apply Forall_forall. intros d Hd. apply (Permutation_in _ Hperm) in Hd. apply in_app_or in Hd as [Hd|Hd]; [rewrite Hold in Hd; now destruct Hd as [|[]]|].
    apply in_flags, in_flat_map in Hd as (j & Hj & Hd). rewrite Forall_forall in Hi.
    destruct (shared_visits _ _ _ _ _ _ (Hi j Hj) Hd) as (t & Htc & _ & Htv); [now apply (old_range h0 cs0 p false c)|].
    pose proof (old_flags h0 cs0 p d t Hp Htc Htv) as Hold'. congruence.
  - rewrite (Permutation_length Hperm), app_length, Hold. cbn [length].
    assert (In false (flags p (flat_map visits_of is))) by (apply in_flags, in_flat_map; now exists i).
    destruct (flags p (flat_map visits_of is)); [easy|cbn; lia].
Qed.

Lemma once_fresh : forall n p d l, NoDup (fresh n (map fst l)) -> (n <= p)%nat -> In (p, d) l -> flags p l = [d].
Proof.
  intros n p d l Hn Hp Hi. set (l' := filter (fun v => (n <=? fst v)%nat) l).
  assert (E1 : flags p l = flags p l').
  { clear -Hp. subst l'. unfold flags. f_equal. induction l as [|[q e] l IH]; [reflexivity|]. cbn. destruct (Nat.leb_spec n q); cbn.
    - destruct (q =? p)%nat; now rewrite IH.
    - destruct (Nat.eqb_spec q p) as [->|]; [lia|]. exact IH. }
  assert (E2 : map fst l' = fresh n (map fst l)).
  { clear. subst l'. unfold fresh. induction l as [|[q e] l IH]; [reflexivity|]. cbn. destruct (n <=? q)%nat; cbn; now rewrite IH. }
  rewrite E1. apply once; [now rewrite E2|]. apply filter_In. split; [assumption|]. now apply Nat.leb_le.
Qed.

Lemma fresh_names : forall h0 cs0 qs h cs order i p d f, parsed (h0, cs0) -> instantiate_all (h0, cs0) qs = Some (h, cs) -> Permutation order cs ->
  In i cs -> In (p, d) (visits_of i) -> (length h0 <= p)%nat -> nth_error h p = Some f -> nth_error (CapitalizeNames h order) p = Some (step f d).
Proof.
  intros h0 cs0 qs h cs order i p d f Hp H Ho Hi Hv Hle Hf. destruct (whole _ _ _ _ _ _ Hp H Ho) as (x & is & Hh & Hcs & (Hins & Hfr) & Hw).
  destruct (Hw p) as (l & Hl & Hperm).
  assert (Hno : forall e c, In c cs0 -> In (p, e) (visits_of c) -> False) by (intros e c Hc He; pose proof (old_range h0 cs0 p e c Hp Hc He); lia).
  assert (His : In i is) by (rewrite Hcs in Hi; apply in_app_or in Hi as [Hi|]; [exfalso; eapply Hno; eassumption|assumption]).
  rewrite (never p (flat_map visits_of cs0)) in Hperm.
  - cbn [app] in Hperm. rewrite (once_fresh (length h0) p d) in Hperm; [|now rewrite all_pointers|assumption|apply in_flat_map; now exists i].
    apply Permutation_sym, Permutation_length_1_inv in Hperm. subst l. exact (Hl f Hf).
  - intro Hin. apply in_map_iff in Hin as ((q & e) & <- & Hin). apply in_flat_map in Hin as (c & Hc & He). exact (Hno e c Hc He).
Qed.

Theorem instance_names : forall h0 cs0 qs h cs order i, parsed (h0, cs0) -> instantiate_all (h0, cs0) qs = Some (h, cs) -> Permutation order cs ->
  In i cs -> ~ In i cs0 ->
  exists c, In c cs0 /\ c_templates c <> [] /\
    Forall2 (fun p p' => exists f f', nth_error h0 p = Some f /\ nth_error (CapitalizeNames h order) p' = Some f' /\ f_name f' = title (f_name f) /\
      (depends (c_templates c) f -> f_zserio f' = f_name f) /\ (~ depends (c_templates c) f -> f_zserio f' = title (f_name f)))
      (c_fields c) (c_fields i).
Proof.
  intros h0 cs0 qs h cs order i Hp H Ho Hi Hni. destruct (whole _ _ _ _ _ _ Hp H Ho) as (x & is & Hh & Hcs & (Hins & Hfr) & Hw).
  assert (His : In i is) by (rewrite Hcs in Hi; apply in_app_or in Hi as [|]; [contradiction|assumption]).
  rewrite Forall_forall in Hins. destruct (Hins i His) as (c & args & Hc & Ht & Hlen & Hf & _). exists c. split; [assumption|]. split; [assumption|].
  assert (Hg : forall l l', Forall2 (made h0 h (combine (c_templates c) args)) l l' -> (forall p, In p l -> In p (c_fields c)) -> (forall p, In p l' -> In p (c_fields i)) ->
    Forall2 (fun p p' => exists f f', nth_error h0 p = Some f /\ nth_error (CapitalizeNames h order) p' = Some f' /\ f_name f' = title (f_name f) /\
      (depends (c_templates c) f -> f_zserio f' = f_name f) /\ (~ depends (c_templates c) f -> f_zserio f' = title (f_name f))) l l').
  { intros l l' Hl. induction Hl as [|p p' l l' Hm Hl IH]; intros H1 H2; constructor.
    - destruct Hm as (f & Hf0 & Htr & Hfa). pose proof (templated_depends (c_templates c) args f Hlen) as Hdep.
      assert (Hpi : In (p', false) (visits_of i)) by (apply case_visits, H2; now left).
      destruct (templated (combine (c_templates c) args) f).
      + destruct (Htr eq_refl) as (Hle & f' & Hf' & Hn & _). exists f, (step f' false). split; [assumption|].
        split; [now apply (fresh_names h0 cs0 qs h cs order i)|]. cbn. rewrite Hn. split; [reflexivity|]. split; [reflexivity|]. intro E. exfalso. now apply E, Hdep.
      + rewrite (Hfa eq_refl) in *. assert (Hpc : In (p, false) (visits_of c)) by (apply case_visits, H1; now left).
        destruct (shared_names h0 cs0 qs h cs order c i p f Hp H Ho Hc Hpc Hi Hni Hpi Hf0) as (f' & Hf' & Hn & Hz).
        exists f, f'. split; [assumption|]. split; [assumption|]. split; [assumption|]. split; [intro E; apply Hdep in E; discriminate|]. now intros _.
    - apply IH; intros q Hq; [apply H1|apply H2]; now right. }
  apply Hg; [exact Hf| |]; auto.
Qed.

Theorem default_names : forall h0 cs0 qs h cs order c p, parsed (h0, cs0) -> instantiate_all (h0, cs0) qs = Some (h, cs) -> Permutation order cs ->
  In c cs -> c_default c = Some p ->
  exists f f', nth_error h p = Some f /\ nth_error (CapitalizeNames h order) p = Some f' /\ f_name f' = title (f_name f) /\ f_zserio f' = "".
Proof.
  intros h0 cs0 qs h cs order c p Hp H Ho Hc Hd. destruct (whole _ _ _ _ _ _ Hp H Ho) as (x & is & Hh & Hcs & (Hins & Hfr) & Hw).
  apply default_visits in Hd. rewrite Forall_forall in Hins.
  assert (Hold : (exists t, In t cs0 /\ In (p, true) (visits_of t)) \/ (length h0 <= p)%nat).
  { destruct (le_lt_dec (length h0) p) as [|Hlt]; [now right|]. left. rewrite Hcs in Hc. apply in_app_or in Hc as [Hc|Hc]; [now exists c|].
    destruct (shared_visits _ _ _ _ _ _ (Hins c Hc) Hd Hlt) as (t & Ht & _ & Htv). now exists t. }
  destruct Hold as [(t & Htc & Htv)|Hle].
  - destruct (Hw p) as (l & Hl & Hperm). pose proof (old_flags h0 cs0 p true t Hp Htc Htv) as Hold. pose proof (old_range h0 cs0 p true t Hp Htc Htv) as Hr.
    destruct (nth_error h0 p) as [f|] eqn:Ef; [|apply nth_error_None in Ef; lia]. assert (Hf : nth_error h p = Some f) by (now rewrite Hh, nth_error_app1).
    exists f. eexists. split; [assumption|]. split; [exact (Hl f Hf)|]. assert (Hz : f_zserio f = "") by (apply Hp; cbn; eapply nth_error_In; eassumption).
    rewrite <- Hz. apply visited_defaults.
    + apply Forall_forall. intros d Hd'. apply (Permutation_in _ Hperm) in Hd'. apply in_app_or in Hd' as [Hd'|Hd']; [rewrite Hold in Hd'; now destruct Hd' as [|[]]|].
      apply in_flags, in_flat_map in Hd' as (j & Hj & Hd'). destruct (shared_visits _ _ _ _ _ _ (Hins j Hj) Hd' Hr) as (t' & Htc' & _ & Htv').
      pose proof (old_flags h0 cs0 p d t' Hp Htc' Htv') as Hold'. congruence.
    + rewrite (Permutation_length Hperm), app_length, Hold. cbn. lia.
  - assert (Hci : In c is).
    { rewrite Hcs in Hc. apply in_app_or in Hc as [Hc|]; [|assumption]. pose proof (old_range h0 cs0 p true c Hp Hc Hd). lia. }
    destruct (Hins c Hci) as (t & args & Ht & _ & _ & _ & Hdef). pose proof Hd as Hd'. apply default_visits in Hd'. rewrite Hd' in Hdef. destruct (c_default t) as [u|] eqn:Eu; [|destruct Hdef].
    destruct Hdef as (f0 & Hf0 & Htr & Hfa). destruct (templated _ f0).
    + destruct (Htr eq_refl) as (_ & f' & Hf' & _ & Hz). exists f', (step f' true). split; [assumption|].
      split; [now apply (fresh_names h0 cs0 qs h cs order c)|]. cbn. split; [reflexivity|]. rewrite Hz. apply Hp. cbn. eapply nth_error_In. eassumption.
    + exfalso. rewrite (Hfa eq_refl) in Hle. pose proof (old_range h0 cs0 u true t Hp Ht (proj2 (default_visits t u) Eu)). lia.
Qed.

(** ** JSON *)

Lemma key_schema : forall n f', f_name f' = title n -> f_zserio f' = n -> letter_first n -> json_key f' = Some n.
Proof.
  intros n f' Hn Hz Hl. unfold json_key. rewrite Hn, Hz, exported_title by assumption. destruct n; [destruct Hl|]. reflexivity.
Qed.
Lemma key_title : forall n f', f_name f' = title n -> f_zserio f' = title n \/ f_zserio f' = "" -> letter_first n -> json_key f' = Some (title n).
Proof.
  intros n f' Hn Hz Hl. unfold json_key. rewrite Hn, exported_title by assumption. destruct Hz as [->| ->]; [|reflexivity]. now destruct (title n =? "").
Qed.

Lemma declared_json : forall h0 cs0 qs h cs order c p f, parsed (h0, cs0) -> instantiate_all (h0, cs0) qs = Some (h, cs) -> Permutation order cs ->
  In c cs0 -> c_templates c = [] -> In p (c_fields c) -> nth_error h0 p = Some f -> letter_first (f_name f) ->
  exists f', nth_error (CapitalizeNames h order) p = Some f' /\ f_name f' = title (f_name f) /\ json_key f' = Some (f_name f).
Proof.
  intros h0 cs0 qs h cs order c p f Hp H Ho Hc Ht Hpc Hf Hl. destruct (declared_names h0 cs0 qs h cs order c p f Hp H Ho Hc Ht Hpc Hf) as (f' & Hf' & Hn & Hz).
  exists f'. split; [assumption|]. split; [assumption|]. now apply key_schema.
Qed.
Lemma instance_json : forall h0 cs0 qs h cs order i, parsed (h0, cs0) -> instantiate_all (h0, cs0) qs = Some (h, cs) -> Permutation order cs ->
  In i cs -> ~ In i cs0 ->
  exists c, In c cs0 /\ c_templates c <> [] /\
    Forall2 (fun p p' => exists f f', nth_error h0 p = Some f /\ nth_error (CapitalizeNames h order) p' = Some f' /\ f_name f' = title (f_name f) /\
      (letter_first (f_name f) ->
        (depends (c_templates c) f -> json_key f' = Some (f_name f)) /\ (~ depends (c_templates c) f -> json_key f' = Some (title (f_name f)))))
      (c_fields c) (c_fields i).
Proof.
  intros h0 cs0 qs h cs order i Hp H Ho Hi Hni. destruct (instance_names h0 cs0 qs h cs order i Hp H Ho Hi Hni) as (c & Hc & Ht & Hf).
  exists c. split; [assumption|]. split; [assumption|]. eapply Forall2_weaken; [|exact Hf]. intros p p' (f & f' & H1 & H2 & H3 & H4 & H5).
  exists f, f'. split; [assumption|]. split; [assumption|]. split; [assumption|]. intro Hl. split.
  - intro E. apply key_schema; auto.
  - intro E. apply key_title; auto.
Qed.
Lemma default_json : forall h0 cs0 qs h cs order c p, parsed (h0, cs0) -> instantiate_all (h0, cs0) qs = Some (h, cs) -> Permutation order cs ->
  In c cs -> c_default c = Some p ->
  exists f f', nth_error h p = Some f /\ nth_error (CapitalizeNames h order) p = Some f' /\ f_name f' = title (f_name f) /\
    (letter_first (f_name f) -> json_key f' = Some (title (f_name f))).
Proof.
  intros h0 cs0 qs h cs order c p Hp H Ho Hc Hd. destruct (default_names h0 cs0 qs h cs order c p Hp H Ho Hc Hd) as (f & f' & H1 & H2 & H3 & H4).
  exists f, f'. split; [assumption|]. split; [assumption|]. split; [assumption|]. intro Hl. apply key_title; auto.
Qed.
