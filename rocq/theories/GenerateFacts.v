(** Lemmas about runs of the generator. *)

Require Import ZArith String Ascii List Bool Permutation Lia ZifyBool ZifyNat.
From Verif Require Import Files FilesSpec FilesFacts Generate GenerateSpec.
Import ListNotations.
Open Scope Z_scope.

(** ** The order *)

Lemma before_irrefl : forall a, before a a = false.
Proof. induction a as [|x a IH]; [reflexivity|]. cbn [before]. now rewrite Nat.ltb_irrefl. Qed.

Lemma before_total : forall a b, before a b = false -> before b a = false -> a = b.
Proof.
  induction a as [|x a IH]; intros [|y b]; cbn [before]; try discriminate; [reflexivity|].
  destruct (nat_of_ascii x <? nat_of_ascii y)%nat eqn:E1; [discriminate|].
  destruct (nat_of_ascii y <? nat_of_ascii x)%nat eqn:E2; [discriminate|]. intros H1 H2.
  rewrite (IH b H1 H2). f_equal. rewrite <- (ascii_nat_embedding x), <- (ascii_nat_embedding y). f_equal. lia.
Qed.

Lemma before_trans : forall a b c, before b a = false -> before c b = false -> before c a = false.
Proof.
  induction a as [|x a IH]; intros [|y b] [|z c]; cbn [before]; try discriminate; try reflexivity.
  destruct (nat_of_ascii y <? nat_of_ascii x)%nat eqn:E1; [discriminate|].
  destruct (nat_of_ascii z <? nat_of_ascii y)%nat eqn:E2; [discriminate|].
  destruct (nat_of_ascii z <? nat_of_ascii x)%nat eqn:E3; [lia|].
  destruct (nat_of_ascii x <? nat_of_ascii y)%nat eqn:E4; destruct (nat_of_ascii y <? nat_of_ascii z)%nat eqn:E5; destruct (nat_of_ascii x <? nat_of_ascii z)%nat eqn:E6; try lia; try reflexivity.
  apply IH.
Qed.

Lemma before_asym : forall a b, before a b = true -> before b a = false.
Proof.
  induction a as [|x a IH]; intros [|y b]; cbn [before]; try discriminate; [reflexivity|].
  destruct (nat_of_ascii x <? nat_of_ascii y)%nat eqn:E1; destruct (nat_of_ascii y <? nat_of_ascii x)%nat eqn:E2; intro H; [lia|reflexivity|discriminate|now apply IH].
Qed.

Lemma same_text_spec : forall a b, same_text a b = true <-> a = b.
Proof. intros a b. unfold same_text. destruct (list_eq_dec ascii_dec a b); split; congruence. Qed.

Definition key (o : output) : text * text := (o_template o, o_name o).

Lemma less_total : forall a b, less a b = false -> less b a = false -> key a = key b.
Proof.
  intros a b. unfold less, key, same_text.
  destruct (list_eq_dec ascii_dec (o_template a) (o_template b)) as [E|E]; destruct (list_eq_dec ascii_dec (o_template b) (o_template a)) as [E'|E']; try congruence.
  - intros H1 H2. rewrite E. f_equal. now apply before_total.
  - intros H1 H2. exfalso. apply E. now apply before_total.
Qed.

Lemma less_trans : forall a b c, less b a = false -> less c b = false -> less c a = false.
Proof.
  intros a b c. unfold less, same_text.
  destruct (list_eq_dec ascii_dec (o_template b) (o_template a)) as [E1|E1]; destruct (list_eq_dec ascii_dec (o_template c) (o_template b)) as [E2|E2];
    destruct (list_eq_dec ascii_dec (o_template c) (o_template a)) as [E3|E3]; try congruence.
  - intros. eapply before_trans; eassumption.
  - intros H1 H2. exfalso. apply E1. rewrite E3 in H2. now apply before_total.
  - intros. eapply before_trans; eassumption.
Qed.

Lemma less_asym : forall a b, less a b = true -> less b a = false.
Proof.
  intros a b. unfold less, same_text.
  destruct (list_eq_dec ascii_dec (o_template a) (o_template b)) as [E|E]; destruct (list_eq_dec ascii_dec (o_template b) (o_template a)) as [E'|E']; try congruence; apply before_asym.
Qed.

Lemma key_inj : forall l a b, NoDup (map key l) -> In a l -> In b l -> key a = key b -> a = b.
Proof.
  induction l as [|c l IH]; intros a b Hn Ha Hb He; [destruct Ha|]. inversion Hn as [|? ? Hc Hn']; subst.
  destruct Ha as [<-|Ha]; destruct Hb as [<-|Hb]; [reflexivity| | |now apply IH].
  - exfalso. apply Hc. rewrite He. now apply in_map.
  - exfalso. apply Hc. rewrite <- He. now apply in_map.
Qed.

Lemma sorted_unique : forall l1 l2, NoDup (map key l1) -> Permutation l1 l2 -> in_order l1 -> in_order l2 -> l1 = l2.
Proof.
  induction l1 as [|a l1 IH]; intros l2 Hn Hp H1 H2.
  - now apply Permutation_nil in Hp.
  - destruct l2 as [|b l2]; [apply Permutation_sym, Permutation_nil in Hp; discriminate|].
    cbn [in_order] in H1, H2. destruct H1 as [Fa H1]. destruct H2 as [Fb H2]. rewrite Forall_forall in Fa, Fb.
    assert (E : a = b).
    { assert (Hb : In b (a :: l1)) by (eapply Permutation_in; [symmetry; exact Hp|now left]).
      assert (Ha : In a (b :: l2)) by (eapply Permutation_in; [exact Hp|now left]).
      destruct Hb as [Hb|Hb]; [assumption|]. destruct Ha as [Ha|Ha]; [now symmetry|].
      apply (key_inj (a :: l1)); try assumption; [now left|now right|]. apply less_total; [now apply Fb|now apply Fa]. }
    subst b. f_equal. apply IH; try assumption; [now inversion Hn|]. now apply Permutation_cons_inv in Hp.
Qed.

Fixpoint insert (o : output) (l : list output) : list output :=
  match l with
  | [] => [o]
  | a :: l' => if less o a then o :: l else a :: insert o l'
  end.

Lemma insert_perm : forall o l, Permutation (o :: l) (insert o l).
Proof.
  intros o. induction l as [|a l IH]; [reflexivity|]. cbn [insert]. destruct (less o a); [reflexivity|].
  rewrite perm_swap. now constructor.
Qed.

Lemma insert_order : forall o l, in_order l -> in_order (insert o l).
Proof.
  intros o. induction l as [|a l IH]; intro H; [now split|]. cbn [insert]. destruct H as [F H]. destruct (less o a) eqn:E.
  - assert (Ea : less a o = false) by now apply less_asym. split; [|now split]. constructor; [assumption|].
    rewrite Forall_forall in *. intros b Hb. apply less_trans with a; [assumption|now apply F].
  - split; [|now apply IH]. rewrite Forall_forall in *. intros b Hb.
    destruct (Permutation_in b (Permutation_sym (insert_perm o l)) Hb) as [<-|Hin]; [assumption|now apply F].
Qed.

Lemma sort_exists : forall l, exists l', Permutation l l' /\ in_order l'.
Proof.
  induction l as [|a l (l' & Hp & Ho)]; [exists []; now split|]. exists (insert a l'). split; [|now apply insert_order].
  rewrite <- insert_perm. now constructor.
Qed.

(** ** Outputs and items *)

Definition out_of (stdout : bool) (p : package) (i : item) : output :=
  match i with
  | Main => {| o_name := str "pkg"; o_template := str "package.go.tmpl"; o_code := p_code p; o_preamble := true |}
  | Type_ k d => newTypeOutput stdout k d
  end.

Lemma outputs_items : forall b p outs, newOutputs b p outs -> Permutation (map (out_of b p) (items p)) outs.
Proof.
  intros b p outs (l & Hp & _ & ->). unfold items. cbn [map out_of]. constructor. rewrite <- Hp.
  unfold type_outputs, flat_map, concrete. rewrite !map_app, !map_map, app_nil_r. reflexivity.
Qed.

Definition produced (c : config) (p : package) (o : output) : option text :=
  match executeTemplate p o with Some code => c_source c code | None => None end.

Lemma contents_produced : forall c p i, contents c p i = produced c p (out_of false p i).
Proof.
  intros c p i. unfold contents, produced, executeTemplate. destruct i as [|k d]; cbn.
  - destruct (p_preamble p), (p_code p); reflexivity.
  - destruct (p_preamble p), (d_code d); reflexivity.
Qed.

Lemma template_inj : forall k k', template_of k = template_of k' -> k = k'.
Proof. intros [] []; intro H; try reflexivity; discriminate H. Qed.

Lemma nodup_map : forall A B (f : A -> B) l, (forall a b, In a l -> In b l -> f a = f b -> a = b) -> NoDup l -> NoDup (map f l).
Proof.
  intros A B f. induction l as [|a l IH]; intros Hf Hn; [constructor|]. inversion Hn; subst. cbn [map]. constructor.
  - intro H. apply in_map_iff in H as (x & He & Hin). apply Hf in He; [|now right|now left]. now subst.
  - apply IH; [|assumption]. intros x y Hx Hy. apply Hf; now right.
Qed.

Lemma NoDup_app : forall A (l1 l2 : list A), NoDup l1 -> NoDup l2 -> (forall x, In x l1 -> ~ In x l2) -> NoDup (l1 ++ l2).
Proof.
  intros A. induction l1 as [|a l1 IH]; intros l2 H1 H2 Hd; [assumption|]. inversion H1; subst. cbn. constructor.
  - intro H. apply in_app_or in H as [H|H]; [contradiction|]. apply (Hd a); [now left|assumption].
  - apply IH; try assumption. intros x Hx. apply Hd. now right.
Qed.

Lemma keys_block : forall b k l, map key (map (newTypeOutput b k) l) = map (pair (template_of k)) (map d_name l).
Proof. intros b k l. rewrite !map_map. reflexivity. Qed.

Lemma keys_distinct : forall b p, names_differ p -> NoDup (map key (type_outputs b p)).
Proof.
  intros b p H. unfold type_outputs. rewrite !map_app, !keys_block.
  assert (Hk : forall k, NoDup (map (pair (template_of k)) (map d_name (concrete p k)))).
  { intro k. apply nodup_map; [|apply H]. intros x y _ _ E. now injection E. }
  assert (Hf : forall k l x, In x (map (pair (template_of k)) (map d_name l)) -> fst x = template_of k).
  { intros k l x Hx. apply in_map_iff in Hx as (y & <- & _). reflexivity. }
  pose proof (Hk KEnum) as H1. pose proof (Hk KUnion) as H2. pose proof (Hk KBitmask) as H3. pose proof (Hk KChoice) as H4. pose proof (Hk KStruct) as H5.
  unfold concrete in H1, H2, H3, H4, H5.
  repeat (apply NoDup_app; [assumption| |intros x Hx Hy; apply Hf in Hx; repeat (apply in_app_or in Hy as [Hy|Hy]); apply Hf in Hy; rewrite Hx in Hy; discriminate Hy]).
  assumption.
Qed.

Lemma outputs_unique : forall b p o1 o2, names_differ p -> newOutputs b p o1 -> newOutputs b p o2 -> o1 = o2.
Proof.
  intros b p o1 o2 Hn (l1 & P1 & S1 & ->) (l2 & P2 & S2 & ->). f_equal. apply sorted_unique; try assumption.
  - apply (Permutation_NoDup (l := map key (type_outputs b p))); [now apply Permutation_map|now apply keys_distinct].
  - now rewrite <- P1.
Qed.

(** ** Directories *)

Definition inside (dir q : text) : Prop := exists x, ~ In "/"%char x /\ q = dir ++ "/"%char :: x.

Lemma inside_unique : forall d d' q, inside d q -> inside d' q -> d = d'.
Proof. intros d d' q (x & Hx & ->) (y & Hy & He). now apply split_last in He as [-> _]. Qed.

Lemma inside_dec : forall d q, inside d q \/ ~ inside d q.
Proof.
  intros d q. destruct (in_dec ascii_dec "/"%char q) as [H|H].
  - apply in_last in H as (a & b & -> & Hb). destruct (list_eq_dec ascii_dec a d) as [<-|Hn].
    + left. now exists b.
    + right. intros (x & Hx & He). apply split_last in He as [-> _]; congruence.
  - right. intros (x & _ & ->). apply H. apply in_or_app. right. now left.
Qed.

Lemma firstn_notin : forall (c : ascii) j s, ~ In c s -> ~ In c (firstn j s).
Proof. intros c j s H Hi. apply H. rewrite <- (firstn_skipn j s). apply in_or_app. now left. Qed.

(** One path: read from the counts of the directory only. *)
Lemma assemble_inside : forall st dir fn max path st', is_name fn -> assembleUniqueFilePath st dir fn max = Some (path, st') ->
  len dir + 7 <= max /\ inside dir path /\ (exists x, ~ In "/"%char x /\ path = dir ++ "/"%char :: x ++ str ".go") /\
  forall q, ~ inside dir q -> count_of q st' = count_of q st.
Proof.
  intros st dir fn max path st' Hn H. unfold assembleUniqueFilePath in H. destruct (max <? len dir + 5 + 2) eqn:E; [discriminate|].
  split; [lia|]. destruct (shorten_dir dir fn max ltac:(lia) Hn) as (j & Hj). rewrite Hj in H.
  assert (Hs : inside dir (join_path dir (firstn j fn))) by (exists (firstn j fn); split; [now apply firstn_notin|reflexivity]).
  assert (Hx : exists x, ~ In "/"%char x /\ path = dir ++ "/"%char :: x ++ str ".go").
  { destruct (count_of _ st) as [n|]; injection H as <- <-.
    - exists (firstn j fn ++ "_"%char :: decimal n). split.
      + intro Hi. apply in_app_or in Hi as [Hi|[Hi|Hi]]; [now apply firstn_notin in Hi|discriminate|]. revert Hi. apply no_slash_digits, decimal_digits.
      + unfold join_path. now rewrite <- !app_assoc.
    - exists (firstn j fn). split; [now apply firstn_notin|]. unfold join_path. now rewrite <- app_assoc. }
  split.
  { destruct Hx as (x & Hx & ->). exists (x ++ str ".go"). split; [|reflexivity]. intro Hi. apply in_app_or in Hi as [Hi|Hi]; [contradiction|]. cbn in Hi. intuition discriminate. }
  split; [assumption|]. intros q Hq.
  assert (Hd : q <> join_path dir (firstn j fn)) by (intros ->; contradiction).
  destruct (count_of (join_path dir (firstn j fn)) st); injection H as <- <-; cbn [count_of]; destruct (list_eq_dec ascii_dec (join_path dir (firstn j fn)) q); congruence.
Qed.

Lemma assemble_local : forall st1 st2 dir fn max, is_name fn -> (forall q, inside dir q -> count_of q st1 = count_of q st2) ->
  match assembleUniqueFilePath st1 dir fn max, assembleUniqueFilePath st2 dir fn max with
  | Some (p1, s1), Some (p2, s2) => p1 = p2 /\ forall q, inside dir q -> count_of q s1 = count_of q s2
  | None, None => True
  | _, _ => False
  end.
Proof.
  intros st1 st2 dir fn max Hn Hq. unfold assembleUniqueFilePath. destruct (max <? len dir + 5 + 2) eqn:E; [exact I|].
  destruct (shorten_dir dir fn max ltac:(lia) Hn) as (j & Hj). rewrite Hj.
  assert (Hs : inside dir (join_path dir (firstn j fn))) by (exists (firstn j fn); split; [now apply firstn_notin|reflexivity]).
  rewrite (Hq _ Hs). destruct (count_of _ st2) as [n|]; (split; [reflexivity|]); intros q Hi; cbn [count_of]; destruct (list_eq_dec ascii_dec _ q); auto.
Qed.

(** ** One package *)


Definition named (outs : list output) : Prop := forall o, In o outs -> is_name (o_name o).

Lemma put_other : forall path c fs q, q <> path -> put path c fs q = fs q.
Proof. intros. unfold put. now destruct (list_eq_dec ascii_dec q path). Qed.
Lemma put_same : forall path c fs, put path c fs path = c.
Proof. intros. unfold put. now destruct (list_eq_dec ascii_dec path path). Qed.

Lemma write_outside : forall c p outs fs st, named outs ->
  forall q, ~ inside (output_dir c p) q ->
  disk (write_outputs c p outs fs st) q = fs q /\ count_of q (used_paths (write_outputs c p outs fs st)) = count_of q st.
Proof.
  intros c p. induction outs as [|o outs IH]; intros fs st Hn q Hq; cbn [write_outputs]; [now split|].
  destruct (executeTemplate p o) as [code|]; [|now split].
  destruct (assembleUniqueFilePath st (output_dir c p) (o_name o) (c_max c)) as [[path st']|] eqn:E; [|now split].
  destruct (assemble_inside _ _ _ _ _ _ (Hn o (or_introl eq_refl)) E) as (_ & Hi & _ & Hc).
  assert (Hp : q <> path) by (intros ->; contradiction).
  destruct (c_source c code) as [t|].
  - destruct (IH (put path (Some t) fs) st' ltac:(intros x Hx; apply Hn; now right) q Hq) as [H1 H2].
    rewrite H1, H2. rewrite put_other by assumption. split; [reflexivity|now apply Hc].
  - cbn. rewrite put_other by assumption. split; [reflexivity|now apply Hc].
Qed.

Lemma write_inside : forall c p outs fs1 st1 fs2 st2, named outs ->
  (forall q, inside (output_dir c p) q -> fs1 q = fs2 q /\ count_of q st1 = count_of q st2) ->
  ok (write_outputs c p outs fs1 st1) = ok (write_outputs c p outs fs2 st2) /\
  forall q, inside (output_dir c p) q ->
    disk (write_outputs c p outs fs1 st1) q = disk (write_outputs c p outs fs2 st2) q /\
    count_of q (used_paths (write_outputs c p outs fs1 st1)) = count_of q (used_paths (write_outputs c p outs fs2 st2)).
Proof.
  intros c p. induction outs as [|o outs IH]; intros fs1 st1 fs2 st2 Hn Hq; cbn [write_outputs]; [split; [reflexivity|exact Hq]|].
  destruct (executeTemplate p o) as [code|]; [|split; [reflexivity|exact Hq]].
  pose proof (assemble_local st1 st2 (output_dir c p) (o_name o) (c_max c) (Hn o (or_introl eq_refl)) ltac:(intros; now apply Hq)) as HA.
  destruct (assembleUniqueFilePath st1 (output_dir c p) (o_name o) (c_max c)) as [[path st1']|];
    destruct (assembleUniqueFilePath st2 (output_dir c p) (o_name o) (c_max c)) as [[path2 st2']|]; try contradiction; [|split; [reflexivity|exact Hq]].
  destruct HA as [<- HA]. assert (Hput : forall x q, inside (output_dir c p) q -> put path x fs1 q = put path x fs2 q).
  { intros x q Hi. unfold put. destruct (list_eq_dec ascii_dec q path); [reflexivity|now apply Hq]. }
  destruct (c_source c code) as [t|].
  - apply IH; [intros x Hx; apply Hn; now right|]. intros q Hi. split; [now apply Hput|now apply HA].
  - split; [reflexivity|]. intros q Hi. split; [now apply Hput|now apply HA].
Qed.

Lemma package_outside : forall c p outs fs st, named outs ->
  forall q, ~ inside (output_dir c p) q ->
  disk (generatePackage c p outs fs st) q = fs q /\ count_of q (used_paths (generatePackage c p outs fs st)) = count_of q st.
Proof. intros c p outs fs st Hn q Hq. unfold generatePackage. destruct (c_root_package c); [now split|now apply write_outside]. Qed.

Lemma package_inside : forall c p outs fs1 st1 fs2 st2, named outs ->
  (forall q, inside (output_dir c p) q -> fs1 q = fs2 q /\ count_of q st1 = count_of q st2) ->
  ok (generatePackage c p outs fs1 st1) = ok (generatePackage c p outs fs2 st2) /\
  forall q, inside (output_dir c p) q ->
    disk (generatePackage c p outs fs1 st1) q = disk (generatePackage c p outs fs2 st2) q /\
    count_of q (used_paths (generatePackage c p outs fs1 st1)) = count_of q (used_paths (generatePackage c p outs fs2 st2)).
Proof.
  intros c p outs fs1 st1 fs2 st2 Hn Hq. unfold generatePackage. destruct (c_root_package c); [split; [reflexivity|exact Hq]|now apply write_inside].
Qed.

(** ** All packages *)

Definition block := (package * list output)%type.

Lemma run_blocks : forall c (l : list block) fs st, (forall x, In x l -> named (snd x)) -> NoDup (map (fun x => output_dir c (fst x)) l) ->
  ok (generate_packages c l fs st) = forallb (fun x => ok (generatePackage c (fst x) (snd x) fs st)) l /\
  (ok (generate_packages c l fs st) = true -> forall q,
    (forall x, In x l -> inside (output_dir c (fst x)) q ->
       disk (generate_packages c l fs st) q = disk (generatePackage c (fst x) (snd x) fs st) q) /\
    ((forall x, In x l -> ~ inside (output_dir c (fst x)) q) -> disk (generate_packages c l fs st) q = fs q)).
Proof.
  intros c. induction l as [|[p outs] l IH]; intros fs st Hn Hd.
  - cbn. split; [reflexivity|]. intros _ q. split; [intros x []|reflexivity].
  - cbn [map fst] in Hd. inversion Hd as [|? ? Hnot Hd']; subst.
    assert (Hno : named outs) by (apply (Hn (p, outs)); now left).
    assert (Hnl : forall x, In x l -> named (snd x)) by (intros x Hx; apply Hn; now right).
    pose proof (package_outside c p outs fs st Hno) as Hout.
    cbn [generate_packages forallb fst snd]. destruct (generatePackage c p outs fs st) as [[b fs'] st'] eqn:E. cbn [ok fst snd].
    destruct b; [|split; [reflexivity|discriminate]]. cbn [andb].
    assert (Hdis : forall x q, In x l -> inside (output_dir c (fst x)) q -> ~ inside (output_dir c p) q).
    { intros x q Hx Hi Hi'. apply Hnot. rewrite (inside_unique _ _ _ Hi' Hi). apply (in_map (fun x => output_dir c (fst x)) l x Hx). }
    assert (Hsame : forall x, In x l -> ok (generatePackage c (fst x) (snd x) fs' st') = ok (generatePackage c (fst x) (snd x) fs st) /\
      forall q, inside (output_dir c (fst x)) q -> disk (generatePackage c (fst x) (snd x) fs' st') q = disk (generatePackage c (fst x) (snd x) fs st) q).
    { intros x Hx. destruct (package_inside c (fst x) (snd x) fs' st' fs st (Hnl x Hx)) as [H1 H2].
      - intros q Hi. now apply (Hout q), (Hdis x).
      - split; [assumption|]. intros q Hi. now apply H2. }
    destruct (IH fs' st' Hnl Hd') as [IH1 IH2]. split.
    + rewrite IH1. clear -Hsame. induction l as [|x l IHl]; [reflexivity|]. cbn [forallb]. rewrite (proj1 (Hsame x (or_introl eq_refl))). f_equal.
      apply IHl. intros y Hy. apply Hsame. now right.
    + intros Hok q. destruct (IH2 Hok q) as [IHa IHb]. split.
      * intros x [<-|Hx] Hi.
        -- cbn [fst snd] in *. rewrite E. cbn [disk fst snd]. apply IHb. intros y Hy Hy'. now apply (Hdis y q Hy Hy').
        -- rewrite (IHa x Hx Hi). now apply Hsame.
      * intro Hall. rewrite IHb by (intros x Hx; apply Hall; now right). apply (Hout q). apply (Hall (p, outs)). now left.
Qed.

Lemma lower_char_slash : forall c, lower_char c = "/"%char -> c = "/"%char.
Proof. intros [[] [] [] [] [] [] [] []]; vm_compute; intro H; first [reflexivity|discriminate H]. Qed.

Lemma replace_inj : forall a b s t, ~ In b s -> ~ In b t -> replace a b s = replace a b t -> s = t.
Proof.
  intros a b. unfold replace. induction s as [|x s IH]; intros [|y t] Hs Ht H; try discriminate; [reflexivity|].
  cbn [map] in H. injection H as Hc Hr. f_equal.
  - destruct (Ascii.eqb_spec x a) as [->|]; destruct (Ascii.eqb_spec y a) as [->|]; try reflexivity; try assumption.
    + exfalso. apply Ht. left. now symmetry.
    + exfalso. apply Hs. now left.
  - apply IH; [intro; apply Hs; now right|intro; apply Ht; now right|assumption].
Qed.

Lemma dir_inj : forall c p p', ~ In "/"%char (p_name p) -> ~ In "/"%char (p_name p') -> output_dir c p = output_dir c p' -> lower (p_name p) = lower (p_name p').
Proof.
  intros c p p' H H' E. unfold output_dir, join_path in E. apply app_inv_head in E. injection E as E. unfold package_dir in E.
  change (str "/") with ["/"%char] in E. rewrite !join_split in E. apply replace_inj in E; [assumption| |]; intro Hi; apply in_map_iff in Hi as (x & Hx & Hin); apply lower_char_slash in Hx; now subst.
Qed.

Lemma dirs_differ : forall c m, packages_differ m -> Forall plain_names m -> NoDup (map (output_dir c) m).
Proof.
  intros c. unfold packages_differ. induction m as [|p m IH]; intros Hn Hf; [constructor|]. cbn [map] in *. inversion Hn; subst. inversion Hf as [|? ? Hp Hf']; subst.
  constructor; [|now apply IH]. intro Hi. apply in_map_iff in Hi as (p' & He & Hin).
  rewrite Forall_forall in Hf', H1. apply (H1 p' Hin). apply lower_same. apply dir_inj in He; [|now apply (proj1 (Hf' p' Hin))|now apply (proj1 Hp)].
  now symmetry.
Qed.

Lemma outputs_named : forall p outs, plain_names p -> newOutputs false p outs -> named outs.
Proof.
  intros p outs [_ Hn] Ho o Hin. apply outputs_items in Ho. apply (Permutation_in o (Permutation_sym Ho)) in Hin.
  apply in_map_iff in Hin as (i & <- & Hi). destruct i as [|k d]; cbn.
  - intro H. cbn in H. intuition discriminate.
  - apply (Hn k). unfold items in Hi. cbn [In] in Hi. destruct Hi as [Hi|Hi]; [discriminate|]. apply in_flat_map in Hi as (k' & _ & Hi).
    apply in_map_iff in Hi as (d' & He & Hd). injection He as -> ->. assumption.
Qed.

Lemma blocks_perm : forall (l1 l2 : list block), Forall (fun x => names_differ (fst x)) l1 ->
  Forall (fun x => newOutputs false (fst x) (snd x)) l1 -> Forall (fun x => newOutputs false (fst x) (snd x)) l2 ->
  Permutation (map fst l1) (map fst l2) -> Permutation l1 l2.
Proof.
  induction l1 as [|[p o] l1 IH]; intros l2 Hd H1 H2 Hp.
  - apply Permutation_nil in Hp. destruct l2; [constructor|discriminate].
  - assert (Hin : In p (map fst l2)) by (eapply Permutation_in; [exact Hp|now left]).
    apply in_map_iff in Hin as ([p' o'] & He & Hin). cbn in He. subst p'.
    apply in_split in Hin as (a & b & ->). inversion Hd; subst. inversion H1; subst. cbn [fst snd] in *.
    apply Forall_app in H2 as [H2a H2b]. inversion H2b; subst. cbn [fst snd] in *.
    assert (o' = o) by (apply (outputs_unique false p); assumption). subst o'.
    rewrite <- Permutation_middle. constructor. apply IH; try assumption.
    + now apply Forall_app.
    + rewrite map_app in Hp. cbn [map fst] in Hp. rewrite <- Permutation_middle in Hp. apply Permutation_cons_inv in Hp. now rewrite map_app.
Qed.

Lemma forallb_perm : forall A (f : A -> bool) l1 l2, Permutation l1 l2 -> forallb f l1 = forallb f l2.
Proof. intros A f l1 l2 H. induction H; cbn; try congruence. destruct (f x), (f y); reflexivity. Qed.

Theorem reproducible : forall c m fs st r1 r2, packages_differ m -> Forall plain_names m -> Forall names_differ m ->
  Generate c m fs st r1 -> Generate c m fs st r2 ->
  ok r1 = ok r2 /\ (ok r1 = true -> forall path, disk r1 path = disk r2 path).
Proof.
  intros c m fs st r1 r2 Hd Hpl Hn (l1 & P1 & O1 & <-) (l2 & P2 & O2 & <-).
  assert (Hl : forall l, Permutation m (map fst l) -> Forall (fun x => newOutputs false (fst x) (snd x)) l ->
    (forall x, In x l -> named (snd x)) /\ NoDup (map (fun x => output_dir c (fst x)) l)).
  { intros l P O. rewrite Forall_forall in Hpl, O. split.
    - intros x Hx. apply (outputs_named (fst x)); [|now apply O]. apply Hpl. eapply Permutation_in; [symmetry; exact P|]. now apply in_map.
    - rewrite <- (map_map fst (output_dir c)). apply (Permutation_NoDup (l := map (output_dir c) m)); [now apply Permutation_map|]. apply dirs_differ; [assumption|now apply Forall_forall]. }
  destruct (Hl l1 P1 O1) as [N1 D1]. destruct (Hl l2 P2 O2) as [N2 D2].
  assert (P : Permutation l1 l2).
  { apply blocks_perm; try assumption; [|now rewrite <- P1].
    rewrite Forall_forall in *. intros x Hx. apply Hn. eapply Permutation_in; [symmetry; exact P1|]. now apply in_map. }
  destruct (run_blocks c l1 fs st N1 D1) as [R1 F1]. destruct (run_blocks c l2 fs st N2 D2) as [R2 F2].
  assert (E : ok (generate_packages c l1 fs st) = ok (generate_packages c l2 fs st)) by (rewrite R1, R2; now apply forallb_perm).
  split; [assumption|]. intros Hok q. destruct (F1 Hok q) as [A1 B1]. rewrite E in Hok. destruct (F2 Hok q) as [A2 B2].
  assert (He : (exists x, In x l1 /\ inside (output_dir c (fst x)) q) \/ (forall x, In x l1 -> ~ inside (output_dir c (fst x)) q)).
  { clear. induction l1 as [|x l IH]; [right; intros x []|]. destruct (inside_dec (output_dir c (fst x)) q) as [H|H].
    - left. exists x. split; [now left|assumption].
    - destruct IH as [(y & Hy & Hi)|IH]; [left; exists y; split; [now right|assumption]|]. right. intros y [<-|Hy]; [assumption|now apply IH]. }
  destruct He as [(x & Hx & Hi)|He].
  - rewrite (A1 x Hx Hi). symmetry. apply (A2 x); [|assumption]. now apply (Permutation_in x P).
  - rewrite B1 by assumption. rewrite B2; [reflexivity|]. intros x Hx. apply He. now apply (Permutation_in x (Permutation_sym P)).
Qed.

Theorem run_exists : forall c m fs st, exists r, Generate c m fs st r.
Proof.
  intros c m fs st.
  assert (H : exists l : list block, m = map fst l /\ Forall (fun x => newOutputs false (fst x) (snd x)) l).
  { induction m as [|p m (l & -> & Hl)]; [exists []; now split|].
    destruct (sort_exists (type_outputs false p)) as (l' & Hp & Ho).
    exists ((p, {| o_name := str "pkg"; o_template := str "package.go.tmpl"; o_code := p_code p; o_preamble := true |} :: l') :: l).
    split; [reflexivity|]. constructor; [|assumption]. now exists l'. }
  destruct H as (l & -> & Hl). exists (generate_packages c l fs st), l. now repeat split.
Qed.

(** ** The standard output *)

Theorem stdout_reproducible : forall c name m r1 r2, Forall names_differ m ->
  GenerateStdout c name m r1 -> GenerateStdout c name m r2 -> r1 = r2.
Proof.
  intros c name m r1 r2 Hn. unfold GenerateStdout, find_package. destruct (find _ m) as [p|] eqn:E; [|congruence].
  apply find_some in E as [Hin _]. rewrite Forall_forall in Hn. destruct (c_root_package c); [congruence|].
  intros (o1 & H1 & ->) (o2 & H2 & ->). now rewrite (outputs_unique true p o1 o2 (Hn p Hin) H1 H2).
Qed.

Lemma find_perm : forall m m' name, NoDup (map p_name m) -> Permutation m m' -> find_package name m = find_package name m'.
Proof.
  intros m m' name Hn Hp. unfold find_package. induction Hp; cbn.
  - reflexivity.
  - inversion Hn; subst. now rewrite IHHp.
  - destruct (same_text (p_name y) name) eqn:Ey; destruct (same_text (p_name x) name) eqn:Ex; try reflexivity.
    apply same_text_spec in Ey, Ex. inversion Hn as [|? ? H _]; subst. exfalso. apply H. left. congruence.
  - rewrite IHHp1 by assumption. apply IHHp2. apply (Permutation_NoDup (l := map p_name l)); [now apply Permutation_map|assumption].
Qed.

(** ** What is written *)

Definition file_of (c : config) (x : package * output) : text * text := (output_dir c (fst x), o_name (snd x)).
Fixpoint puts (l : list (text * text)) (fs : files) : files :=
  match l with [] => fs | (path, t) :: l' => puts l' (put path (Some t) fs) end.

Lemma write_requests : forall c p outs fs st fs' st', write_outputs c p outs fs st = (true, fs', st') ->
  exists ps ts, requests st (c_max c) (map (fun o => file_of c (p, o)) outs) = Some (ps, st') /\
    Forall2 (fun o t => produced c p o = Some t) outs ts /\ length ps = length outs /\ fs' = puts (combine ps ts) fs.
Proof.
  intros c p. induction outs as [|o outs IH]; intros fs st fs' st' H; cbn [write_outputs] in H.
  - injection H as <- <-. exists [], []. now repeat split.
  - destruct (executeTemplate p o) as [code|] eqn:E1; [|discriminate].
    destruct (assembleUniqueFilePath st (output_dir c p) (o_name o) (c_max c)) as [[path st1]|] eqn:E2; [|discriminate].
    destruct (c_source c code) as [t|] eqn:E3; [|discriminate]. destruct (IH _ _ _ _ H) as (ps & ts & R & F & L & ->).
    exists (path :: ps), (t :: ts). cbn [map file_of fst snd requests]. rewrite E2, R. repeat split; [|cbn; congruence].
    constructor; [|assumption]. unfold produced. now rewrite E1.
Qed.

Lemma requests_app : forall max l1 l2 st ps1 st1 ps2 st2, requests st max l1 = Some (ps1, st1) -> requests st1 max l2 = Some (ps2, st2) ->
  requests st max (l1 ++ l2) = Some (ps1 ++ ps2, st2).
Proof.
  intros max. induction l1 as [|[d f] l1 IH]; intros l2 st ps1 st1 ps2 st2 H1 H2; cbn [requests app] in *.
  - injection H1 as <- <-. assumption.
  - destruct (assembleUniqueFilePath st d f max) as [[p st']|]; [|discriminate]. destruct (requests st' max l1) as [[ps st'']|] eqn:E; [|discriminate].
    injection H1 as <- <-. now rewrite (IH l2 st' ps st'' ps2 st2 E H2).
Qed.

Lemma puts_app : forall a b fs, puts (a ++ b) fs = puts b (puts a fs).
Proof. induction a as [|[p t] a IH]; intros b fs; [reflexivity|]. cbn [puts app]. apply IH. Qed.

Lemma combine_app : forall A B (a a' : list A) (b b' : list B), length a = length b -> combine (a ++ a') (b ++ b') = combine a b ++ combine a' b'.
Proof. intros A B. induction a as [|x a IH]; intros a' [|y b] b' H; try discriminate; [reflexivity|]. cbn. f_equal. apply IH. now injection H. Qed.

Lemma Forall2_len : forall A B (R : A -> B -> Prop) a b, Forall2 R a b -> length a = length b.
Proof. intros A B R a b H. induction H; cbn; congruence. Qed.

Definition pairs (l : list block) : list (package * output) := flat_map (fun x => map (pair (fst x)) (snd x)) l.

Lemma run_requests : forall c (l : list block) fs st fs' st', generate_packages c l fs st = (true, fs', st') ->
  exists ps ts, requests st (c_max c) (map (file_of c) (pairs l)) = Some (ps, st') /\
    Forall2 (fun x t => produced c (fst x) (snd x) = Some t) (pairs l) ts /\ length ps = length (pairs l) /\ fs' = puts (combine ps ts) fs.
Proof.
  intros c. induction l as [|[p outs] l IH]; intros fs st fs' st' H; cbn [generate_packages] in H.
  - injection H as <- <-. exists [], []. repeat split; constructor.
  - destruct (generatePackage c p outs fs st) as [[b fs1] st1] eqn:E. destruct b; [|discriminate].
    unfold generatePackage in E. destruct (c_root_package c); [discriminate|].
    destruct (write_requests _ _ _ _ _ _ _ E) as (ps1 & ts1 & R1 & F1 & L1 & ->). destruct (IH _ _ _ _ H) as (ps2 & ts2 & R2 & F2 & L2 & ->).
    exists (ps1 ++ ps2), (ts1 ++ ts2). unfold pairs in *. cbn [flat_map fst snd]. rewrite map_app, map_map. repeat split.
    + now apply requests_app with st1.
    + apply Forall2_app; [|assumption]. clear -F1. induction F1; cbn; constructor; auto.
    + rewrite !app_length, map_length. congruence.
    + rewrite combine_app by (rewrite L1; now apply Forall2_len in F1). now rewrite puts_app.
Qed.

Lemma puts_other : forall l fs q, ~ In q (map fst l) -> puts l fs q = fs q.
Proof.
  induction l as [|[p t] l IH]; intros fs q H; [reflexivity|]. cbn [puts]. rewrite IH by (intro; apply H; now right).
  apply put_other. intros ->. apply H. now left.
Qed.

Lemma puts_in : forall l fs p t, NoDup (map fst l) -> In (p, t) l -> puts l fs p = Some t.
Proof.
  induction l as [|[p t] l IH]; intros fs q u Hn Hin; [destruct Hin|]. inversion Hn; subst. cbn [puts]. destruct Hin as [E|Hin].
  - injection E as <- <-. rewrite puts_other by assumption. apply put_same.
  - now apply IH.
Qed.

Lemma requests_belong : forall c max (l : list (package * output)) st ps st', (forall x, In x l -> is_name (o_name (snd x))) ->
  requests st max (map (file_of c) l) = Some (ps, st') -> Forall2 (fun x path => belongs c (fst x) path) l ps.
Proof.
  intros c max. induction l as [|[p o] l IH]; intros st ps st' Hn H; cbn [map file_of requests fst snd] in H.
  - injection H as <- <-. constructor.
  - destruct (assembleUniqueFilePath st (output_dir c p) (o_name o) max) as [[path st1]|] eqn:E; [|discriminate].
    destruct (requests st1 max (map (file_of c) l)) as [[ps1 st2]|] eqn:E2; [|discriminate]. injection H as <- <-.
    constructor; [|apply (IH st1 ps1 st2); [|assumption]; intros x Hx; apply Hn; now right].
    destruct (assemble_inside _ _ _ _ _ _ (Hn (p, o) (or_introl eq_refl)) E) as (_ & _ & (x & Hx & ->) & _).
    exists x. split; [assumption|]. unfold output_dir, join_path. cbn [fst]. change (str "/") with ["/"%char]. rewrite <- app_assoc. reflexivity.
Qed.


Lemma pairs_items : forall (l : list block), Forall (fun x => newOutputs false (fst x) (snd x)) l ->
  Permutation (map (fun x => (fst x, out_of false (fst x) (snd x))) (flat_map (fun p => map (pair p) (items p)) (map fst l))) (pairs l).
Proof.
  induction l as [|[p o] l IH]; intro H; [reflexivity|]. inversion H; subst. unfold pairs in *. cbn [flat_map map fst snd]. rewrite map_app. apply Permutation_app; [|now apply IH].
  rewrite map_map. cbn [fst snd]. rewrite <- (map_map (out_of false p) (pair p)). apply Permutation_map. now apply outputs_items.
Qed.

Lemma in_items : forall p k d, In (Type_ k d) (items p) -> In d (concrete p k).
Proof.
  intros p k d Hi. unfold items in Hi. cbn [In] in Hi. destruct Hi as [Hi|Hi]; [discriminate|]. apply in_flat_map in Hi as (k' & _ & Hi).
  apply in_map_iff in Hi as (d' & He & Hd). injection He as -> ->. assumption.
Qed.

Lemma pkg_fine : is_name (str "pkg") /\ ~ has_number (str "pkg").
Proof.
  split; [intro H; cbn in H; intuition discriminate|]. intros (a & x & b & H & _). cbn in H.
  assert (Hi : In "_"%char ["p"%char; "k"%char; "g"%char]) by (rewrite H; apply in_or_app; right; now left). cbn in Hi. intuition discriminate.
Qed.

Lemma pairs_fine : forall m (l : list block) x, Permutation m (map fst l) -> Forall (fun x => newOutputs false (fst x) (snd x)) l -> In x (pairs l) ->
  exists i, In (fst x) m /\ In i (items (fst x)) /\ snd x = out_of false (fst x) i.
Proof.
  intros m l x P H Hin. apply (Permutation_in x (Permutation_sym (pairs_items l H))) in Hin. apply in_map_iff in Hin as ([p i] & <- & Hin).
  apply in_flat_map in Hin as (p' & Hp & Hin). apply in_map_iff in Hin as (i' & He & Hi). injection He as -> ->. cbn [fst snd]. exists i.
  split; [now apply (Permutation_in p (Permutation_sym P))|now split].
Qed.

Lemma Forall2_nth : forall A B (R : A -> B -> Prop) a b, Forall2 R a b -> forall x y, In (x, y) (combine a b) -> R x y.
Proof. intros A B R a b H. induction H; cbn; intros u v [E|Hin] || intros u v []; [injection E as <- <-; assumption|auto]. Qed.

Theorem all_written : forall c m fs r, Forall plain_names m -> Forall no_numbers m ->
  Generate c m fs [] r -> ok r = true ->
  exists ws : list (package * item * text),
    Permutation (map fst ws) (flat_map (fun p => map (pair p) (items p)) m) /\ NoDup (map snd ws) /\
    (forall p i path, In (p, i, path) ws -> belongs c p path /\ contents c p i <> None /\ disk r path = contents c p i) /\
    (forall path, ~ In path (map snd ws) -> disk r path = fs path).
Proof.
  intros c m fs [[b fs'] st'] Hpl Hnn (l & P & O & R) Hok. cbn in Hok. subst b. rewrite Forall_forall in Hpl, Hnn.
  destruct (run_requests _ _ _ _ _ _ R) as (ps & ts & Rq & F & L & ->). cbn [disk fst snd].
  assert (Hname : forall x, In x (pairs l) -> is_name (o_name (snd x)) /\ ~ has_number (o_name (snd x))).
  { intros x Hx. destruct (pairs_fine m l x P O Hx) as (i & Hm & Hi & ->). destruct i as [|k d]; [exact pkg_fine|]. cbn.
    apply in_items in Hi. split; [now apply (proj2 (Hpl _ Hm) k)|now apply (Hnn _ Hm k)]. }
  assert (Hnd : NoDup ps).
  { apply (requests_distinct (c_max c) (map (file_of c) (pairs l)) ps st'); [|assumption]. intros d f Hin. apply in_map_iff in Hin as (x & He & Hx).
    unfold file_of in He. injection He as _ <-. now apply Hname. }
  pose proof (requests_belong c (c_max c) (pairs l) [] ps st' ltac:(intros x Hx; now apply Hname) Rq) as Hb.
  pose proof (Permutation_sym (pairs_items l O)) as HP. apply Permutation_map_inv in HP as (is & Hpairs & HP).
  assert (Lp : length ps = length ts) by (rewrite L; now apply Forall2_len in F).
  assert (Li : length is = length ps) by (rewrite L, Hpairs; now rewrite map_length).
  exists (combine is ps).
  assert (Hfst : forall A B (a : list A) (b : list B), length a = length b -> map fst (combine a b) = a /\ map snd (combine a b) = b).
  { intros A B. induction a as [|x a IH]; intros [|y b] Hl; try discriminate; [now split|]. cbn. injection Hl as Hl. destruct (IH b Hl) as [-> ->]. now split. }
  rewrite (proj1 (Hfst _ _ is ps Li)), (proj2 (Hfst _ _ is ps Li)). refine (conj _ (conj Hnd (conj _ _))).
  - rewrite <- HP. apply Permutation_flat_map. now symmetry.
  - intros p i path Hin.
    assert (Hin3 : exists t, In ((p, i), path) (combine is ps) /\ In (path, t) (combine ps ts) /\ produced c p (out_of false p i) = Some t /\ belongs c p path).
    { rewrite Hpairs in F, Hb. clear -Hin F Hb Li Lp. revert ps ts Hin F Hb Li Lp. induction is as [|[p' i'] is IH]; intros [|q ps] [|t ts] Hin F Hb Li Lp; try discriminate; [destruct Hin|].
      cbn [map] in F, Hb. inversion F; subst. inversion Hb; subst. cbn [combine] in *. destruct Hin as [E|Hin].
      - injection E as -> -> ->. exists t. cbn [fst snd] in *. repeat split; [now left|now left|assumption|assumption].
      - injection Li as Li. injection Lp as Lp. destruct (IH ps ts Hin ltac:(assumption) ltac:(assumption) Li Lp) as (u & H1' & H2' & H3' & H4'). exists u. repeat split; [now right|now right|assumption|assumption]. }
    destruct Hin3 as (t & _ & Hpt & Hpr & Hbel). rewrite contents_produced, Hpr. split; [assumption|]. split; [discriminate|].
    apply puts_in; [|assumption]. now rewrite (proj1 (Hfst _ _ ps ts Lp)).
  - intros path Hn. apply puts_other. now rewrite (proj1 (Hfst _ _ ps ts Lp)).
Qed.

(** ** Errors *)

Lemma write_ok : forall c p outs fs st, ok (write_outputs c p outs fs st) = true <->
  (forall o, In o outs -> produced c p o <> None) /\ (outs <> [] -> len (output_dir c p) + 7 <= c_max c).
Proof.
  intros c p. induction outs as [|o outs IH]; intros fs st; cbn [write_outputs].
  - split; [|reflexivity]. intros _. split; [intros o []|congruence].
  - destruct (executeTemplate p o) as [code|] eqn:E1.
    2:{ split; [discriminate|]. intros [H _]. exfalso. apply (H o); [now left|]. unfold produced. now rewrite E1. }
    unfold assembleUniqueFilePath. destruct (c_max c <? len (output_dir c p) + 5 + 2) eqn:Em.
    { split; [discriminate|]. intros [_ H]. specialize (H ltac:(discriminate)). lia. }
    assert (Hp : produced c p o = c_source c code) by (unfold produced; now rewrite E1).
    destruct (match count_of _ st with Some n => _ | None => _ end) as [[path st1]|] eqn:E2; [|exfalso; destruct (count_of _ st); discriminate].
    destruct (c_source c code) as [t|].
    + rewrite IH. split; intros [H1 H2].
      * split; [|lia]. intros x [<-|Hx]; [congruence|now apply H1].
      * split; [|lia]. intros x Hx. apply H1. now right.
    + split; [discriminate|]. intros [H _]. exfalso. apply (H o); [now left|assumption].
Qed.

Lemma packages_ok : forall c (l : list block) fs st, ok (generate_packages c l fs st) = true <->
  (forall x, In x l -> c_root_package c <> [] /\ (forall o, In o (snd x) -> produced c (fst x) o <> None) /\ (snd x <> [] -> len (output_dir c (fst x)) + 7 <= c_max c)).
Proof.
  intros c. induction l as [|[p outs] l IH]; intros fs st; cbn [generate_packages].
  - split; [intros _ x []|reflexivity].
  - unfold generatePackage. destruct (c_root_package c) as [|h t] eqn:Er.
    { split; [discriminate|]. intro H. destruct (H (p, outs) (or_introl eq_refl)) as [Hr _]. congruence. }
    destruct (write_outputs c p outs fs st) as [[b fs'] st'] eqn:E. pose proof (write_ok c p outs fs st) as Hw. rewrite E in Hw. cbn [ok fst] in Hw.
    destruct b.
    + rewrite IH. split.
      * intros H x [<-|Hx]; [|now apply H]. cbn [fst snd]. split; [discriminate|]. now apply Hw.
      * intros H x Hx. apply H. now right.
    + split; [discriminate|]. intro H. destruct (H (p, outs) (or_introl eq_refl)) as [_ H']. now apply Hw in H'.
Qed.

Theorem run_ok : forall c m fs st r, Generate c m fs st r ->
  ok r = true <-> forall p, In p m -> c_root_package c <> [] /\ len (c_root c) + len (p_name p) + 8 <= c_max c /\ forall i, In i (items p) -> contents c p i <> None.
Proof.
  intros c m fs st r (l & P & O & <-). rewrite packages_ok. rewrite Forall_forall in O.
  assert (Hlen : forall p, len (output_dir c p) = len (c_root c) + 1 + len (p_name p)).
  { intro p. unfold output_dir, join_path, package_dir, len. change (str "/") with ["/"%char]. rewrite join_split. unfold replace, lower. rewrite app_length. cbn [length]. rewrite !map_length. lia. }
  split.
  - intros H p Hp. apply (Permutation_in p P) in Hp. apply in_map_iff in Hp as ([p' outs] & He & Hin). cbn in He. subst p'.
    destruct (H _ Hin) as (Hr & Ho & Hd). cbn [fst snd] in *. pose proof (O _ Hin) as Hout. cbn [fst snd] in Hout.
    pose proof (outputs_items _ _ _ Hout) as Hperm. split; [assumption|]. split.
    + rewrite Hlen in Hd. assert (outs <> []); [|specialize (Hd H0); lia]. destruct Hout as (l' & _ & _ & ->). discriminate.
    + intros i Hi. rewrite contents_produced. apply Ho. apply (Permutation_in _ Hperm). now apply in_map.
  - intros H [p outs] Hin. cbn [fst snd]. assert (Hp : In p m) by (apply (Permutation_in p (Permutation_sym P)); apply in_map_iff; now exists (p, outs)).
    destruct (H p Hp) as (Hr & Hd & Hi). split; [assumption|]. split; [|intros _; rewrite Hlen; lia].
    intros o Ho. apply (Permutation_in o (Permutation_sym (outputs_items _ _ _ (O _ Hin)))) in Ho. apply in_map_iff in Ho as (i & <- & Hii).
    rewrite <- contents_produced. now apply Hi.
Qed.

(** What can be found at a path: what was there, a complete file, or, at one path
    only, nothing. *)
Lemma write_any : forall c p outs fs st, named outs -> exists gone, forall q,
  let new := disk (write_outputs c p outs fs st) q in
  new = fs q \/ ((exists o, In o outs /\ produced c p o <> None /\ new = produced c p o) /\ belongs c p q) \/ (ok (write_outputs c p outs fs st) = false /\ q = gone /\ new = None /\ belongs c p q).
Proof.
  intros c p. induction outs as [|o outs IH]; intros fs st Hn; cbn [write_outputs].
  - exists []. intro q. now left.
  - destruct (executeTemplate p o) as [code|] eqn:E1; [|exists []; intro q; now left].
    destruct (assembleUniqueFilePath st (output_dir c p) (o_name o) (c_max c)) as [[path st1]|] eqn:E2; [|exists []; intro q; now left].
    destruct (assemble_inside _ _ _ _ _ _ (Hn o (or_introl eq_refl)) E2) as (_ & _ & (x & Hx & Hpath) & _).
    assert (Hbel : belongs c p path).
    { exists x. split; [assumption|]. rewrite Hpath. unfold output_dir, join_path. change (str "/") with ["/"%char]. rewrite <- app_assoc. reflexivity. }
    assert (Hp : produced c p o = c_source c code) by (unfold produced; now rewrite E1).
    destruct (c_source c code) as [t|].
    + destruct (IH (put path (Some t) fs) st1 ltac:(intros y Hy; apply Hn; now right)) as (gone & IH'). exists gone. intro q.
      destruct (IH' q) as [H|[[(o' & Ho & Hne & H) Hb]|H]].
      * destruct (list_eq_dec ascii_dec q path) as [->|Hq].
        -- right. left. split; [|assumption]. exists o. split; [now left|]. rewrite Hp. split; [discriminate|]. cbn zeta in *. rewrite H. apply put_same.
        -- left. cbn zeta in *. rewrite H. now apply put_other.
      * right. left. split; [|assumption]. exists o'. split; [now right|]. now split.
      * right. right. assumption.
    + exists path. intro q. cbn. destruct (list_eq_dec ascii_dec q path) as [->|Hq].
      * right. right. rewrite put_same. now repeat split.
      * left. now apply put_other.
Qed.

Theorem run_any : forall c m fs st r, Forall plain_names m -> Generate c m fs st r -> exists gone, forall path,
  disk r path = fs path \/
  (exists p i, In p m /\ In i (items p) /\ belongs c p path /\ contents c p i <> None /\ disk r path = contents c p i) \/
  (ok r = false /\ path = gone /\ disk r path = None /\ exists p, In p m /\ belongs c p path).
Proof.
  intros c m fs st r Hpl (l & P & O & <-). rewrite Forall_forall in Hpl.
  assert (Hin : forall x, In x l -> In (fst x) m) by (intros x Hx; apply (Permutation_in _ (Permutation_sym P)); now apply in_map).
  clear P. revert fs st. induction l as [|[p outs] l IH]; intros fs st; cbn [generate_packages].
  - exists []. intro q. now left.
  - inversion O as [|? ? Ho O']; subst. cbn [fst snd] in Ho. pose proof (Hin (p, outs) (or_introl eq_refl)) as Hm. cbn [fst] in Hm.
    assert (Hno : named outs) by (apply (outputs_named p); [now apply Hpl|assumption]).
    unfold generatePackage. destruct (c_root_package c); [exists []; intro q; now left|].
    destruct (write_any c p outs fs st Hno) as (gone & Hw). destruct (write_outputs c p outs fs st) as [[b fs'] st'] eqn:E. cbn [disk ok fst snd] in Hw.
    assert (Hpart : forall q, fs' q = fs q \/ (exists p i, In p m /\ In i (items p) /\ belongs c p q /\ contents c p i <> None /\ fs' q = contents c p i) \/
       (b = false /\ q = gone /\ fs' q = None /\ exists p, In p m /\ belongs c p q)).
    { intro q. destruct (Hw q) as [H|[[(o & Hoo & Hne & H) Hb]|(Hb & Hg & H & Hbel)]]; [now left| |].
      - right. left. apply (Permutation_in o (Permutation_sym (outputs_items _ _ _ Ho))) in Hoo. apply in_map_iff in Hoo as (i & <- & Hi).
        exists p, i. rewrite contents_produced. now repeat split.
      - right. right. repeat split; try assumption. now exists p. }
    destruct b.
    + destruct (IH O' ltac:(intros x Hx; apply Hin; now right) fs' st') as (gone' & IH'). exists gone'. intro q.
      destruct (IH' q) as [H|H]; [|now right]. destruct (Hpart q) as [H'|[H'|(Hf & _)]]; [|right; left|discriminate].
      * left. congruence.
      * destruct H' as (p' & i & H1 & H2 & H3 & H4 & H5). exists p', i. repeat split; try assumption. congruence.
    + exists gone. intro q. exact (Hpart q).
Qed.
