(** Facts about shared type references. *)

Require Import String List Bool Arith Lia.
From Verif Require Import Members TypeArgs TypeArgsSpec.
Import ListNotations.

(** ** The heap *)

Lemma set_length : forall h p a, length (set_args h p a) = length h.
Proof.
  intros h p a. unfold set_args. rewrite app_length, firstn_length. pose proof (skipn_length p h) as E. destruct (skipn p h); cbn [length] in *; lia.
Qed.
Lemma at_set : forall h p a q, at_ (set_args h p a) q = if (q =? p) && (p <? length h) then with_args (at_ h q) a else at_ h q.
Proof.
  intros h p a q. unfold set_args, at_. pose proof (skipn_length p h) as E. pose proof (firstn_skipn p h) as Hs.
  destruct (Nat.ltb_spec p (length h)) as [Hl|Hl].
  - destruct (skipn p h) as [|c r] eqn:Er; [cbn in E; lia|].
    assert (Hf : length (firstn p h) = p) by (rewrite firstn_length; lia).
    destruct (Nat.eqb_spec q p) as [->|Hq]; cbn [andb].
    + rewrite app_nth2 by lia. rewrite Hf, Nat.sub_diag. cbn [nth]. f_equal. rewrite <- Hs at 1. rewrite app_nth2 by lia. now rewrite Hf, Nat.sub_diag.
    + transitivity (nth q (firstn p h ++ c :: r) nothing); [|now rewrite Hs]. destruct (Nat.lt_ge_cases q p) as [Hlt|Hge].
      * rewrite !app_nth1 by lia. reflexivity.
      * rewrite !app_nth2 by lia. destruct (q - length (firstn p h)) as [|k] eqn:Ek; [lia|]. reflexivity.
  - rewrite andb_false_r. rewrite skipn_all2 in * by lia. rewrite app_nil_r. f_equal. rewrite app_nil_r in Hs. exact Hs.
Qed.
Lemma at_old : forall h r p, p < length h -> at_ (h ++ r) p = at_ h p.
Proof. intros h r p H. unfold at_. now apply app_nth1. Qed.

(** ** Steps *)

Definition same_static (c d : cell) : Prop := c_package d = c_package c /\ c_name d = c_name c /\ c_targs d = c_targs c.

(** Cells outside [L] keep their arguments; what is written is in [P]. *)
Record step (P : list expression -> Prop) (L : pointer -> Prop) (h h' : heap) : Prop := {
  st_length : length h <= length h';
  st_static : forall p, p < length h -> same_static (at_ h p) (at_ h' p);
  st_new : forall p, length h <= p -> c_targs (at_ h' p) = [];
  st_kept : forall p, p < length h -> ~ L p -> c_args (at_ h' p) = c_args (at_ h p);
  st_written : forall p, p < length h -> c_args (at_ h' p) = c_args (at_ h p) \/ P (c_args (at_ h' p))
}.

Lemma at_beyond : forall h p, length h <= p -> at_ h p = nothing.
Proof. intros h p H. now apply nth_overflow. Qed.

Lemma step_refl : forall P L h, step P L h h.
Proof.
  intros P L h. constructor; auto; intros p Hp.
  - now repeat split.
  - now rewrite at_beyond.
Qed.

Lemma step_trans : forall P (L L' : pointer -> Prop) h h1 h2, step P L h h1 -> step P L' h1 h2 -> (forall p, p < length h -> L' p -> L p) -> step P L h h2.
Proof.
  intros P L L' h h1 h2 [A1 A2 A3 A4 A5] [B1 B2 B3 B4 B5] HL. constructor.
  - lia.
  - intros p Hp. destruct (A2 p Hp) as (X & Y & Z). destruct (B2 p ltac:(lia)) as (X' & Y' & Z'). repeat split; congruence.
  - intros p Hp. destruct (Nat.lt_ge_cases p (length h1)) as [H|H]; [|now apply B3]. destruct (B2 p H) as (_ & _ & Z). rewrite Z. now apply A3.
  - intros p Hp HnL. rewrite B4; [now apply A4|lia|]. intro H. apply HnL. now apply HL.
  - intros p Hp. destruct (B5 p ltac:(lia)) as [E|E]; [|now right]. rewrite E. now apply A5.
Qed.

Lemma step_weaken : forall P (L L' : pointer -> Prop) h h', step P L h h' -> (forall p, p < length h -> L p -> L' p) -> step P L' h h'.
Proof. intros P L L' h h' [A1 A2 A3 A4 A5] HL. constructor; auto. Qed.

Lemma step_set : forall (P : list expression -> Prop) (L : pointer -> Prop) h q a, L q -> P a -> step P L h (set_args h q a).
Proof.
  intros P L h q a HL HP. constructor; intros.
  - now rewrite set_length.
  - rewrite at_set. destruct (_ && _); now repeat split.
  - rewrite at_set. destruct (_ && _); cbn; now rewrite at_beyond.
  - rewrite at_set. destruct (Nat.eqb_spec p q) as [->|]; [contradiction|reflexivity].
  - rewrite at_set. destruct (_ && _); cbn; [now right|now left].
Qed.

Lemma step_alloc : forall P L h c, c_targs c = [] -> step P L h (h ++ [c]).
Proof.
  intros P L h c Hc. constructor; intros.
  - rewrite app_length. lia.
  - rewrite at_old by assumption. now repeat split.
  - unfold at_. rewrite app_nth2 by assumption. destruct (p - length h) as [|[|k]]; [assumption|reflexivity|reflexivity].
  - now rewrite at_old.
  - left. now rewrite at_old.
Qed.

(** ** Invariants *)

Definition closed (L : pointer -> Prop) (h : heap) : Prop := forall p q, p < length h -> In q (c_targs (at_ h p)) -> L q /\ q < length h.
Definition schema_field (S : schema) (f : pointer) : Prop := exists pkg n t, lookup S pkg n = Some t /\ In f (t_fields t).
Definition away (S : schema) (L : pointer -> Prop) (h : heap) : Prop := forall f, schema_field S f -> f < length h /\ ~ L f.

Definition param_of (h : heap) (t : template) (f : pointer) : bool :=
  match c_targs (at_ h f) with [] => (c_package (at_ h f) =? "")%string && existsb (fun x => (x =? c_name (at_ h f))%string) (t_params t) | _ => false end.

Lemma param_iff : forall h t f, param_of h t f = true <-> exists x, is_parameter h t f x.
Proof.
  intros h t f. unfold param_of, is_parameter. destruct (c_targs (at_ h f)) as [|? ?].
  - rewrite andb_true_iff, String.eqb_eq, existsb_exists. split.
    + intros (H & x & Hx & He). apply String.eqb_eq in He. exists (c_name (at_ h f)). subst x. now repeat split.
    + intros (x & _ & H & Hn & Hi). split; [assumption|]. exists x. split; [assumption|]. now apply String.eqb_eq.
  - split; [discriminate|]. intros (x & H & _). discriminate.
Qed.

Definition field_ok (P : list expression -> Prop) (L : pointer -> Prop) (h : heap) (t : template) (types : list pointer) (f q : pointer) : Prop :=
  q < length h /\
  if param_of h t f then bound (t_params t) types (c_name (at_ h f)) = Some q /\ P (c_args (at_ h q))
  else ~ L q /\ c_args (at_ h q) = c_args (at_ h f).
Definition entry_ok (S : schema) (P : list expression -> Prop) (L : pointer -> Prop) (h : heap) (e : entry) : Prop :=
  (exists pkg n, lookup S pkg n = Some (e_template e)) /\ exists types, Forall2 (field_ok P L h (e_template e) types) (t_fields (e_template e)) (e_fields e).

Definition inv (S : schema) (P : list expression -> Prop) (L : pointer -> Prop) (st : state) : Prop :=
  closed L (s_heap st) /\ (forall p, L p -> p < length (s_heap st)) /\ away S L (s_heap st) /\ Forall (entry_ok S P L (s_heap st)) (s_made st).

Lemma step_closed : forall P (L L' L'' : pointer -> Prop) h h', step P L h h' -> closed L' h -> (forall p, L' p -> L'' p) -> closed L'' h'.
Proof.
  intros P L L' L'' h h' [A1 A2 A3 A4 A5] H HL p q Hp Hq. destruct (Nat.lt_ge_cases p (length h)) as [Hl|Hl].
  - destruct (A2 p Hl) as (_ & _ & E). rewrite E in Hq. destruct (H p q Hl Hq) as [X Y]. split; [now apply HL|lia].
  - rewrite (A3 p Hl) in Hq. destruct Hq.
Qed.

Lemma step_param : forall P L h h' t f, step P L h h' -> f < length h -> param_of h' t f = param_of h t f /\ c_name (at_ h' f) = c_name (at_ h f).
Proof. intros P L h h' t f H Hf. destruct (st_static _ _ _ _ H f Hf) as (X & Y & Z). split; [|assumption]. unfold param_of. now rewrite X, Y, Z. Qed.

(** [L'] adds only new cells to [L]. *)
Definition grows (h : heap) (L L' : pointer -> Prop) : Prop := forall p, p < length h -> L' p -> L p.

Lemma step_field : forall P (L L' : pointer -> Prop) h h' t types f q, step P L h h' -> f < length h -> ~ L f -> grows h L L' ->
  field_ok P L h t types f q -> field_ok P L' h' t types f q.
Proof.
  intros P L L' h h' t types f q H Hf Hn HL [Hq Hok]. pose proof (st_length _ _ _ _ H) as Hlen. split; [lia|].
  destruct (step_param _ _ _ _ t f H Hf) as [Ep En]. rewrite Ep, En. destruct (param_of h t f).
  - destruct Hok as [Hb HP]. split; [assumption|]. destruct (st_written _ _ _ _ H q Hq) as [E|E]; [now rewrite E|assumption].
  - destruct Hok as [HnL Ha]. split; [intro X; apply HnL; now apply HL|]. rewrite (st_kept _ _ _ _ H q Hq HnL), (st_kept _ _ _ _ H f Hf Hn). assumption.
Qed.

Lemma Forall2_weaken : forall A B (P Q : A -> B -> Prop) l l', (forall x y, In x l -> P x y -> Q x y) -> Forall2 P l l' -> Forall2 Q l l'.
Proof.
  intros A B P Q l l' H F. induction F as [|x y l l' Hxy F IH]; constructor; [apply H; [now left|assumption]|]. apply IH. intros x' y' Hx. apply H. now right.
Qed.

Lemma step_entry : forall S P (L L' : pointer -> Prop) h h' e, step P L h h' -> away S L h -> grows h L L' -> entry_ok S P L h e -> entry_ok S P L' h' e.
Proof.
  intros S P L L' h h' e H Ha HL ((pkg & n & Hl) & types & HF). split; [now exists pkg, n|]. exists types.
  eapply Forall2_weaken; [|exact HF]. intros f q Hf Hok. destruct (Ha f) as [Hlt Hn]; [now exists pkg, n, (e_template e)|].
  now apply (step_field P L L' h).
Qed.

Lemma step_away : forall S P (L L' : pointer -> Prop) h h', step P L h h' -> away S L h -> grows h L L' -> away S L' h'.
Proof.
  intros S P L L' h h' H Ha HL f Hf. destruct (Ha f Hf) as [X Y]. pose proof (st_length _ _ _ _ H). split; [lia|]. intro Z. apply Y. now apply HL.
Qed.

(** The invariant moves along a step. *)
Lemma step_inv : forall S P (L : pointer -> Prop) h h' made, step P L h h' -> inv S P L (mkS h made) -> inv S P L (mkS h' made).
Proof.
  intros S P L h h' made H (Hc & Hb & Ha & He). cbn [s_heap s_made] in *. pose proof (st_length _ _ _ _ H). split; [|split; [|split]]; cbn [s_heap s_made].
  - now apply (step_closed P L L L h).
  - intros p Hp. apply Hb in Hp. lia.
  - now apply (step_away S P L L h).
  - eapply Forall_impl; [|exact He]. intros e. now apply (step_entry S P L L h).
Qed.

Lemma inv_add : forall S P (L : pointer -> Prop) st r, inv S P L st -> r < length (s_heap st) -> ~ schema_field S r ->
  (forall e q, In e (s_made st) -> In q (e_fields e) -> q <> r) -> inv S P (fun p => L p \/ p = r) st.
Proof.
  intros S P L st r (Hc & Hb & Ha & He) Hr Hs Hq. split; [|split; [|split]].
  - intros p q Hp Hi. destruct (Hc p q Hp Hi) as [X Y]. split; [now left|assumption].
  - intros p [Hp| ->]; [now apply Hb|assumption].
  - intros f Hf. destruct (Ha f Hf) as [X Y]. split; [assumption|]. intros [Z| ->]; [now apply Y|now apply Hs].
  - rewrite Forall_forall in He |- *. intros e Hin. destruct (He e Hin) as (Hl & types & HF). split; [assumption|]. exists types.
    assert (HF' : forall q, In q (e_fields e) -> q <> r) by (intros q; now apply Hq).
    revert HF'. induction HF as [|f q fs qs Hok HF IH]; intro HF'; constructor; [|apply IH; intros q' Hq'; apply HF'; now right].
    destruct Hok as [Hl' Hok]. split; [assumption|]. destruct (param_of _ _ f); [assumption|]. destruct Hok as [HnL Ha']. split; [|assumption].
    intros [Z| ->]; [now apply HnL|]. apply (HF' r); [now left|reflexivity].
Qed.
Lemma inv_ext : forall S P (L L' : pointer -> Prop) st, (forall p, L p <-> L' p) -> inv S P L st -> inv S P L' st.
Proof.
  intros S P L L' st HL (Hc & Hb & Ha & He). split; [|split; [|split]].
  - intros p q Hp Hi. destruct (Hc p q Hp Hi) as [X Y]. split; [now apply HL|assumption].
  - intros p Hp. apply Hb. now apply HL.
  - intros f Hf. destruct (Ha f Hf) as [X Y]. split; [assumption|]. intro Z. apply Y. now apply HL.
  - eapply Forall_impl; [|exact He]. intros e (Hl & types & HF). split; [assumption|]. exists types. eapply Forall2_weaken; [|exact HF].
    intros f q _ [Hq Hok]. split; [assumption|]. destruct (param_of _ _ f); [assumption|]. destruct Hok as [X Y]. split; [|assumption]. intro Z. apply X. now apply HL.
Qed.

Definition pargs (S : schema) (P : list expression -> Prop) (h : heap) : Prop :=
  forall pkg n t f, lookup S pkg n = Some t -> In f (t_fields t) -> param_of h t f = true -> P (c_args (at_ h f)).
Lemma step_pargs : forall S P L h h', step P L h h' -> away S L h -> pargs S P h -> pargs S P h'.
Proof.
  intros S P L h h' H Ha Hp pkg n t f Hl Hf Hpar. destruct (Ha f) as [Hlt Hn]; [now exists pkg, n, t|].
  rewrite (st_kept _ _ _ _ H f Hlt Hn). rewrite (proj1 (step_param _ _ _ _ t f H Hlt)) in Hpar. now apply (Hp pkg n t).
Qed.

(** ** Instantiation *)

Definition type_result (S : schema) (P : list expression -> Prop) (L : pointer -> Prop) (tr : pointer) (targs : list pointer) (st : state) (r : pointer) (st' : state) : Prop :=
  (targs = [] /\ r = tr /\ st' = st) \/
  (targs <> [] /\ step P L (s_heap st) (s_heap st') /\ inv S P L st' /\ (length (s_heap st) <= r < length (s_heap st')) /\
   (exists added, s_made st' = s_made st ++ added /\
      forall e q, In e added -> In q (e_fields e) -> q <> r /\ (L q \/ schema_field S q \/ length (s_heap st) <= q)) /\
   (~ L tr -> c_args (at_ (s_heap st') r) = c_args (at_ (s_heap st) tr))).

Definition type_steps (S : schema) (P : list expression -> Prop) (f : pointer -> list pointer -> state -> out (pointer * state)) : Prop :=
  forall L tr targs st r st', pargs S P (s_heap st) -> inv S P L st -> (forall q, In q targs -> L q /\ q < length (s_heap st)) -> tr < length (s_heap st) ->
    f tr targs st = Good (r, st') -> type_result S P L tr targs st r st'.

Lemma entry_fields_old : forall S P L h e q, entry_ok S P L h e -> In q (e_fields e) -> q < length h.
Proof.
  intros S P L h e q (_ & types & HF) Hq. induction HF as [|f q' fs qs Hok HF IH]; [destruct Hq|]. destruct Hq as [->|Hq]; [apply Hok|now apply IH].
Qed.

(** After a type, the result may be a template argument. *)
Lemma result_add : forall S P L tr targs st r st', inv S P L st -> (targs = [] -> L tr) -> type_result S P L tr targs st r st' ->
  step P L (s_heap st) (s_heap st') /\ inv S P (fun p => L p \/ p = r) st' /\ (L r \/ length (s_heap st) <= r) /\ r < length (s_heap st') /\
  exists added, s_made st' = s_made st ++ added /\ forall e q, In e added -> In q (e_fields e) -> L q \/ schema_field S q \/ length (s_heap st) <= q.
Proof.
  intros S P L tr targs st r st' Hi HL [(-> & -> & ->)|(Hn & Hst & Hi' & Hr & (added & Em & Hadd) & _)].
  - pose proof (HL eq_refl) as Hl. split; [apply step_refl|]. split; [|split; [now left|split]].
    + apply (inv_ext S P L); [|assumption]. intro p. split; [tauto|]. intros [H| ->]; assumption.
    + destruct Hi as (_ & Hb & _). now apply Hb.
    + exists []. rewrite app_nil_r. split; [reflexivity|]. intros e q [].
  - split; [assumption|]. split; [|split; [right; lia|split; [lia|]]].
    + destruct Hi as (_ & _ & Ha & He). apply inv_add; [assumption|lia| |].
      * intro Hs. destruct (Ha r Hs). lia.
      * intros e q Hin Hq. rewrite Em in Hin. apply in_app_or in Hin as [Hin|Hin].
        -- rewrite Forall_forall in He. pose proof (entry_fields_old _ _ _ _ _ _ (He e Hin) Hq). lia.
        -- now apply (Hadd e q).
    + exists added. split; [assumption|]. intros e q H1 H2. now apply (Hadd e q).
Qed.

Lemma types_step : forall S P (f : pointer -> list pointer -> state -> out (pointer * state)), type_steps S P f -> forall tas L st types st', pargs S P (s_heap st) -> inv S P L st ->
  (forall q, In q tas -> L q /\ q < length (s_heap st)) ->
  collect (fun ta st => f ta (c_targs (at_ (s_heap st) ta)) st) tas st = Good (types, st') ->
  step P L (s_heap st) (s_heap st') /\ inv S P (fun p => L p \/ In p types) st' /\
  (forall q, In q types -> (L q \/ length (s_heap st) <= q) /\ q < length (s_heap st')) /\ length types = length tas /\
  exists added, s_made st' = s_made st ++ added /\ forall e q, In e added -> In q (e_fields e) -> L q \/ schema_field S q \/ length (s_heap st) <= q.
Proof.
  intros S P f Hf. induction tas as [|ta tas IH]; intros L st types st' Hp Hi Htas H; cbn [collect] in H.
  - injection H as <- <-. split; [apply step_refl|]. split; [apply (inv_ext S P L); [cbn; tauto|assumption]|]. split; [intros q []|]. split; [reflexivity|].
    exists []. rewrite app_nil_r. split; [reflexivity|]. intros e q [].
  - destruct (f ta _ st) as [[r st1]| |] eqn:Ef; try discriminate. destruct (collect _ tas st1) as [[rs st2]| |] eqn:Ec; try discriminate. injection H as <- <-.
    destruct (Htas ta ltac:(now left)) as [HLta Hta].
    assert (Hargs : forall q, In q (c_targs (at_ (s_heap st) ta)) -> L q /\ q < length (s_heap st)) by (intros q; now apply (proj1 Hi)).
    pose proof (Hf L _ _ _ _ _ Hp Hi Hargs Hta Ef) as Hres.
    destruct (result_add _ _ _ _ _ _ _ _ Hi (fun _ => HLta) Hres) as (Hs1 & Hi1 & Hr & Hrl & added & Em & Hadd).
    pose proof (st_length _ _ _ _ Hs1) as Hlen.
    destruct (IH (fun p => L p \/ p = r) st1 rs st2 (step_pargs _ _ _ _ _ Hs1 (proj1 (proj2 (proj2 Hi))) Hp) Hi1) as (Hs2 & Hi2 & Hrs & Hlr & added2 & Em2 & Hadd2).
    { intros q Hq. destruct (Htas q ltac:(now right)). split; [now left|lia]. }
    { exact Ec. }
    assert (HLr : forall p, p < length (s_heap st) -> L p \/ p = r -> L p) by (intros p Hlt [X| ->]; [assumption|destruct Hr; [assumption|lia]]).
    split; [now apply (step_trans P L _ _ (s_heap st1) _ Hs1 Hs2)|]. pose proof (st_length _ _ _ _ Hs2) as Hlen2.
    split; [|split; [|split; [cbn; lia|]]].
    + eapply inv_ext; [|exact Hi2]. intro p. cbn [In]. split; [intros [[X| ->]|X]; tauto|intros [X|[<-|X]]; tauto].
    + intros q [<-|Hq]; [split; [assumption|lia]|]. destruct (Hrs q Hq) as [X Y]. split; [|assumption]. destruct X as [[X| ->]|X]; [now left|assumption|right; lia].
    + exists (added ++ added2). rewrite Em2, Em, app_assoc. split; [reflexivity|]. intros e q Hin Hq. apply in_app_or in Hin as [Hin|Hin]; [now apply (Hadd e)|].
      destruct (Hadd2 e q Hin Hq) as [[X| ->]|[X|X]]; [now left|destruct Hr; [now left|right; right; lia]|now right; left|right; right; lia].
Qed.

Lemma bound_in : forall ps ts n q, bound ps ts n = Some q -> In q ts /\ In n ps.
Proof.
  induction ps as [|x ps IH]; intros [|t ts] n q H; cbn in H; try discriminate. destruct (bound ps ts n) as [q'|] eqn:E.
  - injection H as ->. destruct (IH ts n q E). split; now right.
  - destruct (String.eqb_spec x n) as [->|]; [|discriminate]. injection H as ->. split; now left.
Qed.
Lemma bound_none : forall ps ts n, length ps = length ts -> bound ps ts n = None -> ~ In n ps.
Proof.
  induction ps as [|x ps IH]; intros [|t ts] n Hl H Hin; cbn in *; try discriminate; try contradiction.
  destruct (bound ps ts n) eqn:E; [discriminate|]. destruct (String.eqb_spec x n) as [->|Hne]; [discriminate|]. destruct Hin as [Hin|Hin]; [contradiction|]. now apply (IH ts n ltac:(lia) E).
Qed.

Lemma fields_step : forall S P f pkg n t types, type_steps S P f -> lookup S pkg n = Some t -> length (t_params t) = length types -> forall fs, incl fs (t_fields t) ->
  forall L st qs st', pargs S P (s_heap st) -> inv S P L st -> (forall q, In q types -> L q) ->
  collect (instantiateField f (bound (t_params t) types)) fs st = Good (qs, st') ->
  step P L (s_heap st) (s_heap st') /\ inv S P L st' /\ Forall2 (field_ok P L (s_heap st') t types) fs qs /\
  exists added, s_made st' = s_made st ++ added /\ forall q, In q qs \/ (exists e, In e added /\ In q (e_fields e)) -> L q \/ schema_field S q \/ length (s_heap st) <= q.
Proof.
  intros S P f pkg n t types Hf Hlk Hlen. induction fs as [|x fs IH]; intros Hincl L st qs st' Hp Hi Hty H; cbn [collect] in H.
  - injection H as <- <-. split; [apply step_refl|]. split; [assumption|]. split; [constructor|]. exists []. rewrite app_nil_r. split; [reflexivity|].
    intros q [[]|(e & [] & _)].
  - destruct (instantiateField _ _ x st) as [[q st1]| |] eqn:Ef; try discriminate. destruct (collect _ fs st1) as [[rs st2]| |] eqn:Ec; try discriminate. injection H as <- <-.
    assert (Hx : In x (t_fields t)) by (apply Hincl; now left). assert (Hsx : schema_field S x) by (now exists pkg, n, t).
    pose proof Hi as (Hc & Hb & Ha & He). destruct (Ha x Hsx) as [Hxl HxL].
    assert (G : step P L (s_heap st) (s_heap st1) /\ inv S P L st1 /\ field_ok P L (s_heap st1) t types x q /\ (L q \/ schema_field S q \/ length (s_heap st) <= q) /\
      exists added, s_made st1 = s_made st ++ added /\ forall e y, In e added -> In y (e_fields e) -> L y \/ schema_field S y \/ length (s_heap st) <= y).
    { unfold instantiateField in Ef. destruct (c_targs (at_ (s_heap st) x)) as [|ta tas] eqn:Et.
      - assert (Plain : param_of (s_heap st) t x = false -> Good (x, st) = Good (q, st1) -> step P L (s_heap st) (s_heap st1) /\ inv S P L st1 /\ field_ok P L (s_heap st1) t types x q /\
          (L q \/ schema_field S q \/ length (s_heap st) <= q) /\
          exists added, s_made st1 = s_made st ++ added /\ forall e y, In e added -> In y (e_fields e) -> L y \/ schema_field S y \/ length (s_heap st) <= y).
        { intros Hpar E. injection E as <- <-. split; [apply step_refl|]. split; [assumption|]. split; [split; [assumption|]; rewrite Hpar; now split|]. split; [now right; left|].
          exists []. rewrite app_nil_r. split; [reflexivity|]. intros e y []. }
        destruct (bound (t_params t) types (c_name (at_ (s_heap st) x))) as [b|] eqn:Eb.
        + destruct (String.eqb_spec (c_package (at_ (s_heap st) x)) "") as [Hpk|Hpk].
          * injection Ef as <- <-. destruct (bound_in _ _ _ _ Eb) as [Hbt Hbp]. pose proof (Hty b Hbt) as HLb.
            assert (Hpar : param_of (s_heap st) t x = true).
            { apply param_iff. exists (c_name (at_ (s_heap st) x)). now repeat split. }
            pose proof (Hp pkg n t x Hlk Hx Hpar) as HP. assert (Hstep : step P L (s_heap st) (set_args (s_heap st) b (c_args (at_ (s_heap st) x)))) by (now apply step_set).
            cbn [s_heap s_made]. split; [assumption|]. split; [apply (step_inv S P L (s_heap st)); [assumption|now destruct st]|]. split; [|split; [now left|]].
            -- split; [rewrite set_length; now apply Hb|]. destruct (step_param _ _ _ _ t x Hstep Hxl) as [E1 E2]. rewrite E1, E2, Hpar. split; [assumption|].
               rewrite at_set, Nat.eqb_refl. rewrite (proj2 (Nat.ltb_lt b (length (s_heap st))) (Hb b HLb)). exact HP.
            -- exists []. rewrite app_nil_r. split; [reflexivity|]. intros e y [].
          * apply Plain; [|assumption]. unfold param_of. rewrite Et. apply String.eqb_neq in Hpk. now rewrite Hpk.
        + apply Plain; [|assumption]. destruct (param_of (s_heap st) t x) eqn:Ep; [|reflexivity]. apply param_iff in Ep as (y & _ & _ & Hn & Hy). exfalso.
          subst y. now apply (bound_none _ _ _ Hlen Eb).
      - assert (Hargs : forall y, In y (map (fun p => match bound (t_params t) types (c_name (at_ (s_heap st) p)) with Some q => q | None => p end) (ta :: tas)) -> L y /\ y < length (s_heap st)).
        { intros y Hy. apply in_map_iff in Hy as (p & <- & Hin). destruct (bound _ _ _) as [b|] eqn:Eb.
          - destruct (bound_in _ _ _ _ Eb) as [Hbt _]. split; [now apply Hty|]. apply Hb. now apply Hty.
          - apply (Hc x); [assumption|]. now rewrite Et. }
        destruct (Hf L _ _ _ _ _ Hp Hi Hargs Hxl Ef) as [(E & _)|(_ & Hs & Hi1 & Hr & (added & Em & Hadd) & Hra)]; [discriminate|].
        split; [assumption|]. split; [assumption|]. split; [|split; [right; right; lia|]].
        + split; [lia|]. destruct (step_param _ _ _ _ t x Hs Hxl) as [E1 _]. rewrite E1. unfold param_of at 1. rewrite Et. split.
          * intro HL. apply Hb in HL. lia.
          * rewrite (Hra HxL). symmetry. now apply (st_kept _ _ _ _ Hs).
        + exists added. split; [assumption|]. intros e y H1 H2. now apply (Hadd e y). }
    destruct G as (Hs1 & Hi1 & Hok & Hq & added & Em & Hadd). pose proof (st_length _ _ _ _ Hs1) as Hl1.
    destruct (IH ltac:(intros y Hy; apply Hincl; now right) L st1 rs st2 (step_pargs _ _ _ _ _ Hs1 Ha Hp) Hi1 Hty Ec) as (Hs2 & Hi2 & HF & added2 & Em2 & Hadd2).
    split; [apply (step_trans P L L _ (s_heap st1)); auto|]. split; [assumption|]. split.
    + constructor; [|assumption]. destruct (proj1 (proj2 (proj2 Hi1)) x Hsx) as [X Y]. apply (step_field P L L (s_heap st1)); auto. intros p _ Z. exact Z.
    + exists (added ++ added2). rewrite Em2, Em, app_assoc. split; [reflexivity|]. intros y [[<-|Hy]|(e & Hin & Hy)].
      * assumption.
      * destruct (Hadd2 y ltac:(now left)) as [X|[X|X]]; [now left|now right; left|right; right; lia].
      * apply in_app_or in Hin as [Hin|Hin]; [now apply (Hadd e)|]. destruct (Hadd2 y ltac:(right; now exists e)) as [X|[X|X]]; [now left|now right; left|right; right; lia].
Qed.

Lemma inv_less : forall S P (L L' : pointer -> Prop) st, inv S P L' st -> closed L (s_heap st) -> (forall p, L p -> L' p) -> inv S P L st.
Proof.
  intros S P L L' st (_ & Hb & Ha & He) Hc HL. split; [assumption|split; [|split]].
  - intros p Hp. apply Hb. now apply HL.
  - intros f Hf. destruct (Ha f Hf) as [X Y]. split; [assumption|]. intro Z. apply Y. now apply HL.
  - eapply Forall_impl; [|exact He]. intros e (Hl & types & HF). split; [assumption|]. exists types. eapply Forall2_weaken; [|exact HF].
    intros f q _ [Hq Hok]. split; [assumption|]. destruct (param_of _ _ f); [assumption|]. destruct Hok as [X Y]. split; [|assumption]. intro Z. apply X. now apply HL.
Qed.

Lemma set_static : forall h p a q, same_static (at_ h q) (at_ (set_args h p a) q).
Proof. intros h p a q. rewrite at_set. destruct (_ && _); now repeat split. Qed.
Lemma set_other : forall h p a q, q <> p -> at_ (set_args h p a) q = at_ h q.
Proof. intros h p a q H. rewrite at_set. destruct (Nat.eqb_spec q p) as [->|]; [contradiction|reflexivity]. Qed.

(** An assignment to a type reference that no instance has yet. *)
Lemma inv_set : forall S P L h made new a, inv S P L (mkS h made) -> ~ schema_field S new ->
  (forall e q, In e made -> In q (e_fields e) -> q <> new) -> inv S P L (mkS (set_args h new a) made).
Proof.
  intros S P L h made new a (Hc & Hb & Ha & He) Hs Hq. cbn [s_heap s_made] in *. split; [|split; [|split]]; cbn [s_heap s_made].
  - intros p q Hp Hi. rewrite set_length in *. destruct (set_static h new a p) as (_ & _ & E). rewrite E in Hi. now apply (Hc p).
  - intros p Hp. rewrite set_length. now apply Hb.
  - intros f Hf. rewrite set_length. now apply Ha.
  - rewrite Forall_forall in He |- *. intros e Hin. destruct (He e Hin) as ((pkg & n & Hl) & types & HF). split; [now exists pkg, n|]. exists types.
    assert (HF' : forall q, In q (e_fields e) -> q <> new) by (intros q; now apply Hq).
    assert (Hfs : forall f, In f (t_fields (e_template e)) -> f <> new) by (intros f Hf ->; apply Hs; now exists pkg, n, (e_template e)).
    revert HF' Hfs. induction HF as [|f q fs qs Hok HF IH]; intros HF' Hfs; constructor.
    + destruct Hok as [Hl' Hok]. split; [now rewrite set_length|]. assert (Ef : at_ (set_args h new a) f = at_ h f) by (apply set_other; apply Hfs; now left).
      assert (Eq : at_ (set_args h new a) q = at_ h q) by (apply set_other; apply HF'; now left). unfold param_of in *. now rewrite Ef, Eq.
    + apply IH; intros x Hx; [apply HF'|apply Hfs]; now right.
Qed.

Lemma step_set_new : forall P L h h' new a, step P L h h' -> length h <= new -> step P L h (set_args h' new a).
Proof.
  intros P L h h' new a [A1 A2 A3 A4 A5] Hn. constructor.
  - now rewrite set_length.
  - intros p Hp. rewrite set_other by lia. now apply A2.
  - intros p Hp. destruct (set_static h' new a p) as (_ & _ & ->). now apply A3.
  - intros p Hp. rewrite set_other by lia. now apply A4.
  - intros p Hp. rewrite set_other by lia. now apply A5.
Qed.

Lemma finish_result : forall S P L tr targs st h3 made3 added new, inv S P L st -> targs <> [] -> tr < length (s_heap st) ->
  step P L (s_heap st) h3 -> inv S P L (mkS h3 made3) -> length (s_heap st) <= new < length h3 -> ~ schema_field S new ->
  made3 = s_made st ++ added -> (forall e q, In e added -> In q (e_fields e) -> q <> new /\ (L q \/ schema_field S q \/ length (s_heap st) <= q)) ->
  type_result S P L tr targs st new (mkS (set_args h3 new (c_args (at_ h3 tr))) made3).
Proof.
  intros S P L tr targs st h3 made3 added new Hi Hne Htr Hs Hi3 Hnew Hsn Em Hadd. right. cbn [s_heap s_made]. rewrite set_length.
  split; [assumption|]. split; [now apply step_set_new|]. split; [|split; [assumption|split]].
  - apply inv_set; [assumption|assumption|]. intros e q Hin Hq. rewrite Em in Hin. apply in_app_or in Hin as [Hin|Hin]; [|now apply (Hadd e q)].
    destruct Hi as (_ & _ & _ & He). rewrite Forall_forall in He. pose proof (entry_fields_old _ _ _ _ _ _ (He e Hin) Hq). lia.
  - now exists added.
  - intro HL. rewrite at_set, Nat.eqb_refl. rewrite (proj2 (Nat.ltb_lt _ _) (proj2 Hnew)). cbn [andb with_args c_args]. now apply (st_kept _ _ _ _ Hs).
Qed.

Lemma type_step : forall S P fuel pkg name, type_steps S P (instantiateType fuel S pkg name).
Proof.
  intros S P. induction fuel as [|fuel IHf]; intros pkg name L tr targs st r st' Hp Hi Hta Htr H; [discriminate|].
  cbn [instantiateType] in H. destruct targs as [|t0 targs0] eqn:Et; [injection H as <- <-; now left|].
  rewrite <- Et in *. assert (Hne : targs <> []) by (rewrite Et; discriminate). clear Et.
  destruct (lookup S pkg (c_name (at_ (s_heap st) tr))) as [t|] eqn:El; [|discriminate].
  destruct (Nat.eqb_spec (length (t_params t)) (length targs)) as [Hlen|]; [|discriminate].
  destruct (collect (fun ta st0 => instantiateType fuel S pkg None ta (c_targs (at_ (s_heap st0) ta)) st0) targs st) as [[types st1]| |] eqn:Ec; try discriminate.
  destruct (types_step S P _ (IHf pkg None) targs L st types st1 Hp Hi Hta Ec) as (Hs1 & Hi1 & Hty & Hlt & added1 & Em1 & Hadd1).
  set (L1 := fun p => L p \/ In p types) in *. set (new := length (s_heap st1)) in *. pose proof (st_length _ _ _ _ Hs1) as Hl1.
  match type of H with context [mkS (s_heap st1 ++ [?c]) _] => set (cell := c) in *; pose proof (step_alloc P L1 (s_heap st1) cell eq_refl) as Hs2 end.
  set (h2 := s_heap st1 ++ [cell]) in *. assert (Hl2 : length h2 = Datatypes.S new) by (unfold h2, new; rewrite app_length; cbn; lia).
  pose proof Hi as (HcL & HbL & HaL & HeL). pose proof Hi1 as (Hc1 & Hb1 & Ha1 & He1).
  assert (Hi2 : inv S P L1 (mkS h2 (s_made st1))) by (apply (step_inv S P L1 (s_heap st1)); [assumption|now destruct st1]).
  assert (Hsn : ~ schema_field S new) by (intro X; destruct (Ha1 new X); unfold new in *; lia).
  assert (Hn1 : ~ L1 new) by (intro X; apply Hb1 in X; unfold new in *; lia).
  assert (HL1 : forall p, p < length (s_heap st) -> L1 p -> L p).
  { intros p Hpl [X|X]; [assumption|]. destruct (Hty p X) as [[Y|Y] _]; [assumption|lia]. }
  assert (Hs12 : step P L (s_heap st) h2) by (apply (step_trans P L L1 _ (s_heap st1)); assumption).
  assert (HLL : forall p, L p -> L1 p) by (intros p X; now left).
  match type of H with (if ?b then _ else _) = _ => destruct b end.
  - injection H as <- <-. apply finish_result with (added := added1); auto.
    + apply (inv_less S P L L1); [assumption| |assumption]. cbn [s_heap]. apply (step_closed P L L L (s_heap st)); auto.
    + unfold new in *; lia.
    + intros e q Hin Hq. split; [|now apply (Hadd1 e)]. assert (In e (s_made st1)) as Hin1 by (rewrite Em1; apply in_or_app; now right).
      rewrite Forall_forall in He1. pose proof (entry_fields_old _ _ _ _ _ _ (He1 e Hin1) Hq). unfold new; lia.
  - destruct (collect _ (t_fields t) _) as [[qs st3]| |] eqn:Ef; try discriminate. injection H as <- <-.
    assert (Hp2 : pargs S P h2) by (apply (step_pargs S P L (s_heap st)); assumption).
    destruct (fields_step S P _ pkg (c_name (at_ (s_heap st) tr)) t types (IHf pkg None) El ltac:(lia) (t_fields t) (incl_refl _) L1 (mkS h2 (s_made st1)) qs st3 Hp2 Hi2
      ltac:(intros q Hq; now right) Ef) as (Hs3 & Hi3 & HF & added3 & Em3 & Hadd3). cbn [s_heap s_made] in *.
    pose proof (st_length _ _ _ _ Hs3) as Hl3.
    assert (Hs13 : step P L (s_heap st) (s_heap st3)) by (apply (step_trans P L L1 _ h2); assumption).
    assert (Hi3' : inv S P L1 (mkS (s_heap st3) (s_made st3 ++ [mkE pkg (match name with Some n => n | None => instance_name (s_heap st) tr targs end) t qs]))).
    { destruct Hi3 as (X1 & X2 & X3 & X4). split; [exact X1|split; [exact X2|split; [exact X3|]]]. cbn [s_heap s_made]. apply Forall_app. split; [assumption|]. constructor; [|constructor].
      split; [now exists pkg, (c_name (at_ (s_heap st) tr))|]. now exists types. }
    apply finish_result with (added := added1 ++ added3 ++ [mkE pkg (match name with Some n => n | None => instance_name (s_heap st) tr targs end) t qs]); auto.
    + apply (inv_less S P L L1); [assumption| |assumption]. cbn [s_heap]. apply (step_closed P L L L (s_heap st)); auto.
    + unfold new in *; lia.
    + rewrite Em3, Em1. now rewrite <- !app_assoc.
    + assert (G : forall q, (In q qs \/ exists e, In e added3 /\ In q (e_fields e)) -> q <> new /\ (L q \/ schema_field S q \/ length (s_heap st) <= q)).
      { intros q Hq. destruct (Hadd3 q Hq) as [X|[X|X]].
        - split; [intros ->; contradiction|]. destruct X as [X|X]; [now left|]. destruct (Hty q X) as [[Y|Y] _]; [now left|now right; right].
        - split; [intros ->; contradiction|now right; left].
        - split; [lia|right; right; unfold new in *; lia]. }
      intros e q Hin Hq. apply in_app_or in Hin as [Hin|Hin]; [|apply in_app_or in Hin as [Hin|[<-|[]]]].
      * split; [|now apply (Hadd1 e)]. assert (In e (s_made st1)) as Hin1 by (rewrite Em1; apply in_or_app; now right).
        rewrite Forall_forall in He1. pose proof (entry_fields_old _ _ _ _ _ _ (He1 e Hin1) Hq). unfold new; lia.
      * apply G. right. now exists e.
      * apply G. now left.
Qed.

(** ** All uses *)

Definition arguments (h : heap) (q : pointer) : Prop := exists p, p < length h /\ In q (c_targs (at_ h p)).

Lemma separate_inv : forall S P l h, separate S l h -> inv S P (arguments h) (mkS h []).
Proof.
  intros S P l h [H1 H2]. split; [|split; [|split]]; cbn [s_heap s_made].
  - intros p q Hp Hq. split; [now exists p|now apply (H1 p)].
  - intros q (p & Hp & Hq). now apply (H1 p).
  - intros f Hf. destruct (H2 f 0 (or_introl Hf)) as [X _]. split; [assumption|]. intros (p & Hp & Hq). now apply (proj2 (H2 f p (or_introl Hf))).
  - constructor.
Qed.

Lemma uses_step : forall S P L fuel l st qs st', pargs S P (s_heap st) -> inv S P L st -> (forall u, In u l -> u_type u < length (s_heap st) /\ ~ L (u_type u)) ->
  InstantiateTemplates fuel S l st = Good (qs, st') ->
  step P L (s_heap st) (s_heap st') /\ inv S P L st' /\ Forall2 (fun u q => c_args (at_ (s_heap st') q) = c_args (at_ (s_heap st) (u_type u))) l qs.
Proof.
  intros S P L fuel. induction l as [|u l IH]; intros st qs st' Hp Hi Hu H; cbn [InstantiateTemplates] in H.
  - injection H as <- <-. split; [apply step_refl|]. split; [assumption|constructor].
  - destruct (instantiateType _ _ _ _ _ _ st) as [[q st1]| |] eqn:Et; try discriminate. destruct (InstantiateTemplates fuel S l st1) as [[rs st2]| |] eqn:Er; try discriminate. injection H as <- <-.
    destruct (Hu u ltac:(now left)) as [Hul HuL]. pose proof Hi as (Hc & Hb & Ha & He).
    pose proof (type_step S P fuel _ _ L _ _ _ _ _ Hp Hi (fun y Hy => Hc _ y Hul Hy) Hul Et) as Hres.
    assert (G : step P L (s_heap st) (s_heap st1) /\ inv S P L st1 /\ q < length (s_heap st1) /\ ~ L q /\ c_args (at_ (s_heap st1) q) = c_args (at_ (s_heap st) (u_type u))).
    { destruct Hres as [(_ & -> & ->)|(_ & Hs & Hi1 & Hr & _ & Hra)].
      - split; [apply step_refl|]. split; [assumption|]. split; [assumption|]. split; [assumption|reflexivity].
      - split; [assumption|]. split; [assumption|]. split; [lia|]. split; [intro X; apply Hb in X; lia|now apply Hra]. }
    destruct G as (Hs1 & Hi1 & Hql & HqL & Hqa). pose proof (st_length _ _ _ _ Hs1) as Hl.
    destruct (IH st1 rs st2 (step_pargs _ _ _ _ _ Hs1 Ha Hp) Hi1) as (Hs2 & Hi2 & HF).
    { intros v Hv. destruct (Hu v ltac:(now right)). split; [lia|assumption]. }
    { assumption. }
    split; [apply (step_trans P L L _ (s_heap st1)); auto|]. split; [assumption|]. constructor.
    + rewrite (st_kept _ _ _ _ Hs2 q Hql HqL). assumption.
    + eapply Forall2_weaken; [|exact HF]. intros v y Hv E. cbn beta in E |- *. rewrite E. destruct (Hu v ltac:(now right)). now apply (st_kept _ _ _ _ Hs1).
Qed.

Lemma templates_step : forall S P fuel l h qs st', pargs S P h -> separate S l h -> InstantiateTemplates fuel S l (mkS h []) = Good (qs, st') ->
  step P (arguments h) h (s_heap st') /\ inv S P (arguments h) st' /\ Forall2 (fun u q => c_args (at_ (s_heap st') q) = c_args (at_ h (u_type u))) l qs.
Proof.
  intros S P fuel l h qs st' Hp Hs H. apply (uses_step S P (arguments h) fuel l (mkS h []) qs st'); auto.
  - now apply (separate_inv S P l).
  - intros u Hu. destruct Hs as [_ H2]. assert (X : exists v, In v l /\ u_type v = u_type u) by (now exists u).
    destruct (H2 (u_type u) 0 (or_intror X)) as [Y _]. split; [assumption|]. intros (p & Hp' & Hq). now apply (proj2 (H2 (u_type u) p (or_intror X))).
Qed.

Lemma entry_fields : forall S P fuel l h qs st' e, pargs S P h -> separate S l h -> InstantiateTemplates fuel S l (mkS h []) = Good (qs, st') -> In e (s_made st') ->
  (exists pkg n, lookup S pkg n = Some (e_template e)) /\
  exists types, Forall2 (fun f q => if param_of h (e_template e) f then bound (t_params (e_template e)) types (c_name (at_ h f)) = Some q /\ P (c_args (at_ (s_heap st') q))
    else c_args (at_ (s_heap st') q) = c_args (at_ h f)) (t_fields (e_template e)) (e_fields e).
Proof.
  intros S P fuel l h qs st' e Hp Hs H Hin. destruct (templates_step S P fuel l h qs st' Hp Hs H) as (Hst & (_ & _ & _ & He) & _).
  pose proof (separate_inv S P l h Hs) as (_ & _ & Ha & _). cbn [s_heap] in Ha.
  rewrite Forall_forall in He. destruct (He e Hin) as ((pkg & n & Hl) & types & HF). split; [now exists pkg, n|]. exists types.
  eapply Forall2_weaken; [|exact HF]. intros f q Hf [_ Hok]. destruct (Ha f) as [Hfl HfL]; [now exists pkg, n, (e_template e)|].
  destruct (step_param _ _ _ _ (e_template e) f Hst Hfl) as [E1 E2]. rewrite E1, E2 in Hok. destruct (param_of h _ f); [exact Hok|]. destruct Hok as [_ E].
  rewrite E. now apply (st_kept _ _ _ _ Hst).
Qed.

Lemma any_pargs : forall S h, pargs S (fun _ => True) h.
Proof. intros S h pkg n t f _ _ _. exact I. Qed.

Lemma uses_kept : forall S fuel l h qs st', separate S l h -> InstantiateTemplates fuel S l (mkS h []) = Good (qs, st') ->
  Forall2 (fun u q => c_args (at_ (s_heap st') q) = c_args (at_ h (u_type u))) l qs.
Proof. intros S fuel l h qs st' Hs H. now apply (templates_step S (fun _ => True) fuel l h qs st' (any_pargs S h) Hs). Qed.

Lemma fields_kept : forall S fuel l h qs st' e, separate S l h -> InstantiateTemplates fuel S l (mkS h []) = Good (qs, st') -> In e (s_made st') ->
  Forall2 (fun f q => (forall x, ~ is_parameter h (e_template e) f x) -> c_args (at_ (s_heap st') q) = c_args (at_ h f)) (t_fields (e_template e)) (e_fields e).
Proof.
  intros S fuel l h qs st' e Hs H Hin. destruct (entry_fields S _ fuel l h qs st' e (any_pargs S h) Hs H Hin) as (_ & types & HF).
  eapply Forall2_weaken; [|exact HF]. intros f q _ Hok Hn. cbn beta in Hok. destruct (param_of h (e_template e) f) eqn:E; [|assumption].
  apply param_iff in E as (x & Hx). now apply Hn in Hx.
Qed.

Lemma Forall2_nth : forall A B (R : A -> B -> Prop) l l' i x y, Forall2 R l l' -> nth_error l i = Some x -> nth_error l' i = Some y -> R x y.
Proof.
  intros A B R l l' i x y F. revert i. induction F as [|a b l l' Hab F IH]; intros [|i] Hx Hy; try discriminate.
  - cbn in *. congruence.
  - now apply (IH i).
Qed.

Lemma fields_shared : forall S fuel l h qs st' e i j f g x p q, separate S l h -> InstantiateTemplates fuel S l (mkS h []) = Good (qs, st') -> In e (s_made st') ->
  nth_error (t_fields (e_template e)) i = Some f -> nth_error (t_fields (e_template e)) j = Some g -> is_parameter h (e_template e) f x -> is_parameter h (e_template e) g x ->
  nth_error (e_fields e) i = Some p -> nth_error (e_fields e) j = Some q -> p = q.
Proof.
  intros S fuel l h qs st' e i j f g x p q Hs H Hin Hf Hg Pf Pg Hp Hq. destruct (entry_fields S _ fuel l h qs st' e (any_pargs S h) Hs H Hin) as (_ & types & HF).
  pose proof (Forall2_nth _ _ _ _ _ _ _ _ HF Hf Hp) as A. pose proof (Forall2_nth _ _ _ _ _ _ _ _ HF Hg Hq) as B. cbn beta in A, B.
  rewrite (proj2 (param_iff h (e_template e) f) (ex_intro _ x Pf)) in A. rewrite (proj2 (param_iff h (e_template e) g) (ex_intro _ x Pg)) in B.
  destruct Pf as (_ & _ & Ef & _). destruct Pg as (_ & _ & Eg & _). rewrite Ef in A. rewrite Eg in B. destruct A as [A _], B as [B _]. congruence.
Qed.

Lemma fields_uniform : forall S a fuel l h qs st' e, uniform S h a -> separate S l h -> InstantiateTemplates fuel S l (mkS h []) = Good (qs, st') -> In e (s_made st') ->
  Forall2 (fun f q => c_args (at_ (s_heap st') q) = c_args (at_ h f)) (t_fields (e_template e)) (e_fields e).
Proof.
  intros S a fuel l h qs st' e Hu Hs H Hin.
  assert (Hp : pargs S (eq a) h) by (intros pkg n t f Hl Hf Hpar; apply param_iff in Hpar as (x & Hx); symmetry; now apply (Hu pkg n t f x)).
  destruct (entry_fields S _ fuel l h qs st' e Hp Hs H Hin) as ((pkg & n & Hl) & types & HF).
  eapply Forall2_weaken; [|exact HF]. intros f q Hf Hok. cbn beta in Hok. destruct (param_of h (e_template e) f) eqn:E; [|assumption].
  destruct Hok as [_ <-]. now apply (Hp pkg n (e_template e) f).
Qed.
