(** C98: the arguments of the types in template instances. *)

Require Import String List Bool Arith Lia.
From Verif Require Import Members TypeArgs TypeArgsSpec TypeArgsFacts.
Import ListNotations.

(** The fields outside of templates, the subtypes and the instantiate declarations keep
    the arguments that are written there. *)
Theorem C98_uses : forall S fuel l h qs st', separate S l h -> InstantiateTemplates fuel S l (mkS h []) = Good (qs, st') ->
  Forall2 (fun u q => c_args (at_ (s_heap st') q) = c_args (at_ h (u_type u))) l qs.
Proof. exact uses_kept. Qed.
Print Assumptions C98_uses.

(** So do the fields of all instances whose types are no template parameters. *)
Theorem C98_fields : forall S fuel l h qs st' e, separate S l h -> InstantiateTemplates fuel S l (mkS h []) = Good (qs, st') -> In e (s_made st') ->
  Forall2 (fun f q => (forall x, ~ is_parameter h (e_template e) f x) -> c_args (at_ (s_heap st') q) = c_args (at_ h f)) (t_fields (e_template e)) (e_fields e).
Proof. exact fields_kept. Qed.
Print Assumptions C98_fields.

(** Fields of the same template parameter have the same arguments in an instance,
    whatever is written in the template. *)
Theorem C98_shared : forall S fuel l h qs st' e i j f g x p q, separate S l h -> InstantiateTemplates fuel S l (mkS h []) = Good (qs, st') -> In e (s_made st') ->
  nth_error (t_fields (e_template e)) i = Some f -> nth_error (t_fields (e_template e)) j = Some g -> is_parameter h (e_template e) f x -> is_parameter h (e_template e) g x ->
  nth_error (e_fields e) i = Some p -> nth_error (e_fields e) j = Some q -> c_args (at_ (s_heap st') p) = c_args (at_ (s_heap st') q).
Proof.
  intros S fuel l h qs st' e i j f g x p q Hs H Hin Hf Hg Pf Pg Hp Hq. now rewrite (fields_shared S fuel l h qs st' e i j f g x p q Hs H Hin Hf Hg Pf Pg Hp Hq).
Qed.
Print Assumptions C98_shared.

(** So one of them is wrong when the template has different ones. *)
Theorem C98_wrong : forall S fuel l h qs st' e i j f g x p q, separate S l h -> InstantiateTemplates fuel S l (mkS h []) = Good (qs, st') -> In e (s_made st') ->
  nth_error (t_fields (e_template e)) i = Some f -> nth_error (t_fields (e_template e)) j = Some g -> is_parameter h (e_template e) f x -> is_parameter h (e_template e) g x ->
  nth_error (e_fields e) i = Some p -> nth_error (e_fields e) j = Some q -> c_args (at_ h f) <> c_args (at_ h g) ->
  c_args (at_ (s_heap st') p) <> c_args (at_ h f) \/ c_args (at_ (s_heap st') q) <> c_args (at_ h g).
Proof.
  intros S fuel l h qs st' e i j f g x p q Hs H Hin Hf Hg Pf Pg Hp Hq Hne. pose proof (C98_shared S fuel l h qs st' e i j f g x p q Hs H Hin Hf Hg Pf Pg Hp Hq) as E.
  destruct (list_eq_dec Nat.eq_dec (c_args (at_ (s_heap st') p)) (c_args (at_ h f))) as [E1|N]; [|now left]. right. congruence.
Qed.
Print Assumptions C98_wrong.

(** All of them are right when all fields of template parameters have the same
    arguments, as when they have none. *)
Theorem C98_uniform : forall S a fuel l h qs st' e, uniform S h a -> separate S l h -> InstantiateTemplates fuel S l (mkS h []) = Good (qs, st') -> In e (s_made st') ->
  Forall2 (fun f q => c_args (at_ (s_heap st') q) = c_args (at_ h f)) (t_fields (e_template e)) (e_fields e).
Proof. exact fields_uniform. Qed.
Print Assumptions C98_uniform.

(** ** Examples

    package a;
    struct Inner(uint8 n) { ... };  struct Other(uint8 n) { ... };
    struct Pair<T> { T(1) first; T(2) second; Other(3) third; };
    struct Both<T> { T(4) own; Pair<T> rest; };
    struct User { Pair<Inner> pair; };  struct Last { Both<Other> both; };

    The expressions are numbered by their values. *)
Open Scope string_scope.
Definition cells : heap := [
  mkC "" "T" [] [1]; mkC "" "T" [] [2]; mkC "a" "Other" [] [3];    (* Pair: 0, 1, 2 *)
  mkC "" "T" [] [4]; mkC "" "T" [] []; mkC "a" "Pair" [4] [];      (* Both: 3, 5 *)
  mkC "a" "Inner" [] []; mkC "a" "Pair" [6] [];                    (* User: 7 *)
  mkC "a" "Other" [] []; mkC "a" "Both" [8] []].                   (* Last: 9 *)
Definition pair : template := mkT false ["T"] [0; 1; 2].
Definition both : template := mkT false ["T"] [3; 5].
Definition S0 : schema := mkSch (fun _ n => if n =? "Pair" then Some pair else if n =? "Both" then Some both else None) (fun _ _ _ => false).
Definition user : use := mkU "a" None 7.
Definition last : use := mkU "a" None 9.

Definition args_of (r : out (list pointer * state)) : list (string * list (list expression)) :=
  match r with
  | Good (_, st) => map (fun e => (e_name e, map (fun q => c_args (at_ (s_heap st) q)) (e_fields e))) (s_made st)
  | _ => []
  end.

(** Decides [separate] for these schemas. *)
Definition separate_b (l : list use) (h : heap) : bool :=
  forallb (fun c => forallb (fun q => (Nat.ltb q (length h)) && negb (existsb (Nat.eqb q) ([0; 1; 2; 3; 5] ++ map u_type l))) (c_targs c)) h &&
  forallb (fun f => Nat.ltb f (length h)) ([0; 1; 2; 3; 5] ++ map u_type l).
Lemma separate_decide : forall l h, separate_b l h = true -> separate S0 l h.
Proof.
  intros l h H. apply andb_true_iff in H as [H1 H2]. rewrite forallb_forall in H1, H2.
  assert (G : forall p q, p < length h -> In q (c_targs (at_ h p)) -> q < length h /\ ~ In q ([0; 1; 2; 3; 5] ++ map u_type l)).
  { intros p q Hp Hq. pose proof (H1 (at_ h p) (nth_In h nothing Hp)) as X. rewrite forallb_forall in X. specialize (X q Hq). apply andb_true_iff in X as [X Y].
    apply Nat.ltb_lt in X. split; [assumption|]. intro Z. apply negb_true_iff in Y. assert (existsb (Nat.eqb q) ([0; 1; 2; 3; 5] ++ map u_type l) = true); [|congruence].
    apply existsb_exists. exists q. split; [assumption|apply Nat.eqb_refl]. }
  split; [intros p q Hp Hq; now apply (G p)|]. intros f p Hf.
  assert (Hin : In f ([0; 1; 2; 3; 5] ++ map u_type l)).
  { apply in_or_app. destruct Hf as [(pkg & n & t & Hl & Hf)|(u & Hu & <-)]; [left|right; now apply in_map]. cbn [lookup S0] in Hl.
    destruct (n =? "Pair"); [injection Hl as <-|destruct (n =? "Both"); [injection Hl as <-|discriminate]]; cbn in Hf |- *; tauto. }
  split; [apply Nat.ltb_lt; now apply H2|]. intros Hp Hq. now apply (G p f Hp Hq).
Qed.

(** Both fields of PairInner are Inner(2); the field own of BothOther is Other(2) as
    well, because of the Pair inside. *)
Example C98_applies : separate S0 [user; last] cells /\
  args_of (InstantiateTemplates 5 S0 [user; last] (mkS cells [])) =
    [("PairInner", [[2]; [2]; [3]]); ("PairOther", [[2]; [2]; [3]]); ("BothOther", [[2]; []])] /\
  is_parameter cells pair 0 "T" /\ is_parameter cells pair 1 "T" /\ (forall x, ~ is_parameter cells pair 2 x).
Proof.
  split; [now apply separate_decide|]. split; [vm_compute; reflexivity|]. split; [now repeat split; cbn; left|]. split; [now repeat split; cbn; left|].
  intros x (_ & H & _). discriminate.
Qed.

(** The same templates with the same arguments everywhere. *)
Definition cells1 : heap := [
  mkC "" "T" [] [1]; mkC "" "T" [] [1]; mkC "a" "Other" [] [3]; mkC "" "T" [] [1]; mkC "" "T" [] []; mkC "a" "Pair" [4] [];
  mkC "a" "Inner" [] []; mkC "a" "Pair" [6] []; mkC "a" "Other" [] []; mkC "a" "Both" [8] []].
Example C98_uniform_applies : separate S0 [user; last] cells1 /\ uniform S0 cells1 [1] /\
  args_of (InstantiateTemplates 5 S0 [user; last] (mkS cells1 [])) =
    [("PairInner", [[1]; [1]; [3]]); ("PairOther", [[1]; [1]; [3]]); ("BothOther", [[1]; []])].
Proof.
  split; [now apply separate_decide|]. split; [|vm_compute; reflexivity]. intros pkg n t f x Hl Hf (Ht & Hp & Hn & Hx). cbn [lookup S0] in Hl.
  destruct (n =? "Pair"); [injection Hl as <-|destruct (n =? "Both"); [injection Hl as <-|discriminate]]; cbn in Hf.
  - destruct Hf as [<-|[<-|[<-|[]]]]; [reflexivity|reflexivity|discriminate Hp].
  - destruct Hf as [<-|[<-|[]]]; [reflexivity|discriminate Ht].
Qed.

(** So it is not true that all fields of instances get the arguments of the template,
    and not even that one field of a parameter does: [own] is changed by the instance of
    another template. *)
Theorem C98_arguments_refuted : exists S fuel l h qs st', separate S l h /\ InstantiateTemplates fuel S l (mkS h []) = Good (qs, st') /\
  (exists e, In e (s_made st') /\ ~ Forall2 (fun f q => c_args (at_ (s_heap st') q) = c_args (at_ h f)) (t_fields (e_template e)) (e_fields e)) /\
  exists e f p, In e (s_made st') /\ (forall g x, In g (t_fields (e_template e)) -> is_parameter h (e_template e) g x -> g = f) /\
    nth_error (t_fields (e_template e)) 0 = Some f /\ nth_error (e_fields e) 0 = Some p /\ c_args (at_ (s_heap st') p) <> c_args (at_ h f).
Proof.
  exists S0, 5, [user; last], cells. eexists. eexists. split; [now apply separate_decide|]. split; [vm_compute; reflexivity|]. cbn [s_made s_heap]. split.
  - eexists. split; [now left|]. cbn. intro H. inversion H as [|? ? ? ? X Y]. discriminate X.
  - eexists. exists 3. eexists. split; [right; right; now left|]. cbn [e_template e_fields t_fields]. split.
    + intros g x [<-|[<-|[]]] (Ht & _); [reflexivity|discriminate Ht].
    + split; [reflexivity|]. split; [reflexivity|]. cbn. discriminate.
Qed.
Print Assumptions C98_arguments_refuted.
