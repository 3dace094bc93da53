(** Facts about names in generated code. *)

Require Import ZArith String Ascii List Bool Arith Lia.
From Verif Require Import Packages PackagesSpec PackagesFacts Members Names NamesSpec.
Import ListNotations.
Open Scope string_scope.

(** ** Strings *)

Lemma app_inj : forall a s t, a ++ s = a ++ t -> s = t.
Proof. induction a as [|c a IH]; intros s t H; [exact H|]. cbn in H. injection H as H. now apply IH. Qed.
Lemma app_empty : forall a s, a ++ s = a -> s = "".
Proof. induction a as [|c a IH]; intros s H; [exact H|]. cbn in H. injection H as H. now apply IH. Qed.
Lemma prefixes : forall a b s t, a ++ s = b ++ t -> (exists u, b = a ++ u) \/ (exists u, a = b ++ u).
Proof.
  induction a as [|c a IH]; intros b s t H; [left; now exists b|]. destruct b as [|d b]; [right; now exists (String c a)|].
  cbn in H. injection H as -> H. destruct (IH b s t H) as [(u & ->)|(u & ->)]; [left|right]; now exists u.
Qed.

Lemma NoDup_map_iff : forall A B (f : A -> B) l, (forall x y, f x = f y -> x = y) -> NoDup (map f l) <-> NoDup l.
Proof.
  intros A B f l Hf. split; [apply NoDup_map_inv|]. intro H. induction H as [|x l Hx H IH]; cbn; constructor; [|assumption].
  intro Hi. apply in_map_iff in Hi as (y & Hy & Hi). apply Hf in Hy. now subst.
Qed.
Lemma NoDup_app_iff : forall A (l l' : list A), NoDup (l ++ l')%list <-> NoDup l /\ NoDup l' /\ (forall x, In x l -> ~ In x l').
Proof.
  induction l as [|a l IH]; intro l'; cbn.
  - split; [|tauto]. intro H. repeat split; [constructor|assumption|tauto].
  - split.
    + intro H. inversion H as [|? ? Ha Hl]; subst. apply IH in Hl as (H1 & H2 & H3). rewrite in_app_iff in Ha. repeat split.
      * constructor; tauto.
      * assumption.
      * intros x [<-|Hx]; [tauto|now apply H3].
    + intros (H1 & H2 & H3). inversion H1 as [|? ? Ha Hl]; subst. constructor.
      * rewrite in_app_iff. intros [Hi|Hi]; [contradiction|]. exact (H3 a (or_introl eq_refl) Hi).
      * apply IH. repeat split; try assumption. intros x Hx. apply H3. now right.
Qed.

Lemma letter_cases : forall c, letter c <-> (is_upper c || is_lower c = true).
Proof.
  intro c. unfold letter, is_upper, is_lower. cbv zeta. rewrite orb_true_iff, !andb_true_iff, !Nat.leb_le. tauto.
Qed.
Lemma title_letter : forall n, starts_with_letter n -> starts_with_letter (title n).
Proof.
  intros [|c n] H; [destruct H|]. cbn [starts_with_letter title] in *. apply letter_cases. apply letter_cases in H.
  destruct c as [[] [] [] [] [] [] [] []]; try discriminate H; reflexivity.
Qed.
Lemma go_name_letter : forall d, starts_with_letter (schema_name d) -> starts_with_letter (go_name d).
Proof. intros [] H; cbn in *; auto using title_letter. Qed.
Lemma no_underscore : forall n s t, starts_with_letter n -> n ++ s <> "_" ++ t.
Proof. intros [|c n] s t H E; [destruct H|]. cbn in E. injection E as -> _. apply letter_cases in H. discriminate H. Qed.

(** ** One declaration *)

Lemma identifiers_iff : forall d, starts_with_letter (schema_name d) -> NoDup (identifiers d) <-> NoDup (suffixes d).
Proof.
  intros d H. apply go_name_letter in H. unfold identifiers. rewrite NoDup_app_iff, NoDup_map_iff by (intros x y; apply app_inj).
  split; [tauto|]. intro Hs. split; [assumption|]. split.
  - apply NoDup_map_iff; [intros x y E; cbn in E; injection E as E; now apply app_inj in E|]. destruct d; cbn; repeat constructor; cbn; intuition discriminate.
  - intros x Hx Hy. apply in_map_iff in Hx as (s & <- & _). apply in_map_iff in Hy as (t & E & _). symmetry in E. now apply no_underscore in E.
Qed.

Lemma enum_iff : forall n items, starts_with_letter n -> NoDup (identifiers (DEnum n items)) <->
  NoDup (map item_name items) /\ (forall i, In i items -> ~ In (item_name i) [""; "Values"; "Strings"; "String"]).
Proof.
  intros n items H. rewrite identifiers_iff by exact H. cbn [suffixes]. rewrite NoDup_cons_iff, NoDup_app_iff, in_app_iff. split.
  - intros (H1 & H2 & H3 & H4). split; [assumption|]. intros i Hi [E|Hx].
    + apply H1. left. rewrite E. now apply in_map.
    + apply (H4 (item_name i)); [now apply in_map|]. exact Hx.
  - intros (H1 & H2). split; [|split; [assumption|split]].
    + intros [Hi|[E|[E|[E|[]]]]]; try discriminate. apply in_map_iff in Hi as (i & E & Hi). apply (H2 i Hi). rewrite E. now left.
    + repeat constructor; cbn; intuition discriminate.
    + intros x Hx Hy. apply in_map_iff in Hx as (i & <- & Hi). apply (H2 i Hi). right. exact Hy.
Qed.

Lemma union_iff : forall n ps fs gs, starts_with_letter n -> NoDup (identifiers (DUnion n ps fs gs)) <->
  NoDup (map title fs) /\ ~ In "Undefined" (map title fs).
Proof.
  intros n ps fs gs H. rewrite identifiers_iff by exact H. cbn [suffixes]. rewrite !NoDup_cons_iff, NoDup_app_iff.
  rewrite <- (map_map title (fun s => "Choice" ++ s)). rewrite NoDup_map_iff by (intros x y; apply app_inj). cbn [In]. rewrite !in_app_iff, !in_map_iff. split.
  - intros (_ & H2 & H3 & _). split; [assumption|]. intro Hu. apply H2. left. exists "Undefined". split; [reflexivity|]. now apply in_map_iff.
  - intros (H1 & H2). split; [|split; [|split; [assumption|split]]].
    + intros [E|[(x & E & _)|[E|[]]]]; discriminate.
    + intros [(x & E & Hx)|[E|[]]]; [|discriminate]. change "ChoiceUndefined" with ("Choice" ++ "Undefined") in E. apply app_inj in E. subst. now apply H2, in_map_iff.
    + repeat constructor. intros [].
    + intros x Hx [<-|[]]. apply in_map_iff in Hx as (s & E & _). discriminate.
Qed.

Lemma bitmask_iff : forall n vs, starts_with_letter n -> NoDup (identifiers (DBitmask n vs)) <-> NoDup (map title vs) /\ ~ In "" vs.
Proof.
  intros n vs H. rewrite identifiers_iff by exact H. cbn [suffixes]. rewrite NoDup_cons_iff, in_map_iff. split.
  - intros [H1 H2]. split; [assumption|]. intro Hi. apply H1. now exists "".
  - intros [H1 H2]. split; [|assumption]. intros (x & E & Hx). apply H2. destruct x; [assumption|discriminate].
Qed.

(** ** A package *)

Lemma identifiers_apart : forall a b x, starts_with_letter (schema_name a) -> starts_with_letter (schema_name b) -> apart (go_name a) (go_name b) ->
  In x (identifiers a) -> ~ In x (identifiers b).
Proof.
  intros a b x Ha Hb Hap H1 H2. apply go_name_letter in Ha. apply go_name_letter in Hb.
  assert (Hno : forall s t, go_name a ++ s <> go_name b ++ t).
  { intros s t E. apply prefixes in E as [(u & E)|(u & E)]; [now apply (proj1 (Hap u))|now apply (proj2 (Hap u))]. }
  unfold identifiers in *. apply in_app_or in H1 as [H1|H1]; apply in_app_or in H2 as [H2|H2];
    apply in_map_iff in H1 as (s & <- & _); apply in_map_iff in H2 as (t & E & _).
  - symmetry in E. now apply Hno in E.
  - symmetry in E. now apply no_underscore in E.
  - now apply no_underscore in E.
  - cbn in E. injection E as E. symmetry in E. now apply Hno in E.
Qed.

Lemma package_distinct : forall ds, (forall d, In d ds -> starts_with_letter (schema_name d) /\ NoDup (identifiers d)) ->
  ForallOrdPairs (fun a b => apart (go_name a) (go_name b)) ds -> NoDup (flat_map identifiers ds).
Proof.
  intros ds H Hp. induction Hp as [|d ds Hd Hp IH]; [constructor|]. cbn. apply NoDup_app_iff. split; [apply H; now left|]. split.
  - apply IH. intros d' Hd'. apply H. now right.
  - intros x Hx Hin. apply in_flat_map in Hin as (d' & Hd' & Hin). rewrite Forall_forall in Hd.
    apply (identifiers_apart d d' x); try assumption; [apply H; now left|apply H; now right|now apply Hd].
Qed.

(** ** Members *)

Lemma methods_distinct : NoDup methods.
Proof. unfold methods. repeat constructor; cbn; intuition discriminate. Qed.

Lemma move : forall (a b m : list string), NoDup (a ++ m ++ b)%list <-> NoDup (a ++ b)%list /\ NoDup m /\ (forall x, In x (a ++ b)%list -> ~ In x m).
Proof.
  intros a b m. rewrite !NoDup_app_iff. setoid_rewrite in_app_iff. split.
  - intros (Ha & (Hm & Hb & Hmb) & H). split; [split; [assumption|split; [assumption|]]|split; [assumption|]].
    + intros x Hx Hxb. apply (H x Hx). now right.
    + intros x [Hx|Hx] Hxm; [apply (H x Hx); now left|now apply (Hmb x)].
  - intros ((Ha & Hb & Hab) & Hm & H). split; [assumption|]. split.
    + split; [assumption|]. split; [assumption|]. intros x Hx Hxb. apply (H x); [now right|assumption].
    + intros x Hx [Hxm|Hxb]; [apply (H x); [now left|assumption]|now apply (Hab x)].
Qed.

Lemma struct_members : forall n ps fs gs, NoDup (members (DStruct n ps fs gs)) <->
  NoDup (map title (ps ++ fs ++ gs)) /\ forall x, In x (ps ++ fs ++ gs)%list -> ~ In (title x) methods.
Proof.
  intros n ps fs gs. cbn [members]. rewrite app_assoc, <- map_app, move, <- map_app, <- app_assoc. pose proof methods_distinct as Hm. split.
  - intros (H1 & _ & H2). split; [assumption|]. intros x Hx. apply H2. now apply in_map.
  - intros (H1 & H2). split; [assumption|]. split; [assumption|]. intros x Hx. apply in_map_iff in Hx as (y & <- & Hy). now apply H2.
Qed.
Lemma choice_members : forall n ps fs, NoDup (members (DChoice n ps fs)) <->
  NoDup (map title (ps ++ fs)) /\ forall x, In x (ps ++ fs)%list -> ~ In (title x) methods.
Proof.
  intros n ps fs. pose proof (struct_members n ps fs []) as H. cbn [members map] in *. rewrite !app_nil_r in H. exact H.
Qed.
Lemma union_members : forall n ps fs gs, NoDup (members (DUnion n ps fs gs)) <->
  NoDup (map title (ps ++ fs ++ gs)) /\ forall x, In x (ps ++ fs ++ gs)%list -> ~ In (title x) ("UnionChoice" :: methods).
Proof.
  intros n ps fs gs. pose proof (struct_members n ps fs gs) as H.
  change (members (DUnion n ps fs gs)) with ("UnionChoice" :: members (DStruct n ps fs gs)). rewrite NoDup_cons_iff, H. clear H. cbn [members].
  rewrite !in_app_iff. split.
  - intros (H1 & H2 & H3). split; [assumption|]. intros x Hx [E|Hi]; [|now apply (H3 x)]. apply H1. rewrite !in_app_iff in Hx. rewrite E.
    destruct Hx as [Hx|[Hx|Hx]]; apply (in_map title) in Hx; tauto.
  - intros (H1 & H2). split; [|split; [assumption|]].
    + assert (Hg : forall l, (forall x, In x l -> In x (ps ++ fs ++ gs)%list) -> ~ In "UnionChoice" (map title l)).
      { intros l Hl Hi. apply in_map_iff in Hi as (x & E & Hx). apply (H2 x (Hl x Hx)). now left. }
      intros [Hi|[Hi|[Hi|Hi]]].
      * apply (Hg ps) in Hi; [assumption|]. intros x Hx. rewrite !in_app_iff. tauto.
      * apply (Hg fs) in Hi; [assumption|]. intros x Hx. rewrite !in_app_iff. tauto.
      * cbn in Hi. intuition discriminate.
      * apply (Hg gs) in Hi; [assumption|]. intros x Hx. rewrite !in_app_iff. tauto.
    + intros x Hx Hi. apply (H2 x Hx). now right.
Qed.

(** ** Items *)

Lemma letter_facts : forall c, letter c -> is_lower (lower c) = true /\ is_upper (lower c) = false /\ is_upper (upper (lower c)) = true /\ lower (upper (lower c)) = lower c.
Proof. intros c H. apply letter_cases in H. destruct c as [[] [] [] [] [] [] [] []]; try discriminate H; repeat split. Qed.

Fixpoint decode (first : bool) (s : string) : string :=
  match s with
  | EmptyString => EmptyString
  | String c r => if is_upper c then (if first then "" else "_") ++ String (lower c) (decode false r) else String c (decode false r)
  end.
Lemma decode_camel : forall s, word s ->
  decode true (camel_from true (lowered s)) = lowered s /\ decode false (camel_from false (lowered s)) = lowered s /\
  decode false (camel_from true (lowered s)) = "_" ++ lowered s.
Proof.
  intros s H. induction H as [c Hc|c s Hc Hs (IH1 & IH2 & IH3)|c s Hc Hs (IH1 & IH2 & IH3)]; destruct (letter_facts c Hc) as (E1 & E2 & E3 & E4);
    cbn [lowered camel_from]; rewrite E1; cbn [decode camel_from]; rewrite ?E2, ?E3, ?E4.
  - now repeat split.
  - rewrite IH2. now repeat split.
  - change (is_lower (lower "_")) with false. change (is_digit (lower "_")) with false. cbn iota. rewrite IH3. now repeat split.
Qed.
Lemma items_distinct : forall a b, word a -> word b -> item_name a = item_name b -> same_letters a b.
Proof.
  intros a b Ha Hb E. unfold same_letters. rewrite <- (proj1 (decode_camel a Ha)), <- (proj1 (decode_camel b Hb)). unfold item_name, ToCamel in E. now rewrite E.
Qed.

(** ** References *)

Lemma reference_iff : forall d p, p <> "" -> PackageGoType p (mkTR false p (schema_name d) 0) = Some (go_name d) <->
  match d with DSubtype n | DStruct n _ _ _ | DChoice n _ _ => title n = n | _ => True end.
Proof.
  intros d p Hp. unfold PackageGoType. cbn [tr_builtin tr_package tr_name]. destruct (String.eqb_spec p "") as [|_]; [contradiction|]. rewrite String.eqb_refl.
  destruct d; cbn; split; intro H; try exact I; try reflexivity; congruence.
Qed.

Lemma symbol_unknown : forall f w q n, In q w -> acyclic w q -> (length w <= f)%nat -> unknown_name w q n -> GetSymbol f w q n = Unknown.
Proof.
  intros f w q n Hq Ha Hf ((H1 & H2 & H3 & H4) & H5). unfold GetSymbol. rewrite no_type, no_compound by assumption. now apply other_nothing.
Qed.

Lemma lost_type : forall f w p q t, distinct w -> In p w -> acyclic w p -> (length w <= f)%nat -> tr_builtin t = false ->
  reach w p q -> p_name q = tr_package t -> unknown_name w q (title (tr_name t)) -> GetOriginalType f w p (capitalised t) = Unknown.
Proof.
  intros f w p q t Hd Hp Ha Hf Hb Hr Hn Hu.
  assert (Haq : acyclic w q) by (intros r Hqr; apply Ha; now apply (reach_trans w p q)). unfold GetOriginalType, capitalised. rewrite Hb. generalize 100%nat. intro left.
  assert (Hq : In q w) by (eapply reach_in; eassumption).
  destruct left; cbn [original_loop tr_builtin tr_package tr_name]; rewrite (scope_found f w p (tr_package t) q) by assumption;
    rewrite (symbol_unknown f w q (title (tr_name t))) by assumption; reflexivity.
Qed.

Lemma other_type : forall f w p q t s, distinct w -> In p w -> acyclic w p -> (length w <= f)%nat -> tr_builtin t = false ->
  reach w p q -> p_name q = tr_package t -> declares q (title (tr_name t)) s ->
  match s with SyEnum _ | SyUnion _ | SyBitmask _ | SyChoice _ | SyStruct _ => True | _ => False end ->
  GetOriginalType f w p (capitalised t) = Found (mkO (capitalised t) false true) /\ GetSymbol f w q (tr_name (capitalised t)) = Found (p_name q, s).
Proof.
  intros f w p q t s Hd Hp Ha Hf Hb Hr Hn Hs Hk. unfold GetOriginalType, capitalised. rewrite Hb. cbn [tr_name]. generalize 100%nat. intro left.
  assert (E : GetSymbol f w q (title (tr_name t)) = Found (p_name q, s)) by (unfold GetSymbol, GetType; unfold declares in Hs; now rewrite Hs).
  split; [|exact E]. destruct left; cbn [original_loop tr_builtin tr_package tr_name]; rewrite (scope_found f w p (tr_package t) q) by assumption;
    rewrite E; destruct s; try destruct Hk; reflexivity.
Qed.
